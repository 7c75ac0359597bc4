(** * Proofs about the dataset loaders *)
From Verif Require Import Prelude M_Fuzzy M_Discretize M_Rule M_FDT M_ID3 M_Neighborhood M_Sampling M_Genetic M_Utils S_Utils P_FuzzyVar P_Counterfactual P_Genetic P_Utils2 P_Utils3 P_Utils4 M_Datasets S_Datasets.
Unset Implicit Arguments.
Open Scope string_scope. Open Scope list_scope. Open Scope Qc_scope.

Section Tables.
  Context {A : Type}.
  Implicit Types (df : dict string A).
  Lemma select_spec cols df df' : NoDup cols -> select cols df = Ok df' -> rearranged cols df df' /\ incl cols (dkeys df).
  Proof.
    intros ND H. apply mapM_ok in H. 
    assert (K : dkeys df' = cols /\ Forall2 (fun c cv => fst cv = c /\ dget c df = Some (snd cv)) cols df').
    { clear ND. induction H as [|c [d v] l l' E F (IK & IF)]; [split; [reflexivity|constructor]|]. destruct (dget c df) as [w|] eqn:G; [|discriminate]. cbn in E. injection E as <- <-. split; [cbn; f_equal; exact IK|]. constructor; [split; [reflexivity|exact G]|exact IF]. }
    destruct K as (K & F). split; [split; [exact K|]|].
    - intros c I. apply In_nth_error in I. destruct I as (i & I). destruct (Forall2_nth F i I) as ([d v] & N & E & G). cbn in E, G. subst d. rewrite G. apply dget_nodup; [rewrite K; exact ND|]. exact (nth_error_In _ _ N).
    - intros c I. apply In_nth_error in I. destruct I as (i & I). destruct (Forall2_nth F i I) as ([d v] & N & E & G). exact (dget_Some_key _ _ G).
  Qed.
  Lemma select_total cols df : incl cols (dkeys df) -> exists df', select cols df = Ok df'.
  Proof. intros I. apply mapM_total. intros c C. destruct (dget_ex _ _ (I c C)) as (v & E). rewrite E. eexists. reflexivity. Qed.
  Lemma mapM_first_err {B C} (f : B -> res C) l x e : In x l -> f x = Err e -> (forall y, In y l -> (exists v, f y = Ok v) \/ f y = Err e) -> mapM f l = Err e.
  Proof.
    intros I E. induction l as [|y l IH]; intro O; [contradiction|]. cbn [mapM]. destruct (O y (or_introl eq_refl)) as [(v & V)|V]; rewrite V; [|reflexivity]. cbn [bind].
    destruct I as [->|I]; [congruence|]. rewrite IH; [reflexivity|exact I|]. intros z Z. apply O. right. exact Z.
  Qed.
  Lemma select_missing cols df c : In c cols -> ~ In c (dkeys df) -> select cols df = Err KeyError.
  Proof.
    intros I N. apply (mapM_first_err _ _ c); [exact I| |].
    - apply dget_None in N. rewrite N. reflexivity.
    - intros d D. destruct (dget d df); [left; eexists; reflexivity|right; reflexivity].
  Qed.
  Lemma dkeys_filter c df : dkeys (filter (fun cv : string * A => negb (eqb (fst cv) c)) df) = others c (dkeys df).
  Proof. unfold dkeys, others. induction df as [|[d v] df IH]; [reflexivity|]. cbn [filter map fst]. destruct (eqb d c); cbn [negb map fst]; [exact IH|f_equal; exact IH]. Qed.
  Lemma dget_others c d df : d <> c -> dget d (filter (fun cv : string * A => negb (eqb (fst cv) c)) df) = dget d df.
  Proof.
    intro N. induction df as [|[k v] df IH]; [reflexivity|]. cbn [filter fst]. destruct (eqb k c) eqn:E; cbn [negb].
    - apply eqb_eq in E. subst k. cbn [dget fst snd]. rewrite (proj2 (@eqb_neq _ _ d c) N). exact IH.
    - cbn [dget fst snd]. destruct (eqb d k); [reflexivity|exact IH].
  Qed.
  Lemma del_spec df c df' : del_column df c = Ok df' -> In c (dkeys df) /\ dkeys df' = others c (dkeys df) /\ forall d, d <> c -> dget d df' = dget d df.
  Proof.
    unfold del_column. destruct (memb c (dkeys df)) eqn:M; [|discriminate]. intro H. assert (E : df' = filter (fun cv : string * A => negb (eqb (fst cv) c)) df) by congruence. subst df'.
    split; [exact (proj1 (@memb_In _ _ c (dkeys df)) M)|]. split; [apply dkeys_filter|]. intros d. apply dget_others.
  Qed.
  Lemma others_In c d l : In d (others c l) <-> In d l /\ d <> c.
  Proof. unfold others. rewrite filter_In. split; intros (I & E); split; try exact I. - intros ->. rewrite eqb_refl in E. discriminate. - rewrite (proj2 (@eqb_neq _ _ d c) E). reflexivity. Qed.
  Lemma without_cons c l (K : list string) : without l (others c K) = without (c :: l) K.
  Proof.
    unfold without, others. induction K as [|k K IH]; [reflexivity|]. cbn [filter memb existsb]. unfold memb in *. cbn [existsb]. destruct (eqb k c) eqn:E.
    - cbn [negb orb]. exact IH.
    - cbn [negb orb filter]. rewrite IH. reflexivity.
  Qed.
  Lemma dels_spec l df df' : foldM del_column df l = Ok df' -> incl l (dkeys df) /\ dkeys df' = without l (dkeys df) /\ forall d, ~ In d l -> dget d df' = dget d df.
  Proof.
    revert df. induction l as [|c l IH]; intros df H.
    - cbn in H. assert (df' = df) by congruence. subst. split; [intros x []|]. split; [|reflexivity]. unfold without. cbn. induction (dkeys df) as [|k K IH]; [reflexivity|]. cbn. f_equal. exact IH.
    - cbn [foldM] in H. destruct (del_column df c) as [df1|] eqn:D; [|discriminate]. cbn [bind] in H. destruct (del_spec _ _ _ D) as (I & K & G). destruct (IH _ H) as (I' & K' & G'). split; [|split].
      + intros x [<-|X]; [exact I|]. apply I' in X. rewrite K in X. apply others_In in X. tauto.
      + rewrite K', K. apply without_cons.
      + intros d N. rewrite G'; [apply G|]; cbn in N; intuition congruence.
  Qed.
  Lemma dels_total l df : NoDup l -> incl l (dkeys df) -> exists df', foldM del_column df l = Ok df'.
  Proof.
    revert df. induction l as [|c l IH]; intros df ND I; [eexists; reflexivity|]. inversion ND as [|? ? NI ND']; subst. cbn [foldM]. assert (M : memb c (dkeys df) = true) by (apply memb_In, I; left; reflexivity).
    destruct (del_column df c) as [df1|e] eqn:D; [|unfold del_column in D; rewrite M in D; discriminate]. cbn [bind]. apply IH; [exact ND'|]. destruct (del_spec _ _ _ D) as (_ & K & _). intros x X. rewrite K. apply others_In. split; [apply I; right; exact X|]. intros ->. contradiction.
  Qed.
  Lemma class_first_spec cls df df' : NoDup (dkeys df) -> class_first cls df = Ok df' -> In cls (dkeys df) /\ rearranged (cls :: others cls (dkeys df)) df df'.
  Proof.
    intros ND H. unfold class_first in H. destruct (list_remove cls (dkeys df)) as [rest|] eqn:R; [|discriminate]. cbn [bind] in H. destruct (list_remove_filter cls ND R) as (I & ->). split; [exact I|].
    apply (select_spec _ _ _) in H; [exact (proj1 H)|]. constructor; [intro X; apply (others_In cls cls) in X; tauto|apply NoDup_filter; exact ND].
  Qed.
  Lemma class_first_total cls df : NoDup (dkeys df) -> In cls (dkeys df) -> exists df', class_first cls df = Ok df'.
  Proof.
    intros ND I. unfold class_first. destruct (list_remove_total cls (dkeys df) I) as (rest & R). rewrite R. cbn [bind]. destruct (list_remove_filter cls ND R) as (_ & ->). apply select_total. intros x [<-|X]; [exact I|]. apply (others_In cls) in X. tauto.
  Qed.
  Lemma rotate_perm {B} (l : list B) : Permutation (skipn (List.length l - 1) l ++ firstn (List.length l - 1) l) l.
  Proof. rewrite <- (firstn_skipn (List.length l - 1) l) at 5. apply Permutation_app_comm. Qed.
  Lemma rotate_last {B} (l : list B) x : skipn (List.length (l ++ [x]) - 1) (l ++ [x]) ++ firstn (List.length (l ++ [x]) - 1) (l ++ [x]) = x :: l.
  Proof. rewrite app_length. cbn [List.length]. replace (List.length l + 1 - 1)%nat with (List.length l) by lia. rewrite skipn_app, firstn_app, Nat.sub_diag, skipn_all, firstn_all. cbn. rewrite app_nil_r. reflexivity. Qed.
  Lemma last_first_spec df df' l x : NoDup (dkeys df) -> dkeys df = l ++ [x] -> last_first df = Ok df' -> rearranged (x :: l) df df'.
  Proof.
    intros ND K H. unfold last_first in H. rewrite K, rotate_last in H. apply select_spec in H; [exact (proj1 H)|]. rewrite K in ND. eapply Permutation_NoDup; [apply Permutation_sym, Permutation_cons_append|exact ND].
  Qed.
  Lemma last_first_total df : exists df', last_first df = Ok df'.
  Proof. apply select_total. intros x X. apply (Permutation_in _ (rotate_perm (dkeys df))). exact X. Qed.
  Lemma rearranged_In cols df df' c v : NoDup (dkeys df) -> NoDup cols -> rearranged cols df df' -> In (c, v) df' -> In (c, v) df.
  Proof.
    intros ND NC (K & G) I. assert (C : In c cols) by (rewrite <- K; exact (in_map fst _ _ I)). apply dget_In. rewrite <- (G c C). apply dget_nodup; [rewrite K; exact NC|exact I].
  Qed.
End Tables.

Lemma rearranged_typed dt cols (df df' : frame) : NoDup (dkeys df) -> NoDup cols -> rearranged cols df df' -> typed dt df -> typed dt df'.
Proof. intros ND NC R T c col I. exact (T c col (rearranged_In _ _ _ _ _ ND NC R I)). Qed.
Lemma rearranged_rect n cols (df df' : frame) : NoDup cols -> rearranged cols df df' -> rectangular n df -> rectangular n df'.
Proof. intros NC R (ND & L). split; [rewrite (proj1 R); exact NC|]. intros c col I. exact (L c col (rearranged_In _ _ _ _ _ ND NC R I)). Qed.
Lemma others_nodup cls l : NoDup l -> NoDup (cls :: others cls l).
Proof. intro N. constructor; [intro X; apply others_In in X; tauto|apply NoDup_filter; exact N]. Qed.

(** ** load_adult *)
Definition swap_unknown (t x : cell) : cell := if eqb x (CStr "?") then t else x.
Lemma replace_spec top (df df' : frame) : replace_unknown top df = Ok df' ->
  dkeys df' = dkeys df /\ forall c col, dget c df = Some col -> exists t, top col = Ok t /\ dget c df' = Some (map (swap_unknown t) col).
Proof.
  intro H. apply mapM_ok in H. induction H as [|[k col0] [k' col'] l l' E F (IK & IG)]; [split; [reflexivity|discriminate]|].
  cbn [fst snd] in E. destruct (top col0) as [t|] eqn:TE; [|discriminate]. cbn [bind] in E. assert (K1 : k' = k) by congruence. assert (C1 : col' = map (swap_unknown t) col0) by (unfold swap_unknown; congruence). subst k' col'. split; [cbn [dkeys map fst]; f_equal; exact IK|].
  intros c col G. cbn [dget fst snd] in *. destruct (eqb c k); [|exact (IG c col G)]. assert (col0 = col) by congruence. subst col0. exists t. split; [exact TE|reflexivity].
Qed.
Lemma replace_total top (df : frame) : (forall c col, In (c, col) df -> exists t, top col = Ok t) -> exists df', replace_unknown top df = Ok df'.
Proof. intro H. apply mapM_total. intros [c col] I. cbn [fst snd]. destruct (H c col I) as (t & ->). eexists. reflexivity. Qed.
Lemma occurrences_pos v l : In v l <-> (0 < occurrences v l)%nat.
Proof.
  unfold occurrences. induction l as [|w l IH]; cbn [filter List.length In]; [split; [tauto|lia]|]. destruct (eqb w v) eqn:E.
  - apply eqb_eq in E. subst. cbn [List.length]. split; [lia|tauto].
  - apply eqb_neq in E. rewrite <- IH. tauto.
Qed.
Lemma adult_spec top (df df' : frame) : NoDup (dkeys df) -> adult_table top df = Ok df' ->
  incl ["fnlwgt"; "education-num"] (dkeys df) /\
  (forall l x, without ["fnlwgt"; "education-num"] (dkeys df) = l ++ [x] -> dkeys df' = x :: l) /\
  Permutation (dkeys df') (without ["fnlwgt"; "education-num"] (dkeys df)) /\
  forall c, In c (without ["fnlwgt"; "education-num"] (dkeys df)) -> exists col t, dget c df = Some col /\ top col = Ok t /\ dget c df' = Some (map (swap_unknown t) col).
Proof.
  intros ND H. unfold adult_table in H. destruct (foldM del_column df ["fnlwgt"; "education-num"]) as [df1|] eqn:D; [|discriminate]. cbn [bind] in H. destruct (replace_unknown top df1) as [df2|] eqn:E; [|discriminate]. cbn [bind] in H.
  destruct (dels_spec _ _ _ D) as (I & K1 & G1). destruct (replace_spec _ _ _ E) as (K2 & G2). set (kept := without ["fnlwgt"; "education-num"] (dkeys df)) in *.
  assert (NK : NoDup kept) by (apply NoDup_filter; exact ND).
  unfold last_first in H. rewrite K2, K1 in H. assert (P := rotate_perm kept). apply select_spec in H; [|eapply Permutation_NoDup; [apply Permutation_sym, P|exact NK]]. destruct H as ((K3 & G3) & _). split; [exact I|]. split; [|split].
  - intros l x EQ. rewrite K3, EQ. apply rotate_last.
  - rewrite K3. exact P.
  - intros c C. assert (N : ~ In c ["fnlwgt"; "education-num"]). { apply filter_In in C. destruct C as (_ & M). apply (proj1 (@memb_not_In _ _ c _)). destruct (memb c ["fnlwgt"; "education-num"]); [discriminate|reflexivity]. }
    assert (C1 : In c (dkeys df1)) by (rewrite K1; exact C). destruct (dget_ex _ _ C1) as (col & E1). destruct (G2 c col E1) as (t & TT & E2). exists col, t. split; [rewrite <- (G1 c N); exact E1|]. split; [exact TT|]. rewrite G3; [exact E2|]. apply (Permutation_in _ (Permutation_sym P)). exact C.
Qed.

(** ** load_compas *)
Lemma truncated_floor q : 0 <= q -> truncated q (Qround.Qfloor (this q)).
Proof. intro P. destruct (truncate_spec q) as (z & E & T). unfold truncate in E. assert (L : qltb q 0 = false) by (apply qltb_ge; exact P). rewrite L in E. apply (proj1 (qz_inj _ _)) in E. subst z. exact T. Qed.
Lemma fill_spec top col col1 col2 : mode_oracle top -> fill top col = Ok col1 -> mapM int_cell col1 = Ok col2 -> filled_up col col2.
Proof.
  intros MO F I. unfold fill in F. fold (present col) in F. destruct (top (present col)) as [m|] eqn:T; [|discriminate]. cbn [bind] in F. assert (E : col1 = map (fun x => match x with Some v => Some v | None => Some m end) col) by congruence. subst col1. clear F.
  exists m. split; [|split].
  - destruct MO as (M0 & M1). destruct (present col) as [|v l]; [congruence|]. destruct (M1 (v :: l)) as (v' & V & A); [discriminate|]. assert (v' = m) by congruence. subst. exact A.
  - apply mapM_length in I. rewrite map_length in I. exact I.
  - intros i x X. destruct (mapM_nth_error _ _ I) as (_ & G). destruct (G i (Some match x with Some v => v | None => m end)) as (y & Y & N). { rewrite nth_error_map, X. destruct x; reflexivity. }
    unfold int_cell in Y. destruct (match x with Some v => v | None => m end) as [q|s] eqn:EQ; [|discriminate]. destruct (truncate_spec q) as (z & TZ & TS). exists q, z. split; [reflexivity|]. split; [exact TS|]. rewrite N. f_equal. rewrite TZ in Y. congruence.
Qed.
Lemma abs_spec col col' : mapM abs_cell col = Ok col' -> col' = map absolute col /\ forall x, In (Some x) col -> exists q, x = CNum q.
Proof.
  intro H. apply mapM_ok in H. induction H as [|x y l l' E F (IE & IN)]; [split; [reflexivity|intros x []]|]. split.
  - cbn [map]. rewrite IE. f_equal. destruct x as [[q|s]|]; cbn in *; congruence.
  - intros v [->|V]; [|exact (IN v V)]. destruct v as [q|s]; [exists q; reflexivity|discriminate].
Qed.
Lemma stays_spec parse outs ins t_out t_in col : mapM (time_of parse) outs = Ok t_out -> mapM (time_of parse) ins = Ok t_in -> List.length outs = List.length ins ->
  mapM abs_cell (map2 days_between t_out t_in) = Ok col -> col = map2 (stay parse) outs ins.
Proof.
  intros O I L A. destruct (abs_spec _ _ A) as (-> & _). clear A. apply mapM_ok in O, I. revert ins t_in I L. induction O as [|x y l l' E F IH]; intros ins t_in I L; destruct I as [|x' y' m m' E' F']; try discriminate; [reflexivity|].
  unfold map2 in *. cbn [zip combine map fst snd]. f_equal; [|apply IH; [exact F'|exact (f_equal pred L)]]. 
  destruct x as [[q|s]|]; cbn in E; try discriminate; [destruct (parse s) as [a|] eqn:P1; [|discriminate]; cbn in E|]; assert (Y := E); injection Y as <-;
    (destruct x' as [[q'|s']|]; cbn in E'; try discriminate; [destruct (parse s') as [b|] eqn:P2; [|discriminate]; cbn in E'|]; assert (Y' := E'); injection Y' as <-); cbn [stay days_between absolute]; try reflexivity.
  rewrite P1, P2. f_equal. f_equal. clear. generalize ((a - b) / 86400)%Z. intro z. unfold qabs. destruct (qltb (qz z) 0) eqn:N.
  - apply qltb_lt in N. change 0 with (qz 0) in N. rewrite qz_lt in N. rewrite Z.abs_neq by lia. apply eq_sym, qz_opp.
  - apply qltb_ge in N. change 0 with (qz 0) in N. rewrite qz_le in N. rewrite Z.abs_eq by lia. reflexivity.
Qed.
Lemma classes_spec decile col : mapM get_class decile = Ok col -> List.length col = List.length decile /\ forall i x, nth_error decile i = Some x ->
  (exists q, x = Some (CNum q) /\ q < qz 7 /\ nth_error col i = Some (Some (CStr "Medium-Low"))) \/
  ((x = None \/ exists q, x = Some (CNum q) /\ qz 7 <= q) /\ nth_error col i = Some (Some (CStr "High"))).
Proof.
  intro H. destruct (mapM_nth_error _ _ H) as (L & G). split; [exact L|]. intros i x X. destruct (G i x X) as (y & Y & N). destruct x as [[q|s]|]; cbn in Y; try discriminate.
  - destruct (qltb q (qz 7)) eqn:C; [apply qltb_lt in C; left; exists q|apply qltb_ge in C; right; split; [right; exists q|]]; rewrite ?N; repeat split; try assumption; congruence.
  - right. split; [left; reflexivity|]. rewrite N. congruence.
Qed.
Lemma compas_spec top parse n df df' : mode_oracle top -> rows_of n df -> compas_table top parse df = Ok df' ->
  exists days outs ins decile days' stays' classes,
    dget "days_b_screening_arrest" df = Some days /\ dget "c_jail_out" df = Some outs /\ dget "c_jail_in" df = Some ins /\ dget "decile_score" df = Some decile /\
    dkeys df' = compas_result /\ (forall c, In c compas_kept -> dget c df' = dget c df) /\
    dget "days_b_screening_arrest" df' = Some days' /\ filled_up (map absolute days) days' /\
    dget "length_of_stay" df' = Some stays' /\ filled_up (map2 (stay parse) outs ins) stays' /\
    dget "class" df' = Some classes /\ mapM get_class decile = Ok classes /\ (forall x, In (Some x) days -> exists q, x = CNum q).
Proof.
  intros MO R H. unfold compas_table in H. destruct (select compas_columns df) as [df1|] eqn:S; [|discriminate]. cbn [bind] in H.
  apply select_spec in S; [|unfold compas_columns; repeat constructor; cbn; intuition discriminate]. destruct S as ((K1 & G1) & INC).
  destruct (rcolumn df1 "days_b_screening_arrest") as [days|] eqn:C1; [|discriminate]. cbn [bind] in H. destruct (mapM abs_cell days) as [days1|] eqn:A1; [|discriminate]. cbn [bind] in H.
  set (df2 := dset "days_b_screening_arrest" days1 df1) in H. destruct (rcolumn df2 "c_jail_out") as [outs|] eqn:C2; [|discriminate]. cbn [bind] in H. destruct (mapM (time_of parse) outs) as [t_out|] eqn:T1; [|discriminate]. cbn [bind] in H.
  destruct (rcolumn df2 "c_jail_in") as [ins|] eqn:C3; [|discriminate]. cbn [bind] in H. destruct (mapM (time_of parse) ins) as [t_in|] eqn:T2; [|discriminate]. cbn [bind] in H.
  destruct (mapM abs_cell (map2 days_between t_out t_in)) as [st1|] eqn:A2; [|discriminate]. cbn [bind] in H. destruct (fill top st1) as [st2|] eqn:F1; [|discriminate]. cbn [bind] in H. destruct (fill top days1) as [days2|] eqn:F2; [|discriminate]. cbn [bind] in H.
  destruct (mapM int_cell st2) as [st3|] eqn:I1; [|discriminate]. cbn [bind] in H. destruct (mapM int_cell days2) as [days3|] eqn:I2; [|discriminate]. cbn [bind] in H.
  set (df3 := dset "days_b_screening_arrest" days3 (dset "length_of_stay" st3 df2)) in H. destruct (rcolumn df3 "decile_score") as [decile|] eqn:C4; [|discriminate]. cbn [bind] in H. destruct (mapM get_class decile) as [classes|] eqn:CL; [|discriminate]. cbn [bind] in H.
  set (df4 := dset "class" classes df3) in H. destruct (foldM del_column df4 ["c_jail_in"; "c_jail_out"; "decile_score"; "score_text"]) as [df5|] eqn:D; [|discriminate]. cbn [bind] in H.
  assert (E1 : forall c v, In c compas_columns -> rcolumn df1 c = Ok v -> dget c df = Some v). { intros c v Ic E. unfold rcolumn in E. rewrite <- (G1 c Ic). destruct (dget c df1); [cbn in E; congruence|discriminate]. }
  assert (K2 : dkeys df2 = compas_columns) by (unfold df2; rewrite dset_keys, K1; reflexivity).
  assert (K3 : dkeys df3 = compas_columns ++ ["length_of_stay"]) by (unfold df3; rewrite dset_keys, dset_keys, K2; reflexivity).
  assert (K4 : dkeys df4 = compas_columns ++ ["length_of_stay"; "class"]) by (unfold df4; rewrite dset_keys, K3; reflexivity).
  destruct (dels_spec _ _ _ D) as (_ & K5 & G5). rewrite K4 in K5. cbn in K5.
  assert (N5 : NoDup (dkeys df5)) by (rewrite K5; repeat constructor; cbn; intuition discriminate).
  assert (L5 : dkeys df5 = (compas_kept ++ ["length_of_stay"]) ++ ["class"] \/ True) by (right; exact I). clear L5.
  assert (RA : rearranged compas_result df5 df'). { apply (last_first_spec df5 df' (tl compas_result) "class" N5); [rewrite K5; reflexivity|exact H]. } destruct RA as (K6 & G6).
  assert (G54 : forall c, In c compas_result -> dget c df' = dget c df4). { intros c Ic. rewrite (G6 c Ic). apply G5. intro X. cbn in X, Ic. intuition (subst; discriminate). }
  assert (KEEP : forall c, c <> "class" -> c <> "days_b_screening_arrest" -> c <> "length_of_stay" -> dget c df4 = dget c df1). { intros c X1 X2 X3. unfold df4, df3, df2. rewrite !dset_other by assumption. reflexivity. }
  assert (CO : dget "c_jail_out" df = Some outs). { apply E1; [cbn; tauto|]. unfold rcolumn, df2 in C2. rewrite dset_other in C2 by discriminate. exact C2. }
  assert (CI : dget "c_jail_in" df = Some ins). { apply E1; [cbn; tauto|]. unfold rcolumn, df2 in C3. rewrite dset_other in C3 by discriminate. exact C3. }
  assert (CD : dget "decile_score" df = Some decile). { apply E1; [cbn; tauto|]. unfold rcolumn, df3, df2 in C4. rewrite !dset_other in C4 by discriminate. exact C4. }
  exists days, outs, ins, decile, days3, st3, classes. split; [apply E1; [cbn; tauto|exact C1]|]. split; [exact CO|]. split; [exact CI|]. split; [exact CD|]. split; [exact K6|]. split.
  { intros c Ic. rewrite G54 by (cbn in Ic |- *; tauto). rewrite KEEP; [apply G1; cbn in Ic |- *; tauto| | |]; cbn in Ic; intuition (subst; discriminate). }
  split. { rewrite G54 by (cbn; tauto). unfold df4. rewrite dset_other by discriminate. unfold df3. rewrite dset_same. reflexivity. }
  split. { destruct (abs_spec _ _ A1) as (<- & _). exact (fill_spec _ _ _ _ MO F2 I2). }
  split. { rewrite G54 by (cbn; tauto). unfold df4. rewrite dset_other by discriminate. unfold df3. rewrite dset_other by discriminate. rewrite dset_same. reflexivity. }
  split. { rewrite <- (stays_spec parse outs ins t_out t_in st1 T1 T2); [exact (fill_spec _ _ _ _ MO F1 I1)| |exact A2]. apply dget_In in CO, CI. rewrite (proj2 R _ _ CO), (proj2 R _ _ CI). reflexivity. }
  split. { rewrite G54 by (cbn; tauto). unfold df4. rewrite dset_same. reflexivity. }
  split; [exact CL|]. exact (proj2 (abs_spec _ _ A1)).
Qed.
Lemma map2_In A B C (f : A -> B -> C) l m x : In x (map2 f l m) -> exists a b, In a l /\ In b m /\ x = f a b.
Proof. revert m. induction l as [|a l IH]; intros [|b m] H; try contradiction. destruct H as [<-|H]; [exists a, b; cbn; tauto|]. destruct (IH _ H) as (a' & b' & X & Y & Z). exists a', b'. cbn; tauto. Qed.
Lemma map2_nth A B C (f : A -> B -> C) l m i a b : nth_error l i = Some a -> nth_error m i = Some b -> nth_error (map2 f l m) i = Some (f a b).
Proof. revert m i. induction l as [|a' l IH]; intros [|b' m] [|i] H1 H2; try discriminate; cbn in *; [congruence|]. apply IH; assumption. Qed.
Lemma map2_nth_inv A B C (f : A -> B -> C) l m i c : nth_error (map2 f l m) i = Some c -> exists a b, nth_error l i = Some a /\ nth_error m i = Some b /\ c = f a b.
Proof. revert m i. induction l as [|a' l IH]; intros [|b' m] [|i] H; try discriminate; cbn in *; [|exact (IH _ _ H)]. injection H as <-. exists a', b'. tauto. Qed.
Lemma stays_total parse outs ins : (forall x, In (Some x) outs \/ In (Some x) ins -> exists s z, x = CStr s /\ parse s = Ok z) ->
  exists t_out t_in, mapM (time_of parse) outs = Ok t_out /\ mapM (time_of parse) ins = Ok t_in /\ exists col, mapM abs_cell (map2 days_between t_out t_in) = Ok col.
Proof.
  intro T. destruct (mapM_total (time_of parse) outs) as (t_out & E1). { intros [x|] X; [|exists None; reflexivity]. destruct (T x (or_introl X)) as (s & z & -> & P). exists (Some z). cbn. rewrite P. reflexivity. }
  destruct (mapM_total (time_of parse) ins) as (t_in & E2). { intros [x|] X; [|exists None; reflexivity]. destruct (T x (or_intror X)) as (s & z & -> & P). exists (Some z). cbn. rewrite P. reflexivity. }
  exists t_out, t_in. split; [exact E1|]. split; [exact E2|]. apply mapM_total. intros x X. apply map2_In in X. destruct X as (a & b & _ & _ & ->). destruct a, b; eexists; reflexivity.
Qed.
Lemma fill_numbers top col col1 : mode_oracle top -> (forall x, In (Some x) col -> exists q, x = CNum q) -> fill top col = Ok col1 -> exists col2, mapM int_cell col1 = Ok col2.
Proof.
  intros MO N F. unfold fill in F. fold (present col) in F. destruct (top (present col)) as [m|] eqn:T; [|discriminate]. cbn [bind] in F. assert (E : col1 = map (fun x => match x with Some v => Some v | None => Some m end) col) by congruence. subst col1.
  assert (PM : forall x, In x (present col) -> In (Some x) col). { intros x X. unfold present in X. apply in_flat_map in X. destruct X as ([y|] & Y & Z); [destruct Z as [->|[]]; exact Y|destruct Z]. }
  assert (IM : In (Some m) col). { apply PM. destruct MO as (M0 & M1). destruct (present col) as [|v l] eqn:EP; [congruence|]. destruct (M1 (v :: l)) as (v' & V & A & _); [discriminate|]. assert (v' = m) by congruence. subst. exact A. }
  apply mapM_total. intros x X. apply in_map_iff in X. destruct X as (y & <- & Y). destruct y as [y|]; [destruct (N y Y) as (q & ->)|destruct (N m IM) as (q & ->)]; eexists; reflexivity.
Qed.
Lemma fill_total top col : mode_oracle top -> (exists x, In (Some x) col) -> exists col1, fill top col = Ok col1.
Proof.
  intros MO (x & X). unfold fill. fold (present col). destruct (proj2 MO (present col)) as (v & V & _); [|rewrite V; eexists; reflexivity].
  intro E. assert (I : In x (present col)) by (unfold present; apply in_flat_map; exists (Some x); split; [exact X|left; reflexivity]). rewrite E in I. destruct I.
Qed.
Lemma fill_empty top col : mode_oracle top -> (forall x, ~ In (Some x) col) -> fill top col = Err IndexError.
Proof.
  intros MO N. unfold fill. fold (present col). assert (E : present col = []). { destruct (present col) as [|v l] eqn:E; [reflexivity|]. exfalso. assert (I : In v (present col)) by (rewrite E; left; reflexivity). unfold present in I. apply in_flat_map in I. destruct I as ([y|] & Y & Z); [apply (N y Y)|destruct Z]. }
  rewrite E, (proj1 MO). reflexivity.
Qed.
Lemma compas_steps top parse n df days outs ins scores : mode_oracle top -> rows_of n df -> incl compas_columns (dkeys df) ->
  dget "days_b_screening_arrest" df = Some days -> dget "c_jail_out" df = Some outs -> dget "c_jail_in" df = Some ins -> dget "decile_score" df = Some scores ->
  (forall x, In (Some x) days \/ In (Some x) scores -> exists q, x = CNum q) ->
  (forall x, In (Some x) outs \/ In (Some x) ins -> exists s z, x = CStr s /\ parse s = Ok z) ->
  (forall e, fill top (map2 (stay parse) outs ins) = Err e -> compas_table top parse df = Err e) /\
  (forall s e, fill top (map2 (stay parse) outs ins) = Ok s -> fill top (map absolute days) = Err e -> compas_table top parse df = Err e) /\
  (forall s d, fill top (map2 (stay parse) outs ins) = Ok s -> fill top (map absolute days) = Ok d -> exists df', compas_table top parse df = Ok df').
Proof.
  intros MO R I ED EO EI ES NUM TIM. destruct (select_total compas_columns df I) as (df1 & S). assert (S' := S). apply select_spec in S'; [|unfold compas_columns; repeat constructor; cbn; intuition discriminate]. destruct S' as ((K1 & G1) & _).
  destruct (mapM_total abs_cell days) as (days1 & A1). { intros [x|] X; [|exists None; reflexivity]. destruct (NUM x (or_introl X)) as (q & ->). eexists; reflexivity. }
  destruct (stays_total parse outs ins TIM) as (t_out & t_in & T1 & T2 & st1 & A2).
  assert (LEN : List.length outs = List.length ins). { apply dget_In in EO, EI. rewrite (proj2 R _ _ EO), (proj2 R _ _ EI). reflexivity. }
  assert (ST := stays_spec parse outs ins t_out t_in st1 T1 T2 LEN A2). destruct (abs_spec _ _ A1) as (AB & _). rewrite <- ST, <- AB.
  assert (C1 : rcolumn df1 "days_b_screening_arrest" = Ok days) by (unfold rcolumn; rewrite G1, ED by (cbn; tauto); reflexivity).
  set (df2 := dset "days_b_screening_arrest" days1 df1).
  assert (C2 : rcolumn df2 "c_jail_out" = Ok outs) by (unfold rcolumn, df2; rewrite dset_other, G1, EO by (discriminate || cbn; tauto); reflexivity).
  assert (C3 : rcolumn df2 "c_jail_in" = Ok ins) by (unfold rcolumn, df2; rewrite dset_other, G1, EI by (discriminate || cbn; tauto); reflexivity).
  assert (HD : compas_table top parse df = (do stay <- fill top st1; do days <- fill top days1; do stay <- mapM int_cell stay; do days <- mapM int_cell days;
    let df := dset "days_b_screening_arrest" days (dset "length_of_stay" stay df2) in
    do decile <- rcolumn df "decile_score"; do classes <- mapM get_class decile; let df := dset "class" classes df in
    do df <- foldM del_column df ["c_jail_in"; "c_jail_out"; "decile_score"; "score_text"]; last_first df)).
  { unfold compas_table. rewrite S. cbn [bind]. rewrite C1. cbn [bind]. rewrite A1. cbn [bind]. fold df2. rewrite C2. cbn [bind]. rewrite T1. cbn [bind]. rewrite C3. cbn [bind]. rewrite T2. cbn [bind]. rewrite A2. cbn [bind]. reflexivity. }
  split; [intros e E; rewrite HD, E; reflexivity|]. split; [intros s e E1 E2; rewrite HD, E1; cbn [bind]; rewrite E2; reflexivity|].
  intros s d E1 E2. rewrite HD, E1. cbn [bind]. rewrite E2. cbn [bind].
  destruct (fill_numbers top st1 s MO) as (s' & E3); [|exact E1|]. { intros x X. rewrite ST in X. apply map2_In in X. destruct X as (a & b & _ & _ & X). unfold stay in X. destruct a as [[q|a]|]; try discriminate. destruct b as [[q|b]|]; try discriminate. destruct (parse a); [|discriminate]. destruct (parse b); [|discriminate]. eexists. injection X as <-. reflexivity. }
  destruct (fill_numbers top days1 d MO) as (d' & E4); [|exact E2|]. { intros x X. rewrite AB in X. apply in_map_iff in X. destruct X as ([[q|s0]|] & X & _); try discriminate. eexists. injection X as <-. reflexivity. }
  rewrite E3. cbn [bind]. rewrite E4. cbn [bind]. cbn zeta. set (df3 := dset "days_b_screening_arrest" d' (dset "length_of_stay" s' df2)).
  assert (C4 : rcolumn df3 "decile_score" = Ok scores) by (unfold rcolumn, df3, df2; rewrite !dset_other, G1, ES by (discriminate || cbn; tauto); reflexivity). rewrite C4. cbn [bind].
  destruct (mapM_total get_class scores) as (classes & CL). { intros [x|] X; [|eexists; reflexivity]. destruct (NUM x (or_intror X)) as (q & ->). eexists; reflexivity. }
  rewrite CL. cbn [bind]. set (df4 := dset "class" classes df3).
  assert (K2 : dkeys df2 = compas_columns) by (unfold df2; rewrite dset_keys, K1; reflexivity).
  assert (K3 : dkeys df3 = compas_columns ++ ["length_of_stay"]) by (unfold df3; rewrite dset_keys, dset_keys, K2; reflexivity).
  assert (K4 : dkeys df4 = compas_columns ++ ["length_of_stay"; "class"]) by (unfold df4; rewrite dset_keys, K3; reflexivity).
  destruct (dels_total ["c_jail_in"; "c_jail_out"; "decile_score"; "score_text"] df4) as (df5 & D); [repeat constructor; cbn; intuition discriminate|rewrite K4; intros x X; cbn in X |- *; tauto|]. rewrite D. cbn [bind]. apply last_first_total.
Qed.
