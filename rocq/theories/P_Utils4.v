(** * Proofs about build_df2explain and generate_dataset *)
From Verif Require Import Prelude M_Fuzzy M_Discretize M_Rule M_FDT M_ID3 M_Neighborhood M_Sampling M_Genetic M_Utils S_Utils P_FuzzyVar P_Metrics P_FDT P_Counterfactual P_Neighborhood2 P_Explainer P_Sampling P_Genetic P_ID3b P_Utils P_Utils2 P_Utils3.
Set Implicit Arguments.
Open Scope Qc_scope.

Lemma floor_spec (v : Qc) : qz (Qround.Qfloor (this v)) <= v /\ v < qz (Qround.Qfloor (this v) + 1).
Proof.
  assert (F1 := Qround.Qfloor_le (this v)). assert (F2 := Qround.Qlt_floor (this v)). split.
  - unfold Qcle, qz. rewrite this_Q2Qc. assumption.
  - unfold Qclt, qz. rewrite this_Q2Qc. assumption.
Qed.
Lemma qz_plus1 z : qz (z + 1) = qz z + 1.
Proof. apply Qc_is_canon. unfold qz. rewrite this_plus, !this_Q2Qc. rewrite inject_Z_plus. reflexivity. Qed.
Lemma qz_opp z : qz (- z) = - qz z.
Proof. assert (H : qz (- z) + qz z = 0); [|qlra]. apply Qc_is_canon. unfold qz. rewrite this_plus, !this_Q2Qc. rewrite <- inject_Z_plus. replace (- z + z)%Z with 0%Z by lia. reflexivity. Qed.
Lemma truncate_spec q : exists z, truncate q = qz z /\ truncated q z.
Proof.
  unfold truncate, truncated. destruct (qltb q 0) eqn:E.
  - apply qltb_lt in E. destruct (floor_spec (- q)) as (A & B). exists (- Qround.Qfloor (this (- q)))%Z. rewrite qz_plus1 in B. split; [symmetry; apply qz_opp|]. split; [intro; qlra|intros _].
    replace (- Qround.Qfloor (this (- q)) - 1)%Z with (- (Qround.Qfloor (this (- q)) + 1))%Z by lia. rewrite !qz_opp, qz_plus1. generalize dependent (qz (Qround.Qfloor (this (- q)))). intros w A B. split; qlra.
  - apply qltb_ge in E. destruct (floor_spec q) as (A & B). eexists. split; [reflexivity|]. split; [intros _; split; assumption|intro; qlra].
Qed.
Lemma truncate_int z : truncate (qz z) = qz z.
Proof.
  unfold truncate. assert (F : forall z, Qround.Qfloor (this (qz z)) = z) by (intro w; unfold qz; rewrite this_Q2Qc; apply Qround.Qfloor_Z).
  destruct (qltb (qz z) 0); [|rewrite F; reflexivity]. rewrite <- (qz_opp z), F, <- qz_opp. f_equal. lia.
Qed.
Lemma as_index_inv x k : as_index x = Some k -> x = CNum (qn k).
Proof.
  destruct x as [q|s]; [|discriminate]. cbn. destruct (qeqb q (qz (Qround.Qfloor (this q)))) eqn:E; [|discriminate]. cbn. destruct (qleb 0 q) eqn:P; [|discriminate]. intro H. injection H as <-. apply qeqb_eq in E. apply qleb_le in P. f_equal.
  rewrite E at 1. unfold qn. f_equal. rewrite Z2Nat.id; [reflexivity|]. rewrite <- (Qround.Qfloor_Z 0). apply Qround.Qfloor_resp_le. exact P.
Qed.
Lemma mapM_nth_error A B (f : A -> res B) l l' : mapM f l = Ok l' -> List.length l' = List.length l /\ forall j x, nth_error l j = Some x -> exists y, f x = Ok y /\ nth_error l' j = Some y.
Proof.
  intro H. rewrite mapM_ok in H. split; [symmetry; exact (Forall2_len H)|]. induction H as [|a b l l' F H IH]; intros [|j] x E; try discriminate; [cbn in E; injection E as <-; exists b; split; [assumption|reflexivity]|]. exact (IH j x E).
Qed.
Lemma inverse_nth u col vals : inverse_transform u col = Ok vals -> List.length vals = List.length col /\ forall j x, nth_error col j = Some x -> exists k, x = CNum (qn k) /\ (k < List.length u)%nat /\ nth_error vals j = nth_error u k.
Proof.
  intro H. unfold inverse_transform in H. apply mapM_nth_error in H. destruct H as (L & H). split; [assumption|]. intros j x E. destruct (H j x E) as (y & F & V). destruct (as_index x) as [k|] eqn:A; [|discriminate]. cbn [ret_opt bind] in F.
  destruct (nth_error u k) as [w|] eqn:K; [|discriminate]. cbn [ret_opt] in F. injection F as ->. exists k. split; [apply as_index_inv; assumption|]. split; [apply nth_error_Some; congruence|]. congruence.
Qed.
Lemma yX_nth (y : list Z) (X : list (list Qc)) j : List.length y = List.length X ->
  nth_error (map2 (fun c row => qz c :: row) y X) j = match nth_error y j, nth_error X j with Some c, Some row => Some (qz c :: row) | _, _ => None end.
Proof. revert X j. induction y as [|c y IH]; intros [|row X] [|j] L; try discriminate; cbn; try reflexivity. apply IH. cbn in L. congruence. Qed.
Lemma source_nth (y : list Z) (X : list (list Qc)) i j row : List.length y = List.length X -> nth_error (map2 (fun c row => qz c :: row) y X) j = Some row -> nth_error row i = source y X i j.
Proof.
  intros L H. rewrite yX_nth in H by assumption. destruct (nth_error y j) as [c|] eqn:C; [|discriminate]. destruct (nth_error X j) as [r|] eqn:R; [|discriminate]. injection H as <-. destruct i as [|q]; cbn; [rewrite C; reflexivity|rewrite R; reflexivity].
Qed.
Lemma yX_length (y : list Z) (X : list (list Qc)) : List.length y = List.length X -> List.length (map2 (fun c row => qz c :: row) y X) = List.length y.
Proof. revert X. induction y as [|c y IH]; intros [|row X] L; try discriminate; cbn; [reflexivity|]. rewrite IH by (cbn in L; congruence). reflexivity. Qed.

(** one raw column of the table handed to label_decode *)
Definition raw_column (y : list Z) (X : list (list Qc)) (ftype : dict string string) (discrete : list string) (ic : nat * string) : res (string * list cell) :=
  let '(i, col) := ic in
      do data_col <- mapM (fun row => ret_opt IndexError (nth_error row i)) (map2 (fun c row => qz c :: row) y X);
      let d1 := if memb col discrete then map truncate data_col else data_col in
      do t <- ret_opt KeyError (dget col ftype);
      Ok (col, map CNum (if eqb t "integer"%string then map truncate d1 else d1)).
Lemma build_eq y X columns ftype discrete encs : build_df2explain y X columns ftype discrete encs =
  if negb (Nat.eqb (List.length y) (List.length X)) then Err ValueError else
  do data <- mapM (raw_column y X ftype discrete) (enumerate columns);
  if Nat.eqb (List.length columns) 0 then Err IndexError else label_decode data discrete encs.
Proof. reflexivity. Qed.
Lemma raw_column_ok y X ftype discrete i c r : List.length y = List.length X -> raw_column y X ftype discrete (i, c) = Ok r ->
  exists col t, r = (c, col) /\ dget c ftype = Some t /\ List.length col = List.length y /\
    forall j, (j < List.length y)%nat -> exists q, source y X i j = Some q /\
      nth_error col j = Some (CNum (if eqb t "integer"%string then truncate (if memb c discrete then truncate q else q) else if memb c discrete then truncate q else q)).
Proof.
  intros L H. unfold raw_column in H. match type of H with bind ?r _ = _ => destruct r as [dc|] eqn:E; [|discriminate] end. cbn [bind] in H. cbv zeta in H.
  destruct (dget c ftype) as [t|] eqn:T; [|discriminate]. cbn [ret_opt bind] in H. injection H as <-. apply mapM_nth_error in E. destruct E as (LE & E). rewrite yX_length in LE by assumption.
  eexists. exists t. split; [reflexivity|]. split; [reflexivity|]. split.
  - rewrite map_length. destruct (eqb t "integer"%string), (memb c discrete); rewrite ?map_length; assumption.
  - intros j J. destruct (nth_error (map2 (fun c row => qz c :: row) y X) j) as [row|] eqn:R; [|apply nth_error_None in R; rewrite yX_length in R by assumption; lia].
    destruct (E j row R) as (q & F & Q). rewrite (source_nth y X i j L R) in F. destruct (source y X i j) as [q'|]; [|discriminate]. cbn [ret_opt] in F. injection F as ->. exists q. split; [reflexivity|].
    apply map_nth_error. destruct (eqb t "integer"%string), (memb c discrete); repeat apply map_nth_error; assumption.
Qed.
Lemma data_get y X ftype discrete columns data : NoDup columns -> List.length y = List.length X -> mapM (raw_column y X ftype discrete) (enumerate columns) = Ok data ->
  dkeys data = columns /\ forall i c, nth_error columns i = Some c -> exists col, dget c data = Some col /\ raw_column y X ftype discrete (i, c) = Ok (c, col).
Proof.
  intros N L H. assert (M := H). apply mapM_nth_error in H. destruct H as (LD & H).
  assert (EN : forall i c, nth_error columns i = Some c -> nth_error (enumerate columns) i = Some (i, c)) by (intros; apply enumerate_nth; assumption).
  assert (K : dkeys data = columns).
  { assert (LC : List.length (dkeys data) = List.length columns) by (unfold dkeys; rewrite map_length, LD; unfold enumerate; rewrite combine_length, seq_length; lia).
    apply nth_error_ext; [assumption|]. intros i LT. unfold dkeys. destruct (nth_error columns i) as [c|] eqn:C.
    - destruct (H i (i, c) (EN i c C)) as (r & R & D). apply raw_column_ok in R; [|assumption]. destruct R as (col & t & -> & _). rewrite (map_nth_error fst i data D). reflexivity.
    - apply nth_error_None in C. lia. }
  split; [assumption|]. intros i c C. destruct (H i (i, c) (EN i c C)) as (r & R & D). assert (R' := R). apply raw_column_ok in R; [|assumption]. destruct R as (col & t & -> & _). exists col. split; [|assumption].
  apply dget_nodup; [rewrite K; assumption|]. apply nth_error_In in D. assumption.
Qed.
Lemma dict_of_only V (l : list (string * V)) c w : In (c, w) l -> (forall v, In (c, v) l -> v = w) -> dget c (dict_of l) = Some w.
Proof.
  intros I U. rewrite dict_of_get. destruct (dget c (rev l)) as [v|] eqn:E; [f_equal; apply U; apply in_rev; apply dget_In in E; assumption|].
  apply dget_None in E. exfalso. apply E. unfold dkeys. apply in_rev in I. apply (in_map fst) in I. exact I.
Qed.
Lemma dict_of_none V (l : list (string * V)) c : (forall v, ~ In (c, v) l) -> dget c (dict_of l) = None.
Proof.
  intro U. rewrite dict_of_get. destruct (dget c (rev l)) as [v|] eqn:E; [|reflexivity]. exfalso. apply (U v). apply in_rev. apply dget_In in E. assumption.
Qed.
Definition type_name (t : dtype) : option string := match t with DInt => Some "integer"%string | DFloat => Some "double"%string | DObject => Some "string"%string | DOther => None end.
Lemma features_type_get dt df c : dget c (features_type dt df) = if memb c (dkeys df) then type_name (dt c) else None.
Proof.
  assert (IN : forall v, In (c, v) (map (fun c => (c, "integer"%string)) (filter (is_dtype DInt dt) (dkeys df)) ++ map (fun c => (c, "double"%string)) (filter (is_dtype DFloat dt) (dkeys df)) ++ map (fun c => (c, "string"%string)) (filter (is_dtype DObject dt) (dkeys df))) <->
    In c (dkeys df) /\ type_name (dt c) = Some v).
  { intro v. assert (G : forall t (w : string), type_name t = Some w -> (In (c, v) (map (fun c => (c, w)) (filter (is_dtype t dt) (dkeys df))) <-> In c (dkeys df) /\ dt c = t /\ v = w)).
    { intros t w T. rewrite in_map_iff. split.
      - intros (d & E & I). injection E as -> <-. apply filter_In in I. destruct I as (I & D). split; [assumption|]. split; [|reflexivity]. unfold is_dtype in D. destruct t, (dt c); try discriminate; reflexivity.
      - intros (I & D & ->). exists c. split; [reflexivity|]. apply filter_In. split; [assumption|]. unfold is_dtype. rewrite D. destruct t; try reflexivity. discriminate. }
    rewrite !in_app_iff, !G by reflexivity. destruct (dt c); cbn; intuition congruence. }
  unfold features_type, type_features. destruct (memb c (dkeys df)) eqn:M.
  - apply memb_In in M. destruct (type_name (dt c)) as [w|] eqn:T.
    + apply dict_of_only; [apply IN; split; [assumption|first [assumption|reflexivity]]|]. intros v V. apply IN in V. destruct V. congruence.
    + apply dict_of_none. intros v V. apply IN in V. destruct V. discriminate.
  - apply memb_not_In in M. apply dict_of_none. intros v V. apply IN in V. destruct V. contradiction.
Qed.
Lemma list_remove_filter x l l' : NoDup l -> list_remove x l = Ok l' -> In x l /\ l' = filter (fun f => negb (eqb f x)) l.
Proof.
  intro N. revert l'. induction N as [|y l NI N IH]; intros l' H; [discriminate|]. cbn [list_remove] in H. cbn [filter]. destruct (eqb y x) eqn:E.
  - injection H as <-. apply eqb_eq in E. subst y. split; [left; reflexivity|]. cbn [negb]. clear IH N. induction l as [|z l IH]; [reflexivity|]. cbn [filter]. destruct (eqb z x) eqn:E; [apply eqb_eq in E; subst; exfalso; apply NI; left; reflexivity|]. cbn [negb]. f_equal. apply IH. intro; apply NI; right; assumption.
  - destruct (list_remove x l) as [r|] eqn:R; [|discriminate]. cbn [bind] in H. injection H as <-. destruct (IH r eq_refl) as (A & ->). split; [right; assumption|]. reflexivity.
Qed.
Lemma list_remove_total x l : In x l -> exists l', list_remove x l = Ok l'.
Proof.
  induction l as [|y l IH]; intros I; [contradiction|]. cbn [list_remove]. destruct (eqb y x) eqn:E; [exists l; reflexivity|]. destruct I as [->|I]; [rewrite eqb_refl in E; discriminate|]. destruct (IH I) as (r & ->). exists (y :: r). reflexivity.
Qed.
Lemma enumerate_get A (l : list A) i : dget i (enumerate l) = nth_error l i.
Proof.
  unfold enumerate. assert (G : forall k, dget i (combine (seq k (List.length l)) l) = if Nat.leb k i then nth_error l (i - k) else None).
  { induction l as [|x l IH]; intro k; [cbn; destruct (Nat.leb k i); [destruct (i - k)%nat; reflexivity|reflexivity]|]. cbn [List.length seq combine dget]. destruct (eqb i k) eqn:E.
    - apply eqb_eq in E. subst. rewrite Nat.leb_refl, Nat.sub_diag. reflexivity.
    - apply eqb_neq in E. rewrite IH. destruct (Nat.leb_spec (S k) i), (Nat.leb_spec k i); try lia; [|reflexivity]. replace (i - k)%nat with (S (i - S k)) by lia. reflexivity. }
  rewrite G, Nat.sub_0_r. reflexivity.
Qed.
(** a position of the matrix is a value of the table *)
Lemma matrix_value cls n df i row q : rectangular n df -> nth_error (matrix_without cls df) i = Some row ->
  nth_error row q = match nth_error (filter (fun c => negb (eqb c cls)) (dkeys df)) q with Some c => value_at df c i | None => None end.
Proof.
  intros (N & R) H. assert (LT : (i < frame_length df)%nat) by (rewrite <- (matrix_length cls); apply nth_error_Some; congruence). unfold matrix_without in H. rewrite nth_error_map in H.
  destruct (nth_error (seq 0 (frame_length df)) i) as [j|] eqn:E; [|discriminate]. cbn in H. injection H as <-. assert (j = i). { apply (nth_error_nth _ _ 0%nat) in E. rewrite seq_nth in E by assumption. lia. } subst j. clear E.
  assert (L : forall c col, In (c, col) df -> (i < List.length col)%nat).
  { intros c col I. rewrite (R c col I). destruct df as [|[c0 col0] df]; [contradiction|]. cbn in LT. rewrite (R c0 col0) in LT by (left; reflexivity). assumption. }
  rewrite nth_error_map. replace (filter (fun c => negb (eqb c cls)) (dkeys df)) with (map fst (filter (fun cc : string * list cell => negb (eqb (fst cc) cls)) df)) by (symmetry; exact (filter_map_comm fst (fun c => negb (eqb c cls)) df)). rewrite nth_error_map.
  destruct (nth_error (filter (fun cc : string * list cell => negb (eqb (fst cc) cls)) df) q) as [[c col]|] eqn:Q; [|reflexivity]. cbn [option_map fst snd]. apply nth_error_In in Q. apply filter_In in Q. destruct Q as (Q & _).
  unfold value_at. rewrite (@dget_nodup _ _ _ c col df N Q). symmetry. apply nth_error_nth'. exact (L c col Q).
Qed.
Lemma typed_uniform dt df c col : typed dt df -> dget c df = Some col -> uniform col.
Proof.
  intros T C. apply dget_In in C. destruct (T c col C) as (_ & T'). destruct (dt c).
  - left. intros v V. destruct (T' v V) as (z & ->). exists (qz z). reflexivity.
  - left. intros v V. exact (T' v V).
  - right. intros v V. exact (T' v V).
  - left. intros v V. destruct (T' v V).
Qed.
Lemma generate_inv sl dt df columns cls discrete D : set_listing sl -> typed dt df -> generate_dataset sl dt df columns cls discrete = Ok D ->
  exists target tmp disc cont df' encs y, dget cls df = Some target /\ list_remove cls columns = Ok tmp /\
    set_discrete_continuous sl columns (type_features dt df) cls (Some discrete) None = (disc, cont) /\
    NoDup disc /\ In cls disc /\ label_encode df disc None = Ok (df', encs) /\ dget cls df' = Some y /\
    D = mkDs columns (appearing target) (features_type dt df) disc cont (enumerate tmp) encs (matrix_without cls df') y.
Proof.
  intros SL T H. unfold generate_dataset in H. unfold fcolumn at 1 in H. destruct (dget cls df) as [target|] eqn:C; [|discriminate]. cbn [ret_opt bind] in H.
  destruct (set_discrete_continuous sl columns (type_features dt df) cls (Some discrete) None) as [disc cont] eqn:S.
  destruct (list_remove cls columns) as [tmp|] eqn:R; [|discriminate]. cbn [bind] in H. destruct (label_encode df disc None) as [[df' encs]|] eqn:E; [|discriminate]. cbn [bind fst snd] in H.
  unfold fcolumn in H. destruct (dget cls df') as [y|] eqn:Y; [|discriminate]. cbn [ret_opt bind] in H. injection H as <-.
  exists target, tmp, disc, cont, df', encs, y. splits; try reflexivity; try assumption.
  - unfold set_discrete_continuous, type_features in S. cbv beta iota zeta in S. injection S as <- <-. apply NoDup_snoc; [apply NoDup_filter, setlist_NoDup; assumption|]. rewrite not_class. tauto.
  - unfold set_discrete_continuous, type_features in S. cbv beta iota zeta in S. injection S as <- <-. apply in_or_app. right. left. reflexivity.
Qed.
(** what encoding does to one value *)
Lemma encode_value df disc df' encs c i v : NoDup disc -> (forall d, In d disc -> exists col, dget d df = Some col /\ uniform col) -> label_encode df disc None = Ok (df', encs) ->
  value_at df c i = Some v ->
  (In c disc -> exists classes k, dget c encs = Some classes /\ nth_error classes k = Some v /\ value_at df' c i = Some (CNum (qn k))) /\
  (~ In c disc -> value_at df' c i = Some v).
Proof.
  intros N G E V. apply encode_fold in E; [|split; assumption]. destruct E as (K & O & E). unfold value_at in *. split; intro I.
  - destruct (dget c df) as [col|] eqn:C; [|discriminate]. destruct (E c col I C) as (u & codes & U & T & D1 & D2). destruct (transform_nth _ _ T i V) as (k & P & Q). exists u, k. split; [assumption|]. split; [|rewrite D1; assumption].
    destruct (G c I) as (col' & C' & Un). rewrite C in C'. injection C' as <-. destruct (uniform_unique Un) as (u' & U' & ND & _). rewrite U in U'. injection U' as <-. apply (position_nth _ _ ND). assumption.
  - destruct (O c I) as (-> & _). assumption.
Qed.
Lemma encode_rectangular n df disc df' encs : rectangular n df -> NoDup disc -> (forall d, In d disc -> exists col, dget d df = Some col /\ uniform col) -> label_encode df disc None = Ok (df', encs) -> rectangular n df'.
Proof.
  intros (ND & R) N G E. apply encode_fold in E; [|split; assumption]. destruct E as (K & O & E). split; [rewrite K; assumption|]. intros c col I. apply dget_nodup in I; [|rewrite K; assumption]. destruct (in_dec string_dec c disc) as [J|J].
  - destruct (G c J) as (col0 & C & _). destruct (E c col0 J C) as (u & codes & _ & T & D1 & _). rewrite I in D1. injection D1 as ->. rewrite (transform_length _ _ T). apply (R c). apply dget_In. assumption.
  - destruct (O c J) as (D1 & _). rewrite I in D1. symmetry in D1. apply (R c). apply dget_In. assumption.
Qed.
(** ** the rebuilt table *)
Lemma mapM_enumerate A B (f : nat * A -> res B) (l : list A) (l' : list B) : List.length l = List.length l' ->
  (forall i x y, nth_error l i = Some x -> nth_error l' i = Some y -> f (i, x) = Ok y) -> mapM f (enumerate l) = Ok l'.
Proof.
  intros L H. unfold enumerate. assert (G : forall k (l : list A) (l' : list B), List.length l = List.length l' -> (forall i x y, nth_error l i = Some x -> nth_error l' i = Some y -> f ((k + i)%nat, x) = Ok y) -> mapM f (combine (seq k (List.length l)) l) = Ok l').
  { clear. intros k l. revert k. induction l as [|x l IH]; intros k [|y l'] L H; try discriminate; [reflexivity|]. cbn [List.length seq combine mapM]. assert (H0 := H 0%nat x y eq_refl eq_refl). rewrite Nat.add_0_r in H0. rewrite H0. cbn [bind].
    rewrite (IH (S k) l'); [reflexivity|cbn in L; congruence|]. intros i a b A' B'. specialize (H (S i) a b A' B'). rewrite Nat.add_succ_r in H. exact H. }
  exact (G 0%nat l l' L H).
Qed.
(** a table of numbers *)
Definition cells_of (q : list (string * list Qc)) : frame := map (fun cq => (fst cq, map CNum (snd cq))) q.
Lemma all_numbers (df : frame) : (forall c col v, In (c, col) df -> In v col -> exists q, v = CNum q) -> exists q, df = cells_of q.
Proof.
  induction df as [|[c col] df IH]; intro H; [exists []; reflexivity|]. destruct IH as (q & ->); [intros c' col' v I V; apply (H c' col' v); [right; assumption|assumption]|].
  assert (C : exists qs, col = map CNum qs). { assert (HC : forall v, In v col -> exists q, v = CNum q) by (intros v V; apply (H c col v); [left; reflexivity|assumption]). clear - HC. induction col as [|v col IH]; [exists []; reflexivity|]. destruct (HC v (or_introl eq_refl)) as (x & ->). destruct IH as (qs & ->); [intros; apply HC; right; assumption|]. exists (x :: qs). reflexivity. }
  destruct C as (qs & ->). exists ((c, qs) :: q). reflexivity.
Qed.
Definition row_of (q : list (string * list Qc)) (j : nat) : list Qc := map (fun cq => nth j (snd cq) 0) q.
Lemma numbers_rows (q : list (string * list Qc)) n i c qs : (forall c qs, In (c, qs) q -> List.length qs = n) -> nth_error q i = Some (c, qs) ->
  mapM (fun row => ret_opt IndexError (nth_error row i)) (map (row_of q) (seq 0 n)) = Ok qs.
Proof.
  intros R E. assert (L := R c qs (nth_error_In _ _ E)). rewrite <- L. transitivity (mapM (fun j => Ok (nth j qs 0)) (seq 0 (List.length qs))).
  - induction (seq 0 (List.length qs)) as [|j js IH]; [reflexivity|]. cbn [map mapM]. unfold row_of at 1. rewrite nth_error_map, E. cbn [option_map snd ret_opt bind]. rewrite IH. reflexivity.
  - rewrite mapM_pure. rewrite map_seq_nth. reflexivity.
Qed.
Lemma matrix_numbers cls (q : list (string * list Qc)) n : (forall c qs, In (c, qs) q -> List.length qs = n) -> q <> [] -> ~ In cls (map fst (tl q)) -> map fst q <> [] -> hd ""%string (map fst q) = cls ->
  matrix_without cls (cells_of q) = map (map CNum) (map (row_of (tl q)) (seq 0 n)).
Proof.
  intros R NE NI _ HD. destruct q as [|[c qs] q]; [contradiction|]. cbn [map fst hd tl] in *. subst c. unfold matrix_without. cbn [cells_of map frame_length fst snd filter]. rewrite eqb_refl. cbn [negb]. rewrite map_length, (R cls qs (or_introl eq_refl)).
  assert (F : filter (fun cc : string * list cell => negb (eqb (fst cc) cls)) (cells_of q) = cells_of q).
  { clear - NI. induction q as [|[d ds] q IH]; [reflexivity|]. cbn [cells_of map fst filter] in *. destruct (eqb d cls) eqn:E; [apply eqb_eq in E; subst; exfalso; apply NI; left; reflexivity|]. cbn [negb]. f_equal. apply IH. intro; apply NI; right; assumption. }
  change (map (fun cq : string * list Qc => (fst cq, map CNum (snd cq))) q) with (cells_of q). rewrite F. rewrite map_map. apply map_ext. intro j. unfold cells_of, row_of. rewrite !map_map. apply map_ext. intros [d ds]. cbn [fst snd]. apply (map_nth CNum ds 0 j).
Qed.
Lemma rebuild_data cls (q : list (string * list Qc)) n yz ftype discrete : (forall c qs, In (c, qs) q -> List.length qs = n) ->
  hd_error q = Some (cls, map qz yz) ->
  (forall c qs, In (c, qs) q -> exists t, dget c ftype = Some t /\ (In c discrete \/ t = "integer"%string -> forall x, In x qs -> exists z, x = qz z)) ->
  let X := map (row_of (tl q)) (seq 0 n) in
  List.length yz = List.length X /\ mapM (raw_column yz X ftype discrete) (enumerate (map fst q)) = Ok (cells_of q).
Proof.
  intros R HD T X. destruct q as [|[c0 qs0] q]; [discriminate|]. cbn in HD. injection HD as -> ->. cbn [tl] in X.
  assert (LY : List.length yz = n) by (rewrite <- (R cls (map qz yz) (or_introl eq_refl)), map_length; reflexivity).
  assert (YX : map2 (fun c row => qz c :: row) yz X = map (row_of ((cls, map qz yz) :: q)) (seq 0 n)).
  { unfold X. rewrite <- LY. clear. rewrite <- (map_seq_nth 0%Z yz) at 1. rewrite map2_map_seq. apply map_ext_in. intros j J. apply in_seq in J. unfold row_of. cbn [map snd]. f_equal. rewrite (nth_indep _ 0 (qz 0%Z)) by (rewrite map_length; lia). symmetry. apply (map_nth qz). }
  split; [unfold X; rewrite map_length, seq_length; assumption|]. apply mapM_enumerate; [unfold cells_of; rewrite !map_length; reflexivity|].
  intros i c r C Rr. rewrite nth_error_map in C. unfold cells_of in Rr. rewrite nth_error_map in Rr. destruct (nth_error ((cls, map qz yz) :: q) i) as [[c' qs]|] eqn:E; [|discriminate]. cbn [option_map fst snd] in *. injection C as <-. injection Rr as <-.
  unfold raw_column. rewrite YX, (@numbers_rows _ n i c' qs R E). cbn [bind]. cbv zeta. destruct (T c' qs (nth_error_In _ _ E)) as (t & Ft & TI). rewrite Ft. cbn [ret_opt bind].
  assert (ID : (In c' discrete \/ t = "integer"%string) -> map truncate qs = qs). { intro I. rewrite <- (map_id qs) at 2. apply map_ext_in. intros x Ix. destruct (TI I x Ix) as (z & ->). apply truncate_int. }
  assert (D1 : (if memb c' discrete then map truncate qs else qs) = qs). { destruct (memb c' discrete) eqn:M; [|reflexivity]. apply ID. left. apply memb_In in M. assumption. }
  assert (D2 : (if eqb t "integer"%string then map truncate qs else qs) = qs). { destruct (eqb t "integer"%string) eqn:Q; [|reflexivity]. apply ID. right. apply eqb_eq in Q. assumption. }
  rewrite D1, D2. reflexivity.
Qed.
Lemma transform_codes u col codes : transform u col = Ok codes -> exists ks, codes = map (fun k => CNum (qn k)) ks.
Proof.
  unfold transform. revert codes. induction col as [|v col IH]; intros codes T; [injection T as <-; exists []; reflexivity|]. cbn [mapM] in T. destruct (position v u) as [k|] eqn:P; [|discriminate]. cbn [ret_opt bind] in T.
  match type of T with bind ?r _ = _ => destruct r as [cs|] eqn:F; [|discriminate] end. cbn [bind] in T. injection T as <-. destruct (IH cs eq_refl) as (ks & ->). exists (k :: ks). reflexivity.
Qed.
