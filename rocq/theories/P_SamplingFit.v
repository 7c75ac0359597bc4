(** * Proofs about SamplingNeighborhood.fit *)
From Verif Require Import Prelude M_Fuzzy M_Discretize M_Rule M_FDT M_Counterfactual M_Explainer M_Neighborhood S_Neighborhood P_FuzzySet P_FuzzyVar P_Counterfactual P_Neighborhood
  M_Sampling S_Sampling M_Genetic M_Utils S_Utils P_Utils2 P_Utils4 P_Rows P_Cut2 M_SamplingFit S_SamplingFit.
Set Implicit Arguments.
Open Scope Qc_scope.

Definition decode (classes : list cell) (x : cell) : res cell :=
  do k <- as_int x; do i <- ret_opt ValueError (as_index k); ret_opt ValueError (nth_error classes i).
Lemma decode_inv classes x v : decode classes x = Ok v -> exists q k, x = CNum q /\ truncated q (Z.of_nat k) /\ nth_error classes k = Some v.
Proof.
  destruct x as [q|s]; [|discriminate]. unfold decode, as_int. cbn [bind]. destruct (as_index (CNum (truncate q))) as [k|] eqn:E; [|discriminate]. cbn [ret_opt bind]. intro H.
  exists q, k. split; [reflexivity|]. apply as_index_inv in E. destruct (truncate_spec q) as (z & T & S). split.
  - assert (Z.of_nat k = z) as -> by (apply (proj1 (qz_inj _ _)); unfold qn in E; congruence). exact S.
  - destruct (nth_error classes k); [cbn in H; congruence|discriminate].
Qed.
Lemma truncated_unique q a b : truncated q a -> truncated q b -> a = b.
Proof.
  intros (P & N) (P' & N'). destruct (qltb q 0) eqn:E.
  - apply qltb_lt in E. destruct (N E) as (A & B), (N' E) as (A' & B'). assert (qz (a - 1) < qz b) by qlra. assert (qz (b - 1) < qz a) by qlra. rewrite qz_lt in H, H0. lia.
  - apply qltb_ge in E. destruct (P E) as (A & B), (P' E) as (A' & B'). assert (qz a < qz (b + 1)) by qlra. assert (qz b < qz (a + 1)) by qlra. rewrite qz_lt in H, H0. lia.
Qed.
Lemma decode_total classes q k : truncated q (Z.of_nat k) -> (k < List.length classes)%nat -> exists v, decode classes (CNum q) = Ok v.
Proof.
  intros T L. unfold decode, as_int. cbn [bind]. destruct (truncate_spec q) as (z & E & T'). rewrite <- (truncated_unique T T') in E. rewrite E. change (qz (Z.of_nat k)) with (qn k). rewrite as_index_nat. cbn [ret_opt bind].
  destruct (nth_error classes k) as [v|] eqn:N; [eexists; reflexivity|]. apply nth_error_None in N. lia.
Qed.

Definition put (i : nat) (row : list cell) (v : cell) : list cell := firstn i row ++ v :: skipn (S i) row.
Lemma put_nth i row v j : (i < List.length row)%nat -> nth_error (put i row v) j = if Nat.eqb j i then Some v else nth_error row j.
Proof.
  unfold put. revert row j. induction i as [|i IH]; intros [|x row] j L; cbn in L; try lia.
  - destruct j; reflexivity.
  - destruct j as [|j]; [reflexivity|]. cbn [firstn app nth_error Nat.eqb]. apply IH. lia.
Qed.
Lemma put_length i row v : (i < List.length row)%nat -> List.length (put i row v) = List.length row.
Proof. intro L. unfold put. rewrite app_length, firstn_length. cbn [List.length]. rewrite skipn_length. lia. Qed.

Definition stepped (classes : list cell) (i : nat) (row row' : list cell) : Prop := exists x v, nth_error row i = Some x /\ decode classes x = Ok v /\ row' = put i row v.
Lemma step_ok classes i rows col ints vals : column rows i = Ok col -> mapM as_int col = Ok ints -> inverse_transform classes ints = Ok vals ->
  Forall2 (stepped classes i) rows (put_column i rows vals).
Proof.
  revert col ints vals. induction rows as [|row rows IH]; intros col ints vals C I V.
  - injection C as <-. injection I as <-. injection V as <-. constructor.
  - unfold column in C. cbn [mapM] in C. destruct (nth_error row i) as [x|] eqn:Nx; [|discriminate]. cbn [ret_opt bind] in C.
    match type of C with bind ?r _ = _ => destruct r as [col'|] eqn:EC; [|discriminate] end. cbn [bind] in C. injection C as <-.
    cbn [mapM] in I. destruct (as_int x) as [k|] eqn:Ek; [|discriminate]. cbn [bind] in I. destruct (mapM as_int col') as [ints'|] eqn:EI; [|discriminate]. cbn [bind] in I. injection I as <-.
    unfold inverse_transform in V. cbn [mapM] in V. match type of V with bind ?r _ = _ => destruct r as [v|] eqn:Ev; [|discriminate] end. cbn [bind] in V.
    match type of V with bind ?r _ = _ => destruct r as [vals'|] eqn:EV; [|discriminate] end. cbn [bind] in V. injection V as <-.
    change (Forall2 (stepped classes i) (row :: rows) (put i row v :: put_column i rows vals')). constructor; [|eapply IH; eassumption || reflexivity].
    exists x, v. split; [assumption|]. split; [|reflexivity]. unfold decode. rewrite Ek. exact Ev.
Qed.
Lemma step_total classes i rows : (forall row, In row rows -> exists x v, nth_error row i = Some x /\ decode classes x = Ok v) ->
  exists col ints vals, column rows i = Ok col /\ mapM as_int col = Ok ints /\ inverse_transform classes ints = Ok vals.
Proof.
  induction rows as [|row rows IH]; intro H; [exists [], [], []; repeat split|]. destruct IH as (col & ints & vals & C & I & V); [intros; apply H; right; assumption|].
  destruct (H row (or_introl eq_refl)) as (x & v & N & D). unfold decode in D. destruct (as_int x) as [k|] eqn:Ek; [|discriminate]. cbn [bind] in D.
  exists (x :: col), (k :: ints), (v :: vals). split; [|split].
  - unfold column in *. cbn [mapM]. rewrite N. cbn [ret_opt bind]. rewrite C. reflexivity.
  - cbn [mapM]. rewrite Ek. cbn [bind]. rewrite I. reflexivity.
  - unfold inverse_transform in *. cbn [mapM]. rewrite D. cbn [bind]. rewrite V. reflexivity.
Qed.

(** the columns of the names in [l] are decoded *)
Definition partly (names : list string) (cls : string) (l : encoders) (row row' : list cell) : Prop :=
  List.length row' = List.length row /\
  forall i c x, nth_error names i = Some c -> nth_error row i = Some x -> exists v, nth_error row' i = Some v /\
    if eqb c cls then v = x else match dget c l with Some classes => decode classes x = Ok v | None => v = x end.
Lemma partly_trans_2 A (P Q R : A -> A -> Prop) : (forall a b c, P a b -> Q b c -> R a c) -> forall x y z, Forall2 P x y -> Forall2 Q y z -> Forall2 R x z.
Proof. intros H x y z F. revert z. induction F; intros z G; inversion G; subst; constructor; eauto. Qed.
Lemma index_inv x l i : index_of x l = Ok i -> nth_error l i = Some x.
Proof.
  revert i. induction l as [|y l IH]; intros i H; [discriminate|]. cbn in H. destruct (eqb x y) eqn:E; [injection H as <-; apply eqb_eq in E; subst; reflexivity|].
  destruct (index_of x l) as [j|]; [|discriminate]. cbn in H. injection H as <-. apply IH. reflexivity.
Qed.
Lemma Forall2_refl_in A (R : A -> A -> Prop) l : (forall x, In x l -> R x x) -> Forall2 R l l.
Proof. induction l; intro H; constructor; auto using in_eq, in_cons. Qed.
Section Decode.
  Variables (names : list string) (cls : string).
  Hypothesis (ND : NoDup names).
  Let F (rows : list (list cell)) (le : string * list cell) : res (list (list cell)) :=
      if eqb (fst le) cls then Ok rows else
      do i <- (match index_of (fst le) names with Ok i => Ok i | Err _ => Err KeyError end);
      do col <- column rows i;
      do ints <- mapM as_int col;
      do vals <- inverse_transform (snd le) ints;
      Ok (put_column i rows vals).
  Lemma partly_nil rows : Forall2 (partly names cls []) rows rows.
  Proof. apply Forall2_refl_in. intros r _. split; [reflexivity|]. intros i c x _ N. exists x. split; [assumption|]. destruct (eqb c cls); reflexivity. Qed.
  Lemma step_partly le classes rows rows' : F rows (le, classes) = Ok rows' -> Forall2 (partly names cls [(le, classes)]) rows rows'.
  Proof.
    unfold F. cbn [fst snd]. destruct (eqb le cls) eqn:E.
    - intro H. injection H as <-. apply Forall2_refl_in. intros r _. split; [reflexivity|]. intros i c x _ N. exists x. split; [assumption|]. destruct (eqb c cls) eqn:Q; [reflexivity|]. cbn.
      destruct (eqb c le) eqn:Q2; [|reflexivity]. apply eqb_eq in Q2. subst. congruence.
    - destruct (index_of le names) as [i|] eqn:I; [|discriminate]. cbn [bind]. destruct (column rows i) as [col|] eqn:C; [|discriminate]. cbn [bind].
      destruct (mapM as_int col) as [ints|] eqn:J; [|discriminate]. cbn [bind]. destruct (inverse_transform classes ints) as [vals|] eqn:V; [|discriminate]. cbn [bind]. intro H. injection H as <-.
      assert (S := step_ok _ _ _ C J V). apply index_inv in I. clear C J V. remember (put_column i rows vals) as out eqn:EO. clear EO. induction S as [|row row' rs rs' (x & v & N & D & ->) S IH]; [constructor|constructor; [|exact IH]].
      assert (L : (i < List.length row)%nat) by (apply nth_error_Some; congruence). split; [apply put_length; assumption|]. intros j c y Nc Ny. rewrite put_nth by assumption. destruct (Nat.eqb_spec j i) as [->|NE].
      + exists v. split; [reflexivity|]. assert (c = le) as -> by congruence. rewrite E. cbn. rewrite eqb_refl. congruence.
      + exists y. split; [assumption|]. destruct (eqb c cls); [reflexivity|]. cbn. destruct (eqb c le) eqn:Q; [|reflexivity]. apply eqb_eq in Q. subst c. exfalso. apply NE.
        apply (proj1 (NoDup_nth_error names) ND); [apply nth_error_Some; congruence|congruence].
  Qed.
  Lemma fold_partly l rows rows' : NoDup (dkeys l) -> foldM F rows l = Ok rows' -> Forall2 (partly names cls l) rows rows'.
  Proof.
    assert (ND' : forall le classes rows rows', F rows (le, classes) = Ok rows' -> Forall2 (partly names cls [(le, classes)]) rows rows') by (apply step_partly). clear ND.
    revert rows. induction l as [|(le & classes) l IH]; intros rows N H; [injection H as <-; apply partly_nil|]. cbn [foldM] in H.
    destruct (F rows (le, classes)) as [mid|] eqn:E; [|discriminate]. cbn [bind] in H. inversion N as [|? ? NI N']; subst. eapply partly_trans_2; [|exact (ND' _ _ _ _ E)|exact (IH _ N' H)].
    clear - NI. intros a b c (L1 & P1) (L2 & P2). split; [congruence|]. intros i n x Nn Nx. destruct (P1 i n x Nn Nx) as (v & Nv & Dv). destruct (P2 i n v Nn Nv) as (u & Nu & Du). exists u. split; [assumption|].
    destruct (eqb n cls); [congruence|]. cbn [dget] in *. destruct (eqb n le) eqn:Q.
    - apply eqb_eq in Q. subst n. rewrite (proj2 (@dget_None _ _ _ le l) NI) in Du. subst u. assumption.
    - subst v. assumption.
  Qed.
  Lemma fold_total l rows : NoDup (dkeys l) ->
    (forall le classes, In (le, classes) l -> le <> cls -> exists i, nth_error names i = Some le /\ forall row, In row rows -> exists x v, nth_error row i = Some x /\ decode classes x = Ok v) ->
    exists rows', foldM F rows l = Ok rows'.
  Proof.
    revert rows. induction l as [|(le & classes) l IH]; intros rows N H; [eexists; reflexivity|]. cbn [foldM]. inversion N as [|? ? NI N']; subst.
    assert (M : exists mid, F rows (le, classes) = Ok mid).
    { unfold F. cbn [fst snd]. destruct (eqb le cls) eqn:E; [eexists; reflexivity|]. apply eqb_neq in E. destruct (H le classes (or_introl eq_refl) E) as (i & Ni & D). rewrite (@index_of_spec le names i ND Ni). cbn [bind].
      destruct (step_total classes i rows D) as (col & ints & vals & -> & J & V). cbn [bind]. rewrite J. cbn [bind]. rewrite V. eexists. reflexivity. }
    destruct M as (mid & E). rewrite E. cbn [bind]. apply IH; [assumption|]. intros le' classes' I NE. destruct (H le' classes' (or_intror I) NE) as (i & Ni & D). exists i. split; [assumption|].
    intros row' IR. apply In_nth_error in IR. destruct IR as (r & NR). destruct (Forall2_nth_r (step_partly _ _ _ E) r NR) as (row & NR0 & (L & P)). apply nth_error_In in NR0. destruct (D row NR0) as (x & v & Nx & Dx).
    destruct (P i le' x Ni Nx) as (u & Nu & Du). rewrite (proj2 (@eqb_neq string _ le' cls) NE) in Du. cbn [dget] in Du. destruct (eqb le' le) eqn:Q.
    - apply eqb_eq in Q. subst le'. exfalso. apply NI. change (In le (map fst l)). apply (in_map fst) in I. exact I.
    - subst u. exists x, v. split; assumption.
  Qed.
End Decode.

Lemma decode_table_ok encs cls names rows tb : NoDup names -> NoDup (dkeys encs) -> ~ In cls names -> (forall r, In r rows -> List.length r = List.length names) ->
  decode_table encs cls (mkTb names (map (map CNum) rows)) = Ok tb -> tb_cols tb = names /\ Forall2 (original encs names) rows (tb_rows tb).
Proof.
  intros ND NK NC W H. unfold decode_table in H. cbn [tb_cols tb_rows] in H. match type of H with bind ?r _ = _ => destruct r as [out|] eqn:E; [|discriminate] end. cbn [bind] in H. injection H as <-. split; [reflexivity|]. cbn [tb_rows].
  apply (@fold_partly names cls ND) in E; [|assumption]. remember (map (map CNum) rows) as cells eqn:EC. revert rows EC W. induction E as [|row row' rs rs' (L & P) E IH]; intros [|r rows] EC W; try discriminate; constructor.
  - injection EC as -> _. rewrite map_length in L. assert (LR := W r (or_introl eq_refl)). split; [assumption|]. split; [congruence|]. intros i c q v Nc Nq Nv.
    destruct (P i c (CNum q) Nc) as (u & Nu & Du); [rewrite nth_error_map, Nq; reflexivity|]. assert (u = v) as -> by congruence. assert (NE : c <> cls) by (intros ->; apply NC; eapply nth_error_In; eassumption).
    rewrite (proj2 (@eqb_neq string _ c cls) NE) in Du. unfold stands_for. destruct (dget c encs) as [classes|]; [|assumption]. apply decode_inv in Du. destruct Du as (q' & k & Q & T & N). injection Q as <-. eauto.
  - injection EC as _ EC. apply IH; [assumption|]. intros; apply W; right; assumption.
Qed.
Lemma decode_table_total encs cls names outcomes X rows : NoDup names -> encoded encs names cls outcomes X -> ~ In cls names -> (forall r, In r rows -> List.length r = List.length names) ->
  (forall r i q, In r rows -> nth_error r i = Some q -> exists r', In r' X /\ nth_error r' i = Some q) ->
  exists tb, decode_table encs cls (mkTb names (map (map CNum) rows)) = Ok tb.
Proof.
  intros ND [K N C _] NC W V. unfold decode_table. cbn [tb_cols tb_rows]. destruct (@fold_total names cls ND encs (map (map CNum) rows) K) as (out & E).
  - intros le classes I NE. destruct (N le) as [->|In_]; [apply (in_map fst) in I; exact I|congruence|]. apply In_nth_error in In_. destruct In_ as (i & Ni). exists i. split; [assumption|].
    intros row IR. apply in_map_iff in IR. destruct IR as (r & <- & IR). assert (L : (i < List.length r)%nat) by (rewrite (W r IR); apply nth_error_Some; congruence).
    destruct (nth_error r i) as [q|] eqn:Nq; [|apply nth_error_None in Nq; lia]. destruct (V r i q IR Nq) as (r' & I' & N'). destruct (C le classes i r' q (dget_nodup _ _ _ K I) Ni I' N') as (k & T & L').
    destruct (@decode_total classes q k T L') as (v & D). exists (CNum q), v. split; [|assumption]. rewrite nth_error_map, Nq. reflexivity.
  - match goal with |- exists tb, bind ?r _ = _ => replace r with (Ok out) end. eexists. reflexivity.
Qed.
Lemma decode_instance_ok encs names inst dec : List.length inst = List.length names -> decode_instance encs names inst = Ok dec -> original encs names inst dec.
Proof.
  intros L H. unfold decode_instance in H. assert (LD := mapM_length _ _ H). unfold enumerate, zip in LD. rewrite combine_length, seq_length, Nat.min_id in LD. split; [assumption|]. split; [assumption|].
  intros i c q v Nc Nq Nv. apply mapM_ok in H. destruct (Forall2_nth_r H i Nv) as ((j & c') & E & D). apply enumerate_nth_inv in E. destruct E as (E & E'). cbn [fst snd] in *. subst j. assert (c' = c) as -> by congruence. clear E'.
  unfold stands_for. destruct (dget c encs) as [classes|]; unfold lget in D; rewrite Nq in D; cbn [ret_opt bind] in D; [|congruence].
  assert (D' : decode classes (CNum q) = Ok v). { unfold decode. unfold as_int in *. cbn [bind] in *. unfold inverse_transform in D. cbn [mapM] in D. destruct (as_index (CNum (truncate q))) as [k|]; [|discriminate]. cbn [ret_opt bind] in *. destruct (nth_error classes k); [|discriminate]. cbn in *. congruence. }
  apply decode_inv in D'. destruct D' as (q' & k & Q & T & N). injection Q as <-. eauto.
Qed.
Lemma decode_instance_total encs cls names outcomes X inst : encoded encs names cls outcomes X -> In inst X -> List.length inst = List.length names ->
  exists dec, decode_instance encs names inst = Ok dec.
Proof.
  intros [K N C _] II L. unfold decode_instance. apply mapM_total. intros (i & c) I. apply In_nth_error in I. destruct I as (j & Nj). apply enumerate_nth_inv in Nj. cbn [fst snd] in *. destruct Nj as (<- & Nj).
  assert (LI : (i < List.length inst)%nat) by (rewrite L; apply nth_error_Some; congruence). unfold lget. destruct (nth_error inst i) as [q|] eqn:Nq; [|apply nth_error_None in Nq; lia]. cbn [ret_opt bind].
  destruct (dget c encs) as [classes|] eqn:D; [|eexists; reflexivity]. destruct (C c classes i inst q D Nj II Nq) as (k & T & L'). destruct (@decode_total classes q k T L') as (v & E). unfold decode in E. unfold as_int in *. cbn [bind] in *.
  unfold inverse_transform. cbn [mapM]. destruct (as_index (CNum (truncate q))) as [m|]; [|discriminate]. cbn [ret_opt bind] in *. destruct (nth_error classes m); [|discriminate]. eexists. reflexivity.
Qed.
Lemma decode_labels_ok encs cls y labels : decode_labels encs cls y = Ok labels -> Forall2 (label_of encs cls) y labels.
Proof.
  unfold decode_labels. destruct (dget cls encs) as [classes|] eqn:D; [|discriminate]. cbn [ret_opt bind]. unfold inverse_transform. intro H. apply mapM_ok in H. remember (map (fun c => CNum (qz c)) y) as l eqn:E. revert y E.
  induction H as [|x v xs vs Hx H IH]; intros [|c y] E; try discriminate; constructor.
  - injection E as -> _. destruct (as_index (CNum (qz c))) as [k|] eqn:A; [|discriminate]. cbn [ret_opt bind] in Hx. destruct (nth_error classes k) as [u|] eqn:N; [|discriminate]. cbn in Hx. apply as_index_inv in A.
    exists classes, k. split; [assumption|]. split; [apply (proj1 (qz_inj _ _)); unfold qn in A; congruence|congruence].
  - injection E as _ E. apply IH. assumption.
Qed.
Lemma decode_labels_total encs cls names outcomes X y : encoded encs names cls outcomes X -> (forall c, In c y -> (0 <= c < Z.of_nat outcomes)%Z) -> exists labels, decode_labels encs cls y = Ok labels.
Proof.
  intros [_ _ _ (classes & D & L)] H. unfold decode_labels. rewrite D. cbn [ret_opt bind]. unfold inverse_transform. apply mapM_total. intros x I. apply in_map_iff in I. destruct I as (c & <- & I). specialize (H c I).
  replace (qz c) with (qn (Z.to_nat c)) by (unfold qn; f_equal; lia). rewrite as_index_nat. cbn [ret_opt bind]. destruct (nth_error classes (Z.to_nat c)) eqn:N; [eexists; reflexivity|]. apply nth_error_None in N. lia.
Qed.
Lemma number_rows_num cols rows : number_rows (mkTb cols (map (map CNum) rows)) = rows.
Proof. unfold number_rows. cbn [tb_rows]. rewrite map_map. rewrite <- (map_id rows) at 2. apply map_ext. intro r. rewrite map_map. apply map_id. Qed.

(** ** the membership of the last row *)
Lemma mapM_map_ok A B C (g : A -> res B) (g' : A -> res C) (h : B -> C) l r : mapM g l = Ok r -> (forall x y, In x l -> g x = Ok y -> g' x = Ok (h y)) -> mapM g' l = Ok (map h r).
Proof.
  intro E. apply mapM_ok in E. induction E as [|x y l r Hx E IH]; intro H; [reflexivity|]. cbn [mapM map]. rewrite (H x y (or_introl eq_refl) Hx). cbn [bind]. rewrite IH; [reflexivity|]. intros; eapply H; [right; eassumption|eassumption].
Qed.
Lemma mapM_last A B (f : A -> res B) l x r d : mapM f (l ++ [x]) = Ok r -> mapM f [x] = Ok [last r d].
Proof.
  revert r. induction l as [|y l IH]; intros r H.
  - cbn [app] in H. rewrite H. cbn [mapM] in H. destruct (f x); [|discriminate]. cbn in H. injection H as <-. reflexivity.
  - cbn [app mapM] in H. destruct (f y) as [v|]; [|discriminate]. cbn [bind] in H. destruct (mapM f (l ++ [x])) as [r'|] eqn:E; [|discriminate]. cbn [bind] in H. injection H as <-.
    rewrite (IH r' eq_refl). f_equal. f_equal. destruct r' as [|z r']; [|reflexivity]. apply mapM_length in E. rewrite app_length in E. cbn in E. lia.
Qed.
Lemma last_membership X row vars xm im : dataset_membership (X ++ [row]) vars = Ok xm -> dataset_membership [row] vars = Ok im -> single im = last_row xm.
Proof.
  unfold dataset_membership. intros H H'. match type of H with bind ?r _ = _ => destruct r as [l|] eqn:E; [|discriminate] end. cbn [bind] in H. injection H as <-.
  rewrite (@mapM_map_ok _ _ _ _ _ (fun fd => (fst fd, map (fun tl : string * list Qc => (fst tl, [last (snd tl) 0])) (snd fd))) _ _ E) in H'.
  - cbn [bind] in H'. injection H' as <-.
    assert (DM : forall V W (f : V -> W) (m : list (string * V)), dict_of (map (fun nv => (fst nv, f (snd nv))) m) = map (fun nv => (fst nv, f (snd nv))) (dict_of m)) by (intros; apply P_Rows.dict_of_map).
    rewrite (DM _ _ (fun d => map (fun tl : string * list Qc => (fst tl, [last (snd tl) 0])) d)). unfold single, last_row. rewrite map_map. apply map_ext. intros (f & d). cbn [fst snd]. f_equal. rewrite map_map. apply map_ext. intros (t & ds). reflexivity.
  - intros (i & v) (n & d) _ Q. cbn beta iota zeta in Q |- *. destruct (column (X ++ [row]) i) as [col|] eqn:C; [|discriminate]. cbn [bind] in Q. destruct (var_membership v col) as [d'|] eqn:V; [|discriminate]. cbn [bind] in Q. injection Q as <- <-.
    unfold column in *. assert (LC := mapM_length _ _ C). rewrite (@mapM_last _ _ _ _ _ _ (CNum 0) C). cbn [bind]. rewrite app_length in LC.
    assert (EC : col = removelast col ++ [last col (CNum 0)]) by (apply app_removelast_last; destruct col; [cbn in LC; lia|discriminate]).
    unfold var_membership in *. match type of V with bind ?r _ = _ => destruct r as [ss|] eqn:ES; [|discriminate] end. cbn [bind] in V. injection V as <-.
    rewrite (@mapM_map_ok _ _ _ _ _ (fun tl : string * list Qc => (fst tl, [last (snd tl) 0])) _ _ ES).
    + cbn [bind fst snd]. f_equal. f_equal. apply (P_Rows.dict_of_map _ _ (fun l : list Qc => [last l 0])).
    + intros s (n & ds) _ Q. cbn beta in Q |- *. destruct (membership_col s col) as [m|] eqn:M; [|discriminate]. cbn [bind] in Q. injection Q as <- <-. unfold membership_col in *. rewrite EC in M. 
      rewrite (@mapM_last _ _ _ _ _ _ 0 M). reflexivity.
Qed.
Lemma original_fun encs names row a b : original encs names row a -> original encs names row b -> a = b.
Proof.
  intros (L & LA & HA) (_ & LB & HB). apply nth_error_ext. intro i. destruct (nth_error names i) as [c|] eqn:N.
  - assert (LI : (i < List.length names)%nat) by (apply nth_error_Some; congruence). destruct (nth_error row i) as [q|] eqn:Q; [|apply nth_error_None in Q; lia]. destruct (nth_error a i) as [u|] eqn:U; [|apply nth_error_None in U; lia]. destruct (nth_error b i) as [v|] eqn:V; [|apply nth_error_None in V; lia].
    assert (A := HA i c q u N Q U). assert (B := HB i c q v N Q V). unfold stands_for in *. destruct (dget c encs); [|congruence]. destruct A as (k & T & K), B as (k' & T' & K'). assert (k = k') by (apply Nat2Z.inj; eapply truncated_unique; eassumption). congruence.
  - apply nth_error_None in N. assert (nth_error a i = None) by (apply nth_error_None; lia). assert (nth_error b i = None) by (apply nth_error_None; lia). congruence.
Qed.
