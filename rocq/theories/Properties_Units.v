(** * C111, C112: units of measure, class codes, and what a fuzzy tree reads of its table *)
From Verif Require Import Prelude M_Fuzzy M_Discretize S_Discretize P_Discretize Properties_Discretize P_FuzzySet P_FuzzyVar M_Rule M_FDT S_FDT P_FDT P_FDT3 P_FDT4 Properties_FDT P_Datasets S_Degrees P_Degrees P_Units.
From Coq Require Import Reals Lra.
Local Notation eqb := Prelude.eqb.
Open Scope string_scope. Open Scope list_scope. Open Scope Qc_scope.

(** ** C111 *)
(** [data'] are the rows of [data] in any order, with the values in other units and the classes under other codes *)
Theorem C111_discretisation_in_other_units : forall max_depth th kb code data data',
  0 < fst kb -> (forall c d, In c (map snd data) -> In d (map snd data) -> code c = code d -> c = d) ->
  Permutation data' (map (fun r => (other_units kb (fst r), code (snd r))) data) ->
  match entropy_points max_depth th data with
  | Ok pts => entropy_points max_depth th data' = Ok (map (other_units kb) pts)
  | Err e => entropy_points max_depth th data' = Err e
  end.
Proof.
  intros max_depth th [k b] code data data' Hk I P. cbn [fst] in Hk. assert (H := points_same k b code max_depth th data data' Hk I P).
  destruct (entropy_points max_depth th data); rewrite H; reflexivity.
Qed.
Print Assumptions C111_discretisation_in_other_units.

(** three rows of two classes in centimetres from another origin, in the other order and with the codes exchanged *)
Example C111_instance : let data' := [(qz 11, 0%Z); (qz 9, 1%Z); (qz 7, 1%Z)] in
  entropy_points 0 (Some 0%R) c15_data = Ok [qz 1; qz 2] /\
  Permutation data' (map (fun r => (other_units (qz 2, qz 5) (fst r), (1 - snd r)%Z)) c15_data) /\
  entropy_points 0 (Some 0%R) data' = Ok [qz 7; qz 9].
Proof.
  cbv zeta.
  assert (E : map (fun r => (other_units (qz 2, qz 5) (fst r), (1 - snd r)%Z)) c15_data = [(qz 7, 1%Z); (qz 9, 1%Z); (qz 11, 0%Z)]) by qex.
  assert (P : Permutation [(qz 11, 0%Z); (qz 9, 1%Z); (qz 7, 1%Z)] (map (fun r => (other_units (qz 2, qz 5) (fst r), (1 - snd r)%Z)) c15_data)).
  { rewrite E. eapply perm_trans; [apply perm_swap|]. eapply perm_trans; [apply perm_skip, perm_swap|]. apply perm_swap. }
  split; [exact c15_max_lost|]. split; [exact P|].
  assert (H := C111_discretisation_in_other_units 0%Z (Some 0%R) (qz 2, qz 5) (fun c => (1 - c)%Z) c15_data _ eq_refl ltac:(cbn beta; intros; lia) P).
  rewrite c15_max_lost in H. rewrite H. qex.
Qed.

(** ** C112 *)
(** The same names, and rows with the same degrees: training gives the same outcome, the same rules, and the same
    predictions for rows with the same degrees. *)
Theorem C112_only_degrees_matter : forall cfg vars' ord X X' y,
  let cfg' := mkFDT vars' (f_threshold cfg) (f_max_depth cfg) (f_min_examples cfg) (f_tnorm cfg) (f_voting cfg) in
  same_names (f_vars cfg) vars' -> Forall2 (same_degrees (f_vars cfg) vars') X X' ->
  match fit cfg ord fresh_root X y with
  | Err e => fit cfg' ord fresh_root X' y = Err e
  | Ok t => exists t', fit cfg' ord fresh_root X' y = Ok t' /\
      (forall th, tree_rules t' th = tree_rules t th) /\
      (forall Z Z', Forall2 (same_degrees (f_vars cfg) vars') Z Z' -> predict cfg' t' Z' = predict cfg t Z)
  end.
Proof.
  intros cfg vars' ord X X' y cfg' HN A. assert (F := swap_fit (f_vars cfg) vars' HN cfg cfg' eq_refl eq_refl ord fresh_root X X' y A).
  change (swap vars' fresh_root) with fresh_root in F. destruct (fit cfg ord fresh_root X y) as [t|e] eqn:E; [|exact F]. cbn [rmap] in F. exists (swap vars' t). split; [exact F|].
  assert (St := stored_fit (f_vars cfg) cfg eq_refl ord fresh_root X y t (stored_fresh _) E).
  split; [intro th; apply (swap_rules _ _ HN); exact St|].
  intros Z Z' AZ. unfold predict. rewrite (swap_predict _ _ HN _ _ _ AZ _ St). rewrite <- (Forall2_length AZ). reflexivity.
Qed.
Print Assumptions C112_only_degrees_matter.

Lemma other_units_g kb x : other_units kb x = g (fst kb) (snd kb) x.
Proof. reflexivity. Qed.
Lemma membership_units kb s v : 0 < fst kb -> membership (convert_set kb s) (convert_cell kb v) = membership s v.
Proof.
  intro Hk. destruct s as [[n a b c p]|n w]; cbn [convert_set convert_cset membership c_name pa pb pc c_point].
  - assert (V : valid_points (other_units kb a) (other_units kb b) (other_units kb c) = valid_points a b c).
    { unfold valid_points. assert (Q : forall x z, qleb (other_units kb x) (other_units kb z) = qleb x z).
      { intros x z. destruct (qleb x z) eqn:E; [apply qleb_le|apply qleb_gt]; rewrite !other_units_g; [apply (g_le _ _ Hk)|apply (g_lt _ _ Hk)]; [apply qleb_le|apply qleb_gt]; assumption. }
      rewrite !Q. reflexivity. }
    destruct v as [x|x]; cbn [convert_cell]; [|rewrite V; reflexivity]. unfold trimf. rewrite V. destruct (valid_points a b c); [|reflexivity]. f_equal.
    assert (QL : forall x z, qltb (other_units kb x) (other_units kb z) = qltb x z).
    { intros u z. destruct (qltb u z) eqn:E; [apply qltb_lt|apply qltb_ge]; rewrite !other_units_g; [apply (g_lt _ _ Hk)|apply (g_le _ _ Hk)]; [apply qltb_lt|apply qltb_ge]; assumption. }
    assert (QE : forall x z, qeqb (other_units kb x) (other_units kb z) = qeqb x z).
    { intros u z. destruct (qeqb u z) eqn:E; [apply qeqb_eq in E; subst; apply qeqb_eq; reflexivity|]. rewrite qeqb_neq in E |- *. intro Q. apply E. rewrite !other_units_g in Q. exact (g_inj _ _ Hk _ _ Q). }
    unfold tri. rewrite !QL, !QE. destruct (qeqb x b); [reflexivity|]. rewrite !other_units_g, !g_sub.
    destruct (negb (qeqb a b) && (qltb a x && qltb x b)) eqn:E1.
    { apply andb_true_iff in E1. destruct E1 as [E1 _]. apply negb_true_iff in E1. rewrite qeqb_neq in E1. apply (div_k _ Hk). intro Q. apply E1. qlra. }
    destruct (negb (qeqb b c) && (qltb b x && qltb x c)) eqn:E2; [|reflexivity].
    apply andb_true_iff in E2. destruct E2 as [E2 _]. apply negb_true_iff in E2. rewrite qeqb_neq in E2. apply (div_k _ Hk). intro Q. apply E2. qlra.
  - f_equal. assert (Q : eqb (convert_cell kb v) (convert_cell kb w) = eqb v w); [|rewrite Q; reflexivity].
    destruct (eqb v w) eqn:E; [apply Prelude.eqb_eq in E; subst; apply Prelude.eqb_eq; reflexivity|]. apply Prelude.eqb_neq in E. apply Prelude.eqb_neq. intro Q. apply E.
    destruct v as [x|x], w as [z|z]; cbn [convert_cell] in Q; try discriminate; [|assumption]. assert (Q' : other_units kb x = other_units kb z) by congruence. rewrite !other_units_g in Q'. rewrite (g_inj _ _ Hk _ _ Q'). reflexivity.
Qed.

(** Degrees have no units: the whole table and the sets, each column in units of its own. *)
Theorem C112_units_of_measure : forall cfg units ord X y,
  let vars' := map2 convert_var units (f_vars cfg) in
  let cfg' := mkFDT vars' (f_threshold cfg) (f_max_depth cfg) (f_min_examples cfg) (f_tnorm cfg) (f_voting cfg) in
  List.length units = List.length (f_vars cfg) -> (forall kb, In kb units -> 0 < fst kb) ->
  match fit cfg ord fresh_root X y with
  | Err e => fit cfg' ord fresh_root (map (convert_row units) X) y = Err e
  | Ok t => exists t', fit cfg' ord fresh_root (map (convert_row units) X) y = Ok t' /\
      (forall th, tree_rules t' th = tree_rules t th) /\
      (forall Z, predict cfg' t' (map (convert_row units) Z) = predict cfg t Z)
  end.
Proof.
  intros cfg units ord X y vars' cfg' L Hk.
  assert (HN : same_names (f_vars cfg) vars').
  { subst vars' cfg'. clear Hk. revert L. generalize (f_vars cfg) as vs. induction units as [|u us IH]; intros [|v vs] L; try discriminate; [constructor|]. cbn [map2]. constructor; [|apply IH; cbn in L; lia].
    cbn [convert_var fv_name fv_sets]. split; [reflexivity|]. rewrite map_map. apply map_ext. intros [c|n w]; reflexivity. }
  assert (R : forall Z, Forall2 (same_degrees (f_vars cfg) vars') Z (map (convert_row units) Z)).
  { intro Z. induction Z as [|row Z IH]; [constructor|]. cbn [map]. constructor; [|assumption]. intros a v v' V V'. unfold vars' in V'. unfold convert_row.
    assert (G : forall (A B C : Type) (f : A -> B -> C) l l' i, nth_error (map2 f l l') i = match nth_error l i, nth_error l' i with Some p, Some q => Some (f p q) | _, _ => None end).
    { clear. induction l as [|p l IH]; intros l' [|i]; cbn [map2 nth_error]; [reflexivity|reflexivity| |]; destruct l' as [|q l']; cbn [map2 nth_error]; try reflexivity; [destruct (nth_error l i); reflexivity|apply IH]. }
    rewrite G in *. assert (U : exists u, nth_error units a = Some u).
    { destruct (nth_error units a) as [u|] eqn:E; [eauto|]. apply nth_error_None in E. assert (a < List.length (f_vars cfg))%nat by (apply nth_error_Some; congruence). lia. }
    destruct U as [u U]. rewrite U, V in V'. assert (Ev : v' = convert_var u v) by congruence. subst v'. rewrite U. destruct (nth_error row a) as [x|]; [|exact I].
    intros i s s' S S'. cbn [convert_var fv_sets] in S'. rewrite nth_error_map, S in S'. cbn [option_map] in S'. assert (Es : s' = convert_set u s) by congruence. rewrite Es. symmetry. apply membership_units. apply Hk. exact (nth_error_In _ _ U). }
  assert (M := C112_only_degrees_matter cfg vars' ord X (map (convert_row units) X) y HN (R X)). destruct (fit cfg ord fresh_root X y) as [t|e]; [|exact M].
  destruct M as (t' & F & Ru & P). exists t'. split; [exact F|]. split; [exact Ru|]. intro Z. apply P, R.
Qed.
Print Assumptions C112_units_of_measure.

(** the sets built from converted points, with the labels kept, are the converted sets *)
Theorem C112_sets_of_converted_points : forall kb method labels pts,
  continuous_sets method (zip labels (map (other_units kb) pts)) =
  match continuous_sets method (zip labels pts) with Ok sets => Ok (map (convert_cset kb) sets) | Err e => Err e end.
Proof.
  intros kb method labels pts.
  assert (Z : zip labels (map (other_units kb) pts) = map (fun d => (fst d, other_units kb (snd d))) (zip labels pts)).
  { revert pts. induction labels as [|l labels IH]; intros [|p pts]; try reflexivity. cbn [map]. change (zip (l :: labels) (other_units kb p :: map (other_units kb) pts)) with ((l, other_units kb p) :: zip labels (map (other_units kb) pts)).
    rewrite IH. reflexivity. }
  rewrite Z. generalize (zip labels pts) as d. clear. intro d.
  assert (Mi : forall d, middle_sets (map (fun d => (fst d, other_units kb (snd d))) d) = map (convert_cset kb) (middle_sets d)).
  { clear. induction d as [|x [|y [|z d]] IH]; try reflexivity. cbn [map fst snd]. change (mkC (fst y) (other_units kb (snd x)) (other_units kb (snd y)) (other_units kb (snd z)) false :: middle_sets (map (fun d => (fst d, other_units kb (snd d))) (y :: z :: d)) = map (convert_cset kb) (middle_sets (x :: y :: z :: d))).
    rewrite IH. reflexivity. }
  assert (La : forall d, last_set (map (fun d => (fst d, other_units kb (snd d))) d) = map (convert_cset kb) (last_set d)).
  { clear. induction d as [|x [|y [|z d]] IH]; try reflexivity. change (last_set (map (fun d => (fst d, other_units kb (snd d))) (y :: z :: d)) = map (convert_cset kb) (last_set (y :: z :: d))). exact IH. }
  destruct d as [|x [|y d]]; [reflexivity| |].
  - cbn [map continuous_sets]. destruct (eqb method "point_set"); reflexivity.
  - cbn [continuous_sets]. change (map (fun d => (fst d, other_units kb (snd d))) (x :: y :: d)) with ((fst x, other_units kb (snd x)) :: (fst y, other_units kb (snd y)) :: map (fun d => (fst d, other_units kb (snd d))) d).
    cbn [continuous_sets]. change ((fst x, other_units kb (snd x)) :: (fst y, other_units kb (snd y)) :: map (fun d => (fst d, other_units kb (snd d))) d) with (map (fun d => (fst d, other_units kb (snd d))) (x :: y :: d)).
    rewrite Mi, La, <- map_app. reflexivity.
Qed.
Print Assumptions C112_sets_of_converted_points.

Example C112_instance : exists t t',
  fit (ex_cfg AggVote) same_order fresh_root ex_X ex_y = Ok t /\ t_leaf t = false /\
  fit (mkFDT [mkV "x" [FC (mkC "low" (qz 32) (qz 32) (qz 50) false); FC (mkC "high" (qz 32) (qz 50) (qz 50) false)]] (1 / 10000)%R 10 1 qmin AggVote)
      same_order fresh_root [[CNum (qz 32)]; [CNum (qz 50)]] ex_y = Ok t' /\
  (forall th, tree_rules t' th = tree_rules t th) /\ predict (ex_cfg AggVote) t [[CNum (qz 2)]] = Ok [1%Z].
Proof.
  assert (T := ex_fit AggVote ex_y (or_introl eq_refl)). destruct T as (_ & _ & _ & T).
  assert (H := C112_units_of_measure (ex_cfg AggVote) [(qc 9 5, qz 32)] same_order ex_X ex_y eq_refl). cbv zeta in H. rewrite T in H.
  destruct H as (t' & F & R & _); [intros kb [<-|[]]; reflexivity|]. exists (one_tree (ex_cfg AggVote) ex_X ex_y (ex_v "x")), t'.
  split; [exact T|]. split; [reflexivity|]. split; [|split; [exact R|reflexivity]].
  assert (V : map2 convert_var [(qc 9 5, qz 32)] (f_vars (ex_cfg AggVote)) = [mkV "x" [FC (mkC "low" (qz 32) (qz 32) (qz 50) false); FC (mkC "high" (qz 32) (qz 50) (qz 50) false)]]) by qex.
  assert (C : map (convert_row [(qc 9 5, qz 32)]) ex_X = [[CNum (qz 32)]; [CNum (qz 50)]]) by qex. rewrite V, C in F. exact F.
Qed.
