(** * Properties C13-C15: fuzzy entropy and entropy discretisation *)
From Verif Require Import Prelude M_Fuzzy M_Discretize P_FuzzySet P_FuzzyVar S_Discretize P_Entropy P_Discretize P_Discretize2.
From Coq Require Import Reals Lra.

Local Open Scope Qc_scope.

(** ** C13 *)
Theorem C13_entropy_bounds : forall (t : list Qc) (cls : list Z),
  (forall x, In x t -> 0 <= x) -> List.length t = List.length cls -> cls <> [] ->
  (0 <= fuzzy_entropy t cls <= ln (INR (List.length (nodup Z.eq_dec cls))) / ln 2)%R.
Proof. exact C13_bounds. Qed.
Print Assumptions C13_entropy_bounds.

(** the entropy in bits of the class shares, and its average over the sets of a partition *)
Theorem C13_entropy_formula : forall (t : list Qc) (cls : list Z),
  (forall x, In x t -> 0 <= x) -> List.length t = List.length cls -> fuzzy_entropy t cls = entropy_of (combine t cls).
Proof.
  intros t cls P L. rewrite <- entropy_rows; [rewrite map_fst_combine, map_snd_combine by assumption; reflexivity|].
  intros [x c] H. apply P. exact (in_combine_l _ _ _ _ H).
Qed.
Print Assumptions C13_entropy_formula.
Theorem C13_weighted_formula : forall (ts : list (list Qc)) (cls : list Z),
  (forall t, In t ts -> (forall x, In x t -> 0 <= x) /\ List.length t = List.length cls) ->
  weighted_fuzzy_entropy ts cls = (total (map (fun t => weight (combine t cls) * entropy_of (combine t cls)) ts) / INR (List.length cls))%R.
Proof.
  intros ts cls H. unfold weighted_fuzzy_entropy. f_equal. apply rsum_map_ext. intros t Ht. destruct (H t Ht) as [P L].
  rewrite C13_entropy_formula by assumption. rewrite weight_spec, map_fst_combine by assumption. reflexivity.
Qed.
Print Assumptions C13_weighted_formula.

Theorem C13_entropy_zero_iff_pure : forall (t : list Qc) (cls : list Z),
  (forall x, In x t -> 0 <= x) -> List.length t = List.length cls ->
  (fuzzy_entropy t cls = 0%R <->
   (forall i j ti tj ci cj, nth_error t i = Some ti -> nth_error t j = Some tj ->
      nth_error cls i = Some ci -> nth_error cls j = Some cj -> 0 < ti -> 0 < tj -> ci = cj)).
Proof. exact C13_zero. Qed.
Print Assumptions C13_entropy_zero_iff_pure.

Theorem C13_entropy_row_order : forall t cls t' cls',
  List.length t = List.length cls -> List.length t' = List.length cls' ->
  Permutation (combine t cls) (combine t' cls') -> fuzzy_entropy t cls = fuzzy_entropy t' cls'.
Proof. exact fuzzy_entropy_perm. Qed.
Print Assumptions C13_entropy_row_order.

Theorem C13_entropy_scale : forall k t cls, 0 < k -> fuzzy_entropy (map (fun x => k * x) t) cls = fuzzy_entropy t cls.
Proof. exact fuzzy_entropy_scale. Qed.
Print Assumptions C13_entropy_scale.

Theorem C13_weighted_entropy_bounds : forall (ts : list (list Qc)) (cls : list Z), cls <> [] ->
  (forall t, In t ts -> (forall x, In x t -> 0 <= x) /\ List.length t = List.length cls) ->
  (0 <= weighted_fuzzy_entropy ts cls <=
   Q2R (this (qsum (map qsum ts))) / INR (List.length cls) * (ln (INR (List.length (nodup Z.eq_dec cls))) / ln 2))%R.
Proof. exact C13_weighted. Qed.
Print Assumptions C13_weighted_entropy_bounds.

(** a mixed vector over two classes meets the hypotheses, and its entropy is positive *)
Example C13_instance : let t := [1; qc 1 2; 0] in let cls := [0; 1; 1]%Z in
  (forall x, In x t -> 0 <= x) /\ List.length t = List.length cls /\ cls <> [] /\ fuzzy_entropy t cls <> 0%R.
Proof.
  cbv zeta. assert (HP : forall x, In x [1; qc 1 2; 0] -> 0 <= x) by (intros x [<-|[<-|[<-|[]]]]; unfold qc; qlra).
  split; [exact HP|]. split; [reflexivity|]. split; [discriminate|].
  rewrite C13_entropy_zero_iff_pure by (assumption || reflexivity). intro U.
  assert (0%Z = 1%Z); [|discriminate].
  apply (U 0%nat 1%nat 1 (qc 1 2) 0%Z 1%Z); try reflexivity; unfold qc; qlra.
Qed.

(** ** C14 *)
Theorem C14_discretisation : forall (max_depth : Z) (th : option R) (data : list (Qc * Z)),
  (exists x y, In x (map fst data) /\ In y (map fst data) /\ x <> y) ->
  exists m rest, entropy_points max_depth th data = Ok (m :: rest) /\
    (In m (map fst data) /\ forall x, In x (map fst data) -> m <= x) /\
    StronglySorted Qclt (m :: rest) /\
    (forall x, In x rest -> In x (map fst data)) /\
    ((0 < max_depth)%Z -> (List.length (m :: rest) <= 2 ^ Z.to_nat max_depth + 1)%nat).
Proof. exact C14_thm. Qed.
Print Assumptions C14_discretisation.

Theorem C14_constant_column : forall max_depth th data m, data <> [] -> (th = None -> (2 <= List.length data)%nat) ->
  (forall x, In x (map fst data) -> x = m) -> entropy_points max_depth th data = Ok [m; m].
Proof. exact C14_const. Qed.
Print Assumptions C14_constant_column.

Theorem C14_single_row_without_threshold : forall max_depth x c,
  entropy_points max_depth None [(x, c)] = Err ValueError.
Proof. exact C14_single. Qed.
Print Assumptions C14_single_row_without_threshold.

Example C14_instance : exists x y, In x (map fst c15_data) /\ In y (map fst c15_data) /\ x <> y.
Proof. exists (qz 1), (qz 2). cbn. split; [auto|]. split; [auto|]. intro H. apply qz_inj in H. discriminate. Qed.

(** ** C15 *)
Theorem C15_repeated_maximum_kept : forall max_depth th data pts M,
  (exists x y, In x (map fst data) /\ In y (map fst data) /\ x <> y) ->
  (2 <= count_occ Qc_eq_dec (map fst data) M)%nat -> (forall x, In x (map fst data) -> x <= M) ->
  entropy_points max_depth th data = Ok pts -> exists r, pts = r ++ [M].
Proof. exact C15_kept. Qed.
Print Assumptions C15_repeated_maximum_kept.

(** a column whose maximum gets degree 0 in every set built from its own points *)
Theorem C15_single_maximum_refuted : exists data pts top,
  entropy_points 0 (Some 0%R) data = Ok pts /\ In top (map fst data) /\ (forall x, In x (map fst data) -> x <= top) /\
  (forall x, In x pts -> x < top) /\
  exists sets, continuous_sets "point_set" (zip (map (fun _ => ""%string) pts) pts) = Ok sets /\
    Forall (fun s => membership (FC s) (CNum top) = Ok 0) sets.
Proof. exact C15_refuted_all. Qed.
Print Assumptions C15_single_maximum_refuted.

Example C15_instance : let data := [(qz 1, 0%Z); (qz 3, 1%Z); (qz 2, 0%Z); (qz 3, 0%Z)] in
  count_occ Qc_eq_dec (map fst data) (qz 3) = 2%nat /\ (forall x, In x (map fst data) -> x <= qz 3).
Proof. split; [reflexivity|]. intros x [<-|[<-|[<-|[<-|[]]]]]; apply qz_le; lia. Qed.

(** ** C76: [divided] (S_Discretize.v) cuts at the least interior value of largest entropy gain
    while the gain reaches the required one and the depth limit allows it *)
Theorem C76_cuts_are_gain_optimal : forall max_depth th data,
  (exists x y, In x (map fst data) /\ In y (map fst data) /\ x <> y) ->
  exists mn pts, (In mn (map fst data) /\ forall x, In x (map fst data) -> mn <= x) /\
    entropy_points max_depth th data = Ok pts /\ divided max_depth th 0 mn data pts.
Proof. exact entropy_points_divided. Qed.
Print Assumptions C76_cuts_are_gain_optimal.

(** the specification determines the points *)
Theorem C76_points_unique : forall max_depth th depth mn data pts pts',
  divided max_depth th depth mn data pts -> divided max_depth th depth mn data pts' -> pts = pts'.
Proof. intros max_depth th depth mn data pts pts' H H'. exact (proj1 (divided_fun max_depth th) depth mn data pts H pts' H'). Qed.
Print Assumptions C76_points_unique.

(** three rows of two classes: the cut at 2 separates them completely and is taken *)
Example C76_instance : divided 0 (Some 0%R) 0 (qz 1) c15_data [qz 1; qz 2].
Proof.
  destruct (C76_cuts_are_gain_optimal 0%Z (Some 0%R) c15_data) as (mn & pts & [A B] & C & D).
  { exists (qz 1), (qz 2). cbn. split; [auto|]. split; [auto|]. intro H. apply qz_inj in H. discriminate. }
  rewrite c15_max_lost in C. assert (pts = [qz 1; qz 2]) by congruence. subst pts.
  assert (mn = qz 1); [|subst; exact D]. apply Qcle_antisym; [apply B; cbn; auto|].
  destruct A as [<-|[<-|[<-|[]]]]; apply qz_le; lia.
Qed.
