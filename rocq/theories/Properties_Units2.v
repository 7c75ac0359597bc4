(** * C112 for the binary fuzzy tree *)
From Verif Require Import Prelude M_Fuzzy M_Discretize P_FuzzySet P_FuzzyVar M_Rule M_FDT S_FDT P_FDT P_FDT3 Properties_FDT S_Degrees P_Degrees P_Degrees2 P_Units Properties_Units M_FBDT S_FBDT P_FBDT2 Properties_FBDT.
From Coq Require Import Reals Lra.
Local Notation eqb := Prelude.eqb.
Open Scope string_scope. Open Scope list_scope. Open Scope Qc_scope.

(** The same names and kinds, and rows with the same degrees: training gives the same outcome, the same rules, and the
    same predictions for rows with the same degrees. *)
Theorem C112_fbdt_only_degrees_matter : forall cfg vars' psort X X' y,
  let cfg' := mkFDT vars' (f_threshold cfg) (f_max_depth cfg) (f_min_examples cfg) (f_tnorm cfg) (f_voting cfg) in
  same_names (f_vars cfg) vars' -> same_kinds (f_vars cfg) vars' -> Forall2 (same_degrees (f_vars cfg) vars') X X' ->
  match bt_fit cfg psort fresh_broot X y with
  | Err e => bt_fit cfg' psort fresh_broot X' y = Err e
  | Ok (h, t) => exists t', bt_fit cfg' psort fresh_broot X' y = Ok (h, t') /\
      (forall th simplified, btree_rules t' th simplified = btree_rules t th simplified) /\
      (forall Z Z', Forall2 (same_degrees (f_vars cfg) vars') Z Z' -> bpredict cfg' t' Z' = bpredict cfg t Z)
  end.
Proof.
  intros cfg vars' psort X X' y cfg' HN HK A. assert (F := bswap_fit (f_vars cfg) vars' HN HK cfg cfg' eq_refl eq_refl psort fresh_broot X X' y A).
  change (bswap vars' fresh_broot) with fresh_broot in F. destruct (bt_fit cfg psort fresh_broot X y) as [[h t]|e] eqn:E; [|exact F]. cbn [rmap] in F. unfold pair_swap in F. cbn [fst snd] in F. exists (bswap vars' t). split; [exact F|].
  assert (St := bstored_fit (f_vars cfg) cfg eq_refl psort fresh_broot X y h t (bstored_fresh _) E).
  split.
  - intros th simplified. unfold btree_rules. rewrite (bswap_rules _ _ HN th _ St). reflexivity.
  - intros Z Z' AZ. unfold bpredict. rewrite <- (Forall2_length AZ). rewrite (bswap_predict _ _ HN _ _ _ AZ _ St). reflexivity.
Qed.
Print Assumptions C112_fbdt_only_degrees_matter.

(** The whole table and the sets, each column in units of its own. *)
Theorem C112_fbdt_units_of_measure : forall cfg units psort X y,
  let vars' := map2 convert_var units (f_vars cfg) in
  let cfg' := mkFDT vars' (f_threshold cfg) (f_max_depth cfg) (f_min_examples cfg) (f_tnorm cfg) (f_voting cfg) in
  List.length units = List.length (f_vars cfg) -> (forall kb, In kb units -> 0 < fst kb) ->
  match bt_fit cfg psort fresh_broot X y with
  | Err e => bt_fit cfg' psort fresh_broot (map (convert_row units) X) y = Err e
  | Ok (h, t) => exists t', bt_fit cfg' psort fresh_broot (map (convert_row units) X) y = Ok (h, t') /\
      (forall th simplified, btree_rules t' th simplified = btree_rules t th simplified) /\
      (forall Z, bpredict cfg' t' (map (convert_row units) Z) = bpredict cfg t Z)
  end.
Proof.
  intros cfg units psort X y vars' cfg' L Hk.
  assert (HN : same_names (f_vars cfg) vars' /\ same_kinds (f_vars cfg) vars').
  { subst vars' cfg'. clear Hk. revert L. generalize (f_vars cfg) as vs. induction units as [|u us IH]; intros [|v vs] L; try discriminate; [split; constructor|]. cbn [map2].
    assert (L' : List.length us = List.length vs) by (cbn in L; lia). destruct (IH vs L') as [I1 I2]. split; constructor; try assumption.
    - cbn [convert_var fv_name fv_sets]. split; [reflexivity|]. rewrite map_map. apply map_ext. intros [c|n w]; reflexivity.
    - cbn [convert_var fv_sets]. destruct (fv_sets v) as [|[c|n w] r]; exact I. }
  destruct HN as [HN HK]. assert (R : forall Z, Forall2 (same_degrees (f_vars cfg) vars') Z (map (convert_row units) Z)).
  { intro Z. induction Z as [|row Z IH]; [constructor|]. cbn [map]. constructor; [|assumption]. intros a v v' V V'. unfold vars' in V'. unfold convert_row.
    assert (G : forall (A B C : Type) (f : A -> B -> C) l l' i, nth_error (map2 f l l') i = match nth_error l i, nth_error l' i with Some p, Some q => Some (f p q) | _, _ => None end).
    { clear. induction l as [|p l IH]; intros l' [|i]; cbn [map2 nth_error]; [reflexivity|reflexivity| |]; destruct l' as [|q l']; cbn [map2 nth_error]; try reflexivity; [destruct (nth_error l i); reflexivity|apply IH]. }
    rewrite G in *. assert (U : exists u, nth_error units a = Some u).
    { destruct (nth_error units a) as [u|] eqn:E; [eauto|]. apply nth_error_None in E. assert (a < List.length (f_vars cfg))%nat by (apply nth_error_Some; congruence). lia. }
    destruct U as [u U]. rewrite U, V in V'. assert (Ev : v' = convert_var u v) by congruence. subst v'. rewrite U. destruct (nth_error row a) as [x|]; [|exact I].
    intros i s s' S S'. cbn [convert_var fv_sets] in S'. rewrite nth_error_map, S in S'. cbn [option_map] in S'. assert (Es : s' = convert_set u s) by congruence. rewrite Es. symmetry. apply membership_units. apply Hk. exact (nth_error_In _ _ U). }
  assert (M := C112_fbdt_only_degrees_matter cfg vars' psort X (map (convert_row units) X) y HN HK (R X)). destruct (bt_fit cfg psort fresh_broot X y) as [[h t]|e]; [|exact M].
  destruct M as (t' & F & Ru & P). exists t'. split; [exact F|]. split; [exact Ru|]. intro Z. apply P, R.
Qed.
Print Assumptions C112_fbdt_units_of_measure.

Example C112_fbdt_instance : exists h t',
  bt_fit (mkFDT [mkV "x" [FC (mkC "low" (qz 32) (qz 32) (qz 50) false); FC (mkC "high" (qz 32) (qz 50) (qz 50) false)]] (1 / 10000)%R 10 1 qmin AggVote)
      no_sort fresh_broot [[CNum (qz 32)]; [CNum (qz 50)]] ex_y = Ok (h, t') /\
  btree_rules t' 0 true = Ok [mkR [("x", ["low"])] 1%Z 1; mkR [("x", ["high"])] 0%Z 1].
Proof.
  destruct (ex_btrained AggVote) as (_ & _ & h & T).
  assert (H := C112_fbdt_units_of_measure (ex_cfg AggVote) [(qc 9 5, qz 32)] no_sort ex_X ex_y eq_refl). cbv zeta in H. rewrite T in H.
  destruct H as (t' & F & R & _); [intros kb [<-|[]]; reflexivity|]. exists h, t'.
  split; [|rewrite R; reflexivity].
  assert (V : map2 convert_var [(qc 9 5, qz 32)] (f_vars (ex_cfg AggVote)) = [mkV "x" [FC (mkC "low" (qz 32) (qz 32) (qz 50) false); FC (mkC "high" (qz 32) (qz 50) (qz 50) false)]]) by qex.
  assert (C : map (convert_row [(qc 9 5, qz 32)]) ex_X = [[CNum (qz 32)]; [CNum (qz 50)]]) by qex. rewrite V, C in F. exact F.
Qed.
