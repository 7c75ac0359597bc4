(** * Property C136: with two sets per variable FDT and FBDT are the same classifier *)
From Verif Require Import Prelude M_Fuzzy M_Discretize M_Rule M_FDT M_FBDT S_Rule S_FDT S_FBDT S_Twin P_FuzzySet P_FuzzyVar P_Entropy P_Rule P_FDT P_FDT2 P_FDT3 P_FDT4 P_FBDT P_FBDT2 P_FBDT3 P_FBDT7 P_FitState P_Twin Properties_FDT Properties_FBDT.
From Coq Require Import Reals Lra.
Open Scope string_scope.
Open Scope list_scope.
Open Scope Qc_scope.

Lemma two_sets_ne vars : two_sets vars -> forall v, In v vars -> fv_sets v <> [].
Proof. intros T v Hv. destruct (T v Hv) as (s1 & s2 & ->). discriminate. Qed.
Lemma two_sets_cats vars : two_sets vars -> categorical_features vars = Ok [].
Proof.
  intro T. unfold categorical_features. assert (M : mapM (fun v => match fv_sets v with [] => Err IndexError | FC _ :: _ => Ok [] | FD _ _ :: _ => Ok [fv_name v] end) vars = Ok (map (fun _ => []) vars)).
  { induction vars as [|v vars IH]; [reflexivity|]. cbn [mapM map]. destruct (T v (or_introl eq_refl)) as (s1 & s2 & ->). cbn [bind]. rewrite IH by (intros w Hw; apply T; right; exact Hw). reflexivity. }
  rewrite M. cbn [bind]. apply (f_equal (@Ok _)). clear. induction vars as [|v vars IH]; [reflexivity|]. exact IH.
Qed.
Lemma twin_exists cfg psort X y t : two_sets (f_vars cfg) -> (forall l, Permutation (psort l) l) -> trained cfg listed_order X y t ->
  exists bt, btrained cfg psort X y bt /\ twin t bt.
Proof.
  intros TS PS T. assert (T' := T). destruct T' as (_ & DN & Hth & E). unfold fit in E.
  destruct (negb (Nat.eqb (List.length X) (List.length y)) || Nat.eqb (List.length y) 0) eqn:EL; [discriminate|].
  destruct (dataset_membership X (f_vars cfg)) as [XM|] eqn:EX; cbn [bind] in E; [|discriminate].
  destruct (@dataset_membership_exact _ _ _ DN EX) as [-> _]. assert (ND := proj1 DN). apply orb_false_iff in EL. destruct EL as [EL EN]. apply negb_false_iff in EL. apply Nat.eqb_eq in EL. apply Nat.eqb_neq in EN.
  assert (Hy : y <> []) by (intros ->; apply EN; reflexivity).
  assert (Hxm : forall v, In v (f_vars cfg) -> nm1 v <> nm2 v /\ map fs_name (fv_sets v) = [nm1 v; nm2 v] /\
    exists c1 c2, dget (fv_name v) (exact_mem (f_vars cfg) X) = Some [(nm1 v, c1); (nm2 v, c2)] /\ List.length c1 = List.length y /\ List.length c2 = List.length y).
  { intros v Hv. destruct (In_nth_error _ _ Hv) as [a Ha]. rewrite (@exact_mem_get _ _ _ _ ND Ha). assert (N2 := proj2 DN v Hv). unfold exact_sets, nm1, nm2. destruct (TS v Hv) as (s1 & s2 & Es). rewrite Es in *.
    cbn [map fs_name] in *. split; [intro Q; rewrite Q in N2; inversion N2 as [|? ? N3 _]; subst; apply N3; left; reflexivity|]. split; [reflexivity|].
    eexists. eexists. split; [reflexivity|]. rewrite !map_length. auto. }
  assert (Hth' : (0 < f_threshold cfg)%R \/ dget "" (exact_mem (f_vars cfg) X) = None).
  { destruct Hth as [Q|Q]; [left; exact Q|right]. apply dget_None. unfold exact_mem, dkeys. rewrite map_map. cbn [fst]. rewrite (map_enumerate fv_name). exact Q. }
  cbv zeta in E. 
  assert (FT : f_features cfg = map fv_name (remn cfg (fun _ => true))).
  { unfold f_features, remn. rewrite nodup_fixed_point by exact ND. f_equal. clear. induction (f_vars cfg) as [|v l IH]; [reflexivity|]. cbn. rewrite <- IH. reflexivity. }
  rewrite FT in E at 2.
  assert (FD : fd_ok cfg (fun _ => true) (initial_sets (f_vars cfg))).
  { exists (fun v => map fs_name (fv_sets v)). split; [|intros; reflexivity]. unfold initial_sets. apply dict_of_nodup. rewrite map_map. exact ND. }
  assert (LF : (List.length (remn cfg (fun _ => true)) < fuel_for (initial_sets (f_vars cfg)))%nat).
  { rewrite <- (map_length fv_name), <- FT. unfold f_features. rewrite nodup_fixed_point by exact ND. rewrite map_length. unfold fuel_for, initial_sets. rewrite dict_of_nodup by (rewrite map_map; exact ND).
    rewrite map_map. cbn [snd]. clear - TS. induction (f_vars cfg) as [|v l IH]; [cbn; lia|]. cbn [map list_sum fold_right List.length]. destruct (TS v (or_introl eq_refl)) as (s1 & s2 & ->). cbn [map List.length].
    assert (Q : (List.length l < S (list_sum (map (fun v => List.length (map fs_name (fv_sets v))) l)))%nat) by (apply IH; intros w Hw; apply TS; right; exact Hw). unfold list_sum in Q. lia. }
  assert (TN : twin_nodes (Tree (t_leaf fresh_root) (t_children fresh_root) (t_class fresh_root) (t_level fresh_root) (t_value fresh_root) (t_var fresh_root) (repeat 1 (List.length y)))
                           (BTree true [] None (-1) None None (repeat 1 (List.length y)) [])) by (repeat split; constructor).
  pose proof (fun fb Lf IG => @grown cfg psort (exact_mem (f_vars cfg) X) y ND Hy Hxm Hth' _ fb _ _ _ _ _ _ [] _ Lf FD IG TN E) as G.
  destruct (G _ LF (fun v _ _ => eq_refl)) as (h' & bt & E1 & E2).
  exists bt. split; [|exact E2]. split; [exact PS|]. split; [exact DN|]. exists h'. unfold bt_fit. rewrite (two_sets_cats _ TS). cbn [bind].
  assert (B : negb (Nat.eqb (List.length X) (List.length y)) || Nat.eqb (List.length y) 0 = false) by (apply orb_false_iff; split; [apply negb_false_iff, Nat.eqb_eq; exact EL|apply Nat.eqb_neq; exact EN]).
  rewrite B, EX. cbn [bind]. exact E1.
Qed.
Lemma twin_rules cfg X y t bt th simp : two_sets (f_vars cfg) -> trained cfg listed_order X y t -> twin t bt ->
  exists rs, tree_rules t th = Ok rs /\ btree_rules bt th simp = Ok (map grouped rs).
Proof.
  intros TS T TW. destruct (trained_wf T (two_sets_ne _ TS)) as [W V]. rewrite (@tree_rules_spec _ _ th t W V). eexists. split; [reflexivity|].
  unfold btree_rules. assert (G := twin_get_rules th TW []). cbn [map] in G. fold (tree_rules t th) in G. rewrite G. fold (tree_rules t th). rewrite (@tree_rules_spec _ _ th t W V). cbn [bind].
  destruct simp; [|reflexivity]. apply (f_equal (@Ok _)). rewrite map_map. apply map_ext_in. intros r Hr. unfold simplify, grouped. cbn [r_ant r_cons r_weight]. f_equal.
  apply simplify_ant_nodup. rewrite map_map. cbn [fst]. apply in_concat in Hr. destruct Hr as (l & Hl & Hr). apply in_map_iff in Hl. destruct Hl as ([p n] & <- & Hp).
  unfold leaf_rules in Hr. apply in_map_iff in Hr. destruct Hr as (kw & <- & _). cbn [r_ant app fst]. rewrite map_map.
  destruct (proj1 (@leaves_node_at _ _ _ W p n) Hp) as [Na _]. destruct (C24_paths _ _ _ _ _ _ _ T Na) as (N1 & _ & _ & N4).
  clear - N1 N4 T. destruct T as (_ & (ND & _) & _). induction p as [|l p IH]; [constructor|]. cbn [map] in *. inversion N1 as [|? ? N2 N3]; subst. constructor.
  - intro H. apply N2. apply in_map_iff in H. destruct H as (k & Ek & Hk). apply in_map_iff. exists k. split; [|exact Hk].
    destruct (N4 l (or_introl eq_refl)) as (v & s & Hv & _). destruct (N4 k (or_intror Hk)) as (w & s' & Hw & _). unfold lit_name in Ek. rewrite Hv, Hw in Ek. cbn [fst] in Ek.
    apply (proj1 (NoDup_nth_error _) ND); [rewrite map_length; apply nth_error_Some; congruence|]. rewrite !nth_error_map, Hv, Hw. cbn. congruence.
  - apply IH; [exact N3|]. intros k Hk. apply N4. right. exact Hk.
Qed.

(** ** C136 *)
Theorem C136_same_classifier : forall cfg psort X y t, two_sets (f_vars cfg) -> (forall l, Permutation (psort l) l) -> trained cfg listed_order X y t ->
  exists bt, btrained cfg psort X y bt /\ twin t bt /\
    (forall X', bpredict cfg bt X' = predict cfg t X') /\
    (forall X' y', bt_score cfg bt X' y' = fdt_score cfg t X' y') /\
    (forall th simp, exists rs, tree_rules t th = Ok rs /\ btree_rules bt th simp = Ok (map grouped rs)).
Proof.
  intros cfg psort X y t TS PS T. destruct (twin_exists cfg psort X y t TS PS T) as (bt & B & TW). exists bt. split; [exact B|]. split; [exact TW|].
  assert (P : forall X', bpredict cfg bt X' = predict cfg t X') by (intro X'; unfold bpredict, predict; rewrite (twin_predict _ _ TW); reflexivity).
  split; [exact P|]. split; [intros X' y'; unfold bt_score, fdt_score; rewrite P; reflexivity|].
  intros th simp. exact (twin_rules cfg X y t bt th simp TS T TW).
Qed.
Print Assumptions C136_same_classifier.

(** the other way round, for the thresholds for which training an FDT cannot fail *)
Theorem C136_same_classifier_from_binary : forall cfg psort X y bt, two_sets (f_vars cfg) -> (0 < f_threshold cfg)%R -> btrained cfg psort X y bt ->
  exists t, trained cfg listed_order X y t /\ twin t bt /\ (forall X', predict cfg t X' = bpredict cfg bt X').
Proof.
  intros cfg psort X y bt TS Hth B. assert (B' := B). destruct B' as (PS & DN & h & E). unfold bt_fit in E. rewrite (two_sets_cats _ TS) in E. cbn [bind] in E.
  destruct (negb (Nat.eqb (List.length X) (List.length y)) || Nat.eqb (List.length y) 0) eqn:EL; [discriminate|].
  destruct (dataset_membership X (f_vars cfg)) as [XM|] eqn:EX; cbn [bind] in E; [|discriminate].
  apply orb_false_iff in EL. destruct EL as [EL EN]. apply negb_false_iff in EL. apply Nat.eqb_eq in EL. apply Nat.eqb_neq in EN.
  destruct (@membership_readable _ _ _ DN EX) as [R W].
  destruct (C25_training_total cfg listed_order X y fresh_root) as [t Et]; try assumption; [intros; apply Permutation_refl|intros ->; apply EN; reflexivity|].
  assert (T : trained cfg listed_order X y t) by (split; [intros; apply Permutation_refl|split; [exact DN|split; [left; exact Hth|exact Et]]]).
  destruct (C136_same_classifier cfg psort X y t TS PS T) as (bt' & (_ & _ & h' & E') & TW & P & _). exists t. split; [exact T|].
  assert (Q : bt' = bt). { destruct B as (_ & _ & h2 & E2). rewrite E' in E2. injection E2 as _ ->. reflexivity. }
  subst bt'. split; [exact TW|]. intro X'. symmetry. apply P.
Qed.
Print Assumptions C136_same_classifier_from_binary.

Example C136_instance : two_sets (f_vars (ex_cfg AggVote)) /\ trained (ex_cfg AggVote) listed_order ex_X ex_y (one_tree (ex_cfg AggVote) ex_X ex_y (ex_v "x")) /\
  twin (one_tree (ex_cfg AggVote) ex_X ex_y (ex_v "x")) ex_btree /\ t_leaf (one_tree (ex_cfg AggVote) ex_X ex_y (ex_v "x")) = false.
Proof.
  split; [intros v [<-|[]]; eexists; eexists; reflexivity|]. assert (T := ex_fit AggVote ex_y (or_introl eq_refl)). split; [exact T|]. split; [|reflexivity].
  destruct (C136_same_classifier (ex_cfg AggVote) no_sort ex_X ex_y _ ltac:(intros v [<-|[]]; eexists; eexists; reflexivity) ltac:(intros; apply Permutation_refl) T) as (bt & (_ & _ & h & E) & TW & _).
  destruct (ex_btrained AggVote) as (_ & _ & h' & E'). rewrite E in E'. injection E' as _ <-. exact TW.
Qed.
