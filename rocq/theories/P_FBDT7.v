(** * Binary fuzzy trees: fitting an already fitted tree *)
From Verif Require Import Prelude M_Fuzzy M_Discretize M_Rule M_FDT M_FBDT S_Rule S_FDT S_FBDT P_FuzzySet P_FuzzyVar P_Entropy P_Rule P_FDT P_FDT2 P_FDT3 P_FDT4 P_FBDT P_FBDT2 P_FBDT3.
From Coq Require Import Reals Lra.
Set Implicit Arguments.
Open Scope Qc_scope.

Definition bmerge_root (root t : btree) : btree :=
  BTree (b_leaf t) (b_children root ++ b_children t) (if b_leaf t then b_class t else b_class root) (b_level t) (b_value t) (b_var t) (b_mu t) (b_ignored t).
Lemma brefit_shape cfg psort root X y h t : b_value root = None -> b_var root = None -> b_ignored root = [] ->
  bt_fit cfg psort fresh_broot X y = Ok (h, t) -> bt_fit cfg psort root X y = Ok (h, bmerge_root root t).
Proof.
  intros V1 V2 V3 H. unfold bt_fit in *. destruct (categorical_features _) as [cats|]; cbn [bind] in *; [|discriminate].
  destruct (_ || _); [discriminate|]. destruct (dataset_membership X (f_vars cfg)) as [XM|]; cbn [bind] in *; [|discriminate].
  rewrite V1, V2, V3. unfold fuel_for in *. cbn [bfit b_mu b_children b_class b_value b_var b_ignored fresh_broot] in *.
  destruct (max_split _ _ _ _ _ _ _ _) as [[h1 best]|]; cbn [bind] in *; [|discriminate].
  destruct (stop_met _ _ _ _).
  - destruct (get_class_value _ _) as [cv|]; cbn [bind] in *; [|discriminate]. injection H as <- <-. unfold bmerge_root. cbn. rewrite app_nil_r. reflexivity.
  - destruct best as [s|]; [|destruct (dget _ _); discriminate].
    destruct (ret_opt KeyError _) as [a|]; cbn [bind] in *; [|discriminate].
    destruct (ret_opt IndexError _) as [v|]; cbn [bind] in *; [|discriminate]. cbv zeta in *.
    match type of H with bind ?r _ = _ => destruct r as [hl|]; [|discriminate] end. cbn [bind] in *.
    match type of H with bind ?r _ = _ => destruct r as [hr|]; [|discriminate] end. cbn [bind] in *.
    injection H as <- <-. reflexivity.
Qed.
(** [k] further fits on the same data *)
Fixpoint brefits (cfg : fdt_cfg) psort X y (k : nat) (t : btree) : res btree :=
  match k with O => Ok t | S k => do ht <- bt_fit cfg psort t X y; brefits cfg psort X y k (snd ht) end.
Definition bcopies (k : nat) (t : btree) : btree :=
  BTree (b_leaf t) (List.concat (repeat (b_children t) (S k))) (b_class t) (b_level t) (b_value t) (b_var t) (b_mu t) (b_ignored t).
Lemma bcopies_0 t : bcopies 0 t = t.
Proof. destruct t. unfold bcopies. cbn. rewrite app_nil_r. reflexivity. Qed.
Lemma brefits_copies cfg psort X y h t : b_value t = None -> b_var t = None -> b_ignored t = [] -> (b_leaf t = false -> b_class t = None) ->
  bt_fit cfg psort fresh_broot X y = Ok (h, t) -> forall k, brefits cfg psort X y k t = Ok (bcopies k t).
Proof.
  intros V1 V2 V3 C H k.
  assert (G : forall k j, brefits cfg psort X y k (bcopies j t) = Ok (bcopies (k + j) t)).
  { clear k. induction k as [|k IH]; intro j; [reflexivity|]. cbn [brefits].
    rewrite (@brefit_shape cfg psort (bcopies j t) X y h t V1 V2 V3 H). cbn [bind snd].
    replace (bmerge_root (bcopies j t) t) with (bcopies (S j) t); [rewrite IH; f_equal; f_equal; lia|].
    unfold bcopies, bmerge_root. cbn [b_leaf b_children b_class b_level b_value b_var b_mu b_ignored]. f_equal.
    - change (List.concat (repeat (b_children t) (S (S j)))) with (b_children t ++ List.concat (repeat (b_children t) (S j))).
      generalize (S j) as n. clear. induction n as [|n IH]; [cbn; rewrite app_nil_r; reflexivity|]. cbn [repeat List.concat] in *. rewrite <- app_assoc, <- IH. reflexivity.
    - destruct (b_leaf t); reflexivity. }
  specialize (G k 0%nat). rewrite bcopies_0, Nat.add_0_r in G. exact G.
Qed.
Lemma bcopies_wf vars classes t k : bwf vars classes t -> bwf vars classes (bcopies k t).
Proof.
  destruct t as [lf cs cv lv va vr mu ig]. unfold bcopies. cbn [b_leaf b_children b_class b_level b_value b_var b_mu b_ignored bwf]. intros [O W].
  split; [assumption|]. destruct lf; [assumption|]. destruct W as [N W]. split.
  - destruct cs; [congruence|]. discriminate.
  - rewrite (@fold_and _ (fun c => b_value c <> None /\ bwf vars classes c)) in *. rewrite Forall_forall in *. intros c Hc. apply W.
    apply in_concat in Hc. destruct Hc as [l [Hl Hc]]. apply repeat_spec in Hl. subst. assumption.
Qed.
Lemma bcopies_leaves t k : b_leaf t = false -> bleaves (bcopies k t) = List.concat (repeat (bleaves t) (S k)).
Proof.
  destruct t as [lf cs cv lv va vr mu ig]. cbn [b_leaf]. intros ->. unfold bcopies. cbn [b_leaf b_children b_class b_level b_value b_var b_mu b_ignored]. rewrite !bleaves_inner.
  generalize (S k) as n. induction n as [|n IH]; [reflexivity|]. cbn [repeat List.concat]. rewrite map_app, concat_app, IH. reflexivity.
Qed.
Lemma bcopies_support cfg t k row c : b_leaf t = false ->
  brow_support cfg (bcopies k t) row c = match f_voting cfg with AggVote => qn (S k) | MaxMatch => 1 end * brow_support cfg t row c.
Proof.
  intro L. unfold brow_support. cbv zeta. rewrite (@bcopies_leaves t k L).
  assert (E : forall f : list glit * btree -> Qc, map f (List.concat (repeat (bleaves t) (S k))) = List.concat (repeat (map f (bleaves t)) (S k))).
  { intro f. generalize (S k) as n. induction n as [|n IH]; [reflexivity|]. cbn [repeat List.concat]. rewrite map_app, IH. reflexivity. }
  rewrite E. destruct (f_voting cfg); [apply qsum_repeat|]. rewrite qmax_repeat. ring.
Qed.
Lemma bcopies_predict cfg t classes X k : bwf (f_vars cfg) classes t -> b_value t = None -> StronglySorted Z.lt classes -> NoDup classes -> classes <> [] ->
  readable (f_vars cfg) X -> bpredict cfg (bcopies k t) X = bpredict cfg t X.
Proof.
  intros W V S N Ne R. destruct (@bpredict_spec cfg t classes X W V S N Ne R) as [ps [E F]].
  destruct (@bpredict_spec cfg (bcopies k t) classes X (@bcopies_wf _ _ t k W) V S N Ne R) as [qs [E' F']]. rewrite E, E'. apply (f_equal (@Ok _)).
  destruct (b_leaf t) eqn:L.
  - assert (LE : forall row, brow_support cfg (bcopies k t) row = brow_support cfg t row).
    { intro row. destruct t as [lf cs cv lv va vr mu ig]. cbn in L. subst lf. reflexivity. }
    clear E E'. revert qs F'. induction F as [|row c X ps B F IH]; intros qs F'; inversion F' as [|? c' ? qs' B' F'']; subst; [reflexivity|].
    rewrite LE in B'. rewrite (best_class_fun B' B). f_equal. apply IH; [|assumption]. intros r Hr. apply R. right. assumption.
  - clear E E'. revert qs F'. induction F as [|row c X ps B F IH]; intros qs F'; inversion F' as [|? c' ? qs' B' F'']; subst; [reflexivity|]. f_equal.
    + apply (best_class_fun B'). eapply best_class_scale; [|intro c0; apply (@bcopies_support cfg t k row c0 L)|exact B].
      destruct (f_voting cfg); [apply qn_pos; lia|reflexivity].
    + apply IH; [|assumption]. intros r Hr. apply R. right. assumption.
Qed.
Lemma bcopies_rules vars classes t th simp k rules : bwf vars classes t -> b_value t = None -> b_leaf t = false -> btree_rules t th simp = Ok rules ->
  btree_rules (bcopies k t) th simp = Ok (List.concat (repeat rules (S k))).
Proof.
  intros W V L H. rewrite (@btree_rules_spec vars classes th simp t W V) in H. injection H as <-.
  rewrite (@btree_rules_spec vars classes th simp (bcopies k t) (@bcopies_wf _ _ t k W) V). apply (f_equal (@Ok _)). rewrite (@bcopies_leaves t k L).
  generalize (S k) as n. induction n as [|n IH]; [reflexivity|]. cbn [repeat List.concat]. rewrite map_app, concat_app, map_app, IH. reflexivity.
Qed.
Lemma btrained_root cfg psort X y t : btrained cfg psort X y t ->
  b_value t = None /\ b_var t = None /\ b_ignored t = [] /\ (b_leaf t = false -> b_class t = None).
Proof.
  intros (_ & _ & h & H). unfold bt_fit in H. destruct (categorical_features _) as [cats|]; cbn [bind] in *; [|discriminate].
  destruct (_ || _); [discriminate|]. destruct (dataset_membership X (f_vars cfg)) as [XM|]; cbn [bind] in *; [|discriminate].
  unfold fuel_for in H. cbn [bfit b_mu b_children b_class b_value b_var b_ignored fresh_broot] in *.
  destruct (max_split _ _ _ _ _ _ _ _) as [[h1 best]|]; cbn [bind] in *; [|discriminate].
  destruct (stop_met _ _ _ _).
  - destruct (get_class_value _ _) as [cv|]; cbn [bind] in *; [|discriminate]. injection H as <- <-. cbn. repeat split; congruence.
  - destruct best as [s|]; [|destruct (dget _ _); discriminate].
    destruct (ret_opt KeyError _) as [a|]; cbn [bind] in *; [|discriminate].
    destruct (ret_opt IndexError _) as [v|]; cbn [bind] in *; [|discriminate]. cbv zeta in *.
    match type of H with bind ?r _ = _ => destruct r as [hl|]; [|discriminate] end. cbn [bind] in *.
    match type of H with bind ?r _ = _ => destruct r as [hr|]; [|discriminate] end. cbn [bind] in *.
    injection H as <- <-. cbn. repeat split; reflexivity.
Qed.
