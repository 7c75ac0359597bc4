(** * C142: stricter stopping parameters only prune *)
From Verif Require Import Prelude M_Fuzzy M_Discretize M_Rule M_FDT M_FBDT M_ID3 S_Rule S_FDT S_FBDT S_FBDTPrivate P_FuzzySet P_FuzzyVar P_FBDT4 P_FBDT5 Properties_FDT Properties_FBDT P_Metrics S_ID3 P_ID3 P_ID3b P_ID3c Properties_ID3 Properties_ID3b P_Same2 S_Optimal P_Optimal Properties_Optimal S_Depth P_Depth P_Depth2 Properties_Depth S_Stricter P_Stricter.
From Coq Require Import Reals Lra.
Open Scope string_scope.
Open Scope list_scope.
Open Scope Qc_scope.
Local Notation eqb := Prelude.eqb.

Lemma pruned_hits cfg cfg' cls fts root root' X y t t' : id3_trained cfg cls fts root X y t -> id3_trained cfg' cls fts root' X y t' ->
  (i_max_depth cfg' <= Z.of_nat (List.length (i_features cfg')))%Z ->
  forall k p nd nd', (List.length (i_features cfg') <= k + List.length p)%nat -> inode_at t p nd -> inode_at t' p nd' -> id3_pruned nd nd' ->
  (hits (answer t) (reaching X y p) <= hits (answer t') (reaching X y p))%nat.
Proof.
  intros HT HT' ML.
  assert (LEAF : forall p nd nd', inode_at t p nd -> inode_at t' p nd' -> i_leaf nd = true -> (hits (answer t) (reaching X y p) <= hits (answer t') (reaching X y p))%nat).
  { intros p nd nd' H H' L. assert (Q := @class_hits _ _ _ _ _ _ _ HT' ML (i_class nd) (List.length (i_features cfg')) p nd' ltac:(lia) H').
    rewrite (@hits_same (answer t) (fun _ => i_class nd)); [assumption|]. intros d Hd. exact (answer_at_leaf HT d H L Hd). }
  induction k as [|k IH]; intros p nd nd' Lk H H' C; inversion C; subst; try (apply (LEAF p _ _ H H'); reflexivity); destruct (inner_some HT' H' eq_refl ML) as (i & V & Lp); [lia|].
  match goal with F : Forall2 id3_pruned ?c1 ?c2 |- _ => rename F into FC; rename c1 into l; rename c2 into l' end.
  apply (@split_groups _ _ _ _ _ _ _ HT' p _ i _ _ H' eq_refl V). intros v ch' Hch'.
  destruct (inode_split _ _ Hch') as (par & Hp & Hc).
  destruct (C78_inner_nodes _ _ _ _ _ _ _ _ _ _ HT' H' eq_refl V) as (_ & _ & _ & _ & _ & _ & Ex & Un).
  assert (O : occurs X i v) by (apply Ex; eauto). destruct (C78_inner_nodes _ _ _ _ _ _ _ _ _ _ HT' H' eq_refl V) as (_ & _ & _ & _ & Sp & Ln & _ & _).
  apply Sp in O. apply In_nth_error in O. destruct O as [j Hj]. cbn [i_splits i_children i_var] in *.
  destruct (nth_error l' j) as [c'|] eqn:Ec'; [|apply nth_error_None in Ec'; assert (nth_error sp j <> None) as Z by congruence; apply nth_error_Some in Z; lia].
  destruct (@inner_at _ 0 _ _ _ _ _ FC Ec') as (c0 & Ec & Cc).
  apply (IH (p ++ [(i, v)]) c0 c'); [rewrite app_length; cbn [List.length]; lia| | |exact Cc].
  - apply (inode_app H). eapply iat_child with (j := j); [reflexivity|exact V|exact Hj|exact Ec|constructor].
  - apply (inode_app H'). eapply iat_child with (j := j); [reflexivity|exact V|exact Hj|exact Ec'|constructor].
Qed.

(** if fit succeeds, it succeeds with stricter parameters, and leaves stand in the place of some inner nodes *)
Theorem C142_fdt : forall cfg cfg' ord X y t', stricter cfg cfg' -> fit cfg' ord fresh_root X y = Ok t' ->
  exists t, fit cfg ord fresh_root X y = Ok t /\ fdt_pruned t t'.
Proof.
  intros cfg cfg' ord X y t' LD H. assert (EV : f_vars cfg = f_vars cfg') by apply LD. unfold fit, f_features in *. rewrite <- EV in H.
  destruct (Nat.eqb_spec (List.length y) 0) as [Z|NZ]; [rewrite orb_true_r in H; discriminate|]. destruct (_ || _); [discriminate|].
  destruct (dataset_membership X (f_vars cfg)) as [XM|]; cbn [bind] in *; [|discriminate].
  exact ((fun A B => @partial_fit_pruned cfg cfg' ord XM y LD _ _ _ _ _ _ A B H) eq_refl (ones_pos _ NZ)).
Qed.
Theorem C142_fbdt : forall cfg cfg' psort X y h' t', (forall l, Permutation (psort l) l) -> distinct_names (f_vars cfg) -> stricter cfg cfg' ->
  bt_fit cfg' psort fresh_broot X y = Ok (h', t') ->
  exists h t, bt_fit cfg psort fresh_broot X y = Ok (h, t) /\ fbdt_pruned t t'.
Proof.
  intros cfg cfg' psort X y h' t' Hp Hn LD H. assert (EV : f_vars cfg = f_vars cfg') by apply LD. assert (Hn' := Hn). rewrite EV in Hn'.
  assert (F' := @fit_private cfg' psort X y Hp Hn'). assert (F := @fit_private cfg psort X y Hp Hn).
  destruct (vt_fit cfg' psort X y) as [v'|] eqn:E'; [|congruence]. destruct F' as (h0 & t0 & Q & EQ). assert (t0 = t') by congruence. subst t0 v'. clear Q h0 H.
  unfold vt_fit in E', F. rewrite <- EV in E'. destruct (categorical_features (f_vars cfg)) as [cats|]; cbn [bind] in *; [|discriminate].
  destruct (Nat.eqb_spec (List.length y) 0) as [Z|NZ]; [rewrite orb_true_r in E'; discriminate|]. destruct (_ || _); [discriminate|].
  destruct (dataset_membership X (f_vars cfg)) as [XM|]; cbn [bind] in *; [|discriminate].
  destruct ((fun A B => @vfit_pruned cfg cfg' psort cats XM y LD _ _ _ _ _ _ A B E') eq_refl (ones_pos _ NZ)) as (u & E & C). rewrite E in F. destruct F as (h & t & Q & EQ). subst u.
  exists h, t. split; [exact Q|]. apply erase_pruned. exact C.
Qed.
Theorem C142_id3 : forall cfg cfg' cls fts X y t', i_prunning cfg = false -> i_prunning cfg' = false -> id3_stricter cfg cfg' ->
  id3_fit cfg' cls fts new_itree X y = Ok t' ->
  exists t, id3_fit cfg cls fts new_itree X y = Ok t /\ id3_pruned t t'.
Proof.
  intros cfg cfg' cls fts X y t' PR PR' LD H. assert (EF : i_features cfg = i_features cfg') by apply LD. unfold id3_fit in *. rewrite <- EF in H. match type of H with bind ?r _ = _ => destruct r as [SP|]; [|discriminate] end. cbn [bind] in *.
  exact (@id3_fit_pruned cfg cfg' cls fts SP (zunique y) LD PR PR' _ _ _ _ _ _ H).
Qed.
(** relaxing the parameters of an unpruned ID3 never lowers its score on the training table (limits up to the number of features) *)
Theorem C142_id3_score : forall cfg cfg' cls fts X y t t', i_prunning cfg = false -> i_prunning cfg' = false -> id3_stricter cfg cfg' ->
  (i_max_depth cfg' <= Z.of_nat (List.length (i_features cfg')))%Z ->
  id3_trained cfg cls fts new_itree X y t -> id3_trained cfg' cls fts new_itree X y t' ->
  exists s s', id3_score t X y = Ok s /\ id3_score t' X y = Ok s' /\ s <= s'.
Proof.
  intros cfg cfg' cls fts X y t t' PR PR' LD ML' HT HT'. assert (EF : i_features cfg = i_features cfg') by apply LD.
  assert (ML : (i_max_depth cfg <= Z.of_nat (List.length (i_features cfg)))%Z) by (destruct LD as (_ & Q & _); rewrite EF; lia).
  rewrite (shallow_score HT ML), (shallow_score HT' ML'). eexists. eexists. split; [reflexivity|]. split; [reflexivity|].
  destruct (C142_id3 _ _ _ _ _ _ _ PR PR' LD (proj2 (proj2 HT'))) as (t0 & E & C). assert (t0 = t) by (assert (Q := proj2 (proj2 HT)); congruence). subst t0.
  assert (Q := @pruned_hits _ _ _ _ _ _ _ _ _ _ HT HT' ML' (List.length (i_features cfg')) [] t t' ltac:(cbn; lia) (iat_self t) (iat_self t') C).
  assert (R0 : reaching X y [] = combine X y) by (unfold reaching; apply filter_keep; reflexivity). rewrite R0 in Q.
  assert (LE : List.length X = List.length y) by apply HT. assert (NE : X <> []) by apply HT.
  assert (P : 0 < qn (List.length y)) by (apply qn_pos; rewrite <- LE; destruct X; [congruence|cbn; lia]).
  apply Qcdiv_le; [assumption|].
  match goal with |- _ <= ?a / ?b * ?b => replace (a / b * b) with a by (field; intro Z; rewrite Z in P; discriminate P) end.
  apply qn_le. exact Q.
Qed.
Print Assumptions C142_fdt.
Print Assumptions C142_fbdt.
Print Assumptions C142_id3.
Print Assumptions C142_id3_score.
(** instances: the two rows of Properties_FDT with an unreachable threshold or minimum of examples *)
Definition strict_cfg : fdt_cfg := mkFDT [ex_v "x"] 2 10 1 qmin AggVote.
Definition many_cfg : fdt_cfg := mkFDT [ex_v "x"] (1 / 10000) 10 3 qmin AggVote.
Lemma strict_stricter : stricter strict_cfg (ex_cfg AggVote) /\ stricter many_cfg (ex_cfg AggVote).
Proof. split; (split; [reflexivity|]; split; [cbn; lia|]; split; [cbn; lia|]; cbn; lra). Qed.
Example C142_fdt_instance : exists t u t', fit strict_cfg same_order fresh_root ex_X ex_y = Ok t /\ fit many_cfg same_order fresh_root ex_X ex_y = Ok u /\ fit (ex_cfg AggVote) same_order fresh_root ex_X ex_y = Ok t' /\
  fdt_pruned t t' /\ fdt_pruned u t' /\ t_leaf t' = false /\ t_leaf u = true.
Proof.
  assert (T := ex_fit AggVote ex_y (or_introl eq_refl)). destruct T as (_ & _ & _ & E'). destruct strict_stricter as [S1 S2].
  destruct (C142_fdt _ _ _ _ _ _ S1 E') as (t & E & C). destruct (C142_fdt _ _ _ _ _ _ S2 E') as (u & E2 & C2). exists t, u. eexists. split; [exact E|]. split; [exact E2|]. split; [exact E'|]. split; [exact C|]. split; [exact C2|]. split; [reflexivity|].
  unfold fit in E2. destruct (_ || _); [discriminate|]. match type of E2 with bind ?r _ = _ => destruct r; [|discriminate] end. cbn [bind] in E2. cbn [partial_fit] in E2.
  match type of E2 with bind ?r _ = _ => destruct r as [[[att g] cm]|]; [|discriminate] end. cbn [bind] in E2.
  replace (stop_met many_cfg g _ 0) with true in E2; [|unfold stop_met; symmetry; rewrite !orb_true_iff; left; left; right; reflexivity].
  match type of E2 with bind ?r _ = _ => destruct r; [|discriminate] end. injection E2 as <-. reflexivity.
Qed.
Example C142_id3_instance : exists t t', id3_trained (mkID3 ["a"; "b"] 0 2 3 false) zunique xor_fts new_itree xor_X xor_y t /\
  id3_trained xor_id3 zunique xor_fts new_itree xor_X xor_y t' /\ id3_pruned t t' /\ id3_score t' xor_X xor_y = Ok 1.
Proof.
  destruct C140_instance as (t' & T' & S'). assert (S : id3_stricter (mkID3 ["a"; "b"] 0 2 3 false) xor_id3) by (split; [reflexivity|]; cbn; lia).
  destruct (C142_id3 (mkID3 ["a"; "b"] 0 2 3 false) xor_id3 _ _ _ _ _ eq_refl eq_refl S (proj2 (proj2 T'))) as (t & E & C).
  exists t, t'. split; [split; [exact xor_table|]; split; [exact xor_orders|exact E]|]. split; [exact T'|]. split; [exact C|exact S'].
Qed.
Example C142_fbdt_instance : exists h t h' t', bt_fit many_cfg no_sort fresh_broot ex_X ex_y = Ok (h, t) /\ bt_fit (ex_cfg AggVote) no_sort fresh_broot ex_X ex_y = Ok (h', t') /\
  fbdt_pruned t t' /\ b_leaf t' = false /\ (2 <= List.length (b_children t'))%nat.
Proof.
  destruct (ex_btrained AggVote) as (Hp & Hn & h' & E'). destruct strict_stricter as [_ S2].
  destruct (C142_fbdt many_cfg _ _ _ _ _ _ Hp Hn S2 E') as (h & t & E & C). exists h, t, h', ex_btree. split; [exact E|]. split; [exact E'|]. split; [exact C|]. split; [reflexivity|cbn; lia].
Qed.
