(** * Proofs: when FDTExplainer.fit succeeds *)
From Verif Require Import Prelude M_Fuzzy M_Discretize M_Rule S_Rule P_Rule M_FDT S_FDT P_FDT P_FDT2 P_FDT3 M_Metrics M_Factual S_Factual P_Factual
  M_Counterfactual S_Counterfactual P_Counterfactual M_Explainer S_Explainer P_Explainer S_Success.
From Coq Require Import Reals Lra.
Set Implicit Arguments.
Open Scope Qc_scope.
Local Notation eqb := Prelude.eqb.

(** ** the distances of counterfactual rules are defined *)
Definition usable (m : imem) (num : list string) (r : rule string) : Prop :=
  forall f v, In (f, v) (r_ant r) -> exists row d, dget f m = Some row /\ dget v row = Some d /\ (In f num -> (2 <= List.length row)%nat).
Lemma foldM_ok S A (f : S -> A -> res S) l : (forall s x, In x l -> exists s', f s x = Ok s') -> forall s, exists s', foldM f s l = Ok s'.
Proof.
  induction l as [|x l IH]; intros H s; [exists s; reflexivity|]. cbn [foldM]. destruct (H s x) as [s' ->]; [left; reflexivity|]. cbn [bind]. apply IH. intros; apply H; right; assumption.
Qed.
Lemma ant_dict_usable m num r f v : usable m num r -> dget f (ant_dict r) = Some v ->
  exists row d, dget f m = Some row /\ dget v row = Some d /\ (In f num -> (2 <= List.length row)%nat).
Proof. intros U E. apply wants_dget in E. destruct E as (l1 & l2 & E & _). apply U. rewrite E. apply in_or_app. right. left. reflexivity. Qed.
Lemma index_of_ok x l : In x l -> exists i, index_of x l = Ok i.
Proof.
  induction l as [|y l IH]; intros []; cbn [index_of].
  - subst. rewrite eqb_refl. eauto.
  - destruct (eqb x y); [eauto|]. destruct (IH H) as [i ->]. cbn. eauto.
Qed.
Lemma literal_distance_ok (row : dict string Qc) v w : In v (map fst row) -> In w (map fst row) -> (2 <= List.length row)%nat ->
  exists d, literal_distance row v w = Ok d.
Proof.
  intros V W L. unfold literal_distance. destruct (index_of_ok _ _ V) as [i E]. destruct (index_of_ok _ _ W) as [j F]. unfold dkeys. rewrite E, F. cbn [bind].
  unfold pdiv. destruct (qeqb_spec (qn (List.length row) - 1) 0) as [Z|Z]; [|eauto]. exfalso.
  assert (qn 2 <= qn (List.length row)) by (apply qn_le; assumption). change (qn 2) with (1 + 1) in *. qlra.
Qed.
Lemma num_keys_In A (elem : dict string A) cf num f : In f (num_keys elem cf num) -> In f num /\ (exists v, dget f elem = Some v) /\ exists w, dget f cf = Some w.
Proof.
  unfold num_keys. rewrite filter_In, andb_true_iff. unfold dmem. rewrite !memb_In. intros (I & J & K). split; [assumption|]. split; apply dget_ex; assumption.
Qed.
Lemma dget_key A (d : dict string A) k v : dget k d = Some v -> In k (map fst d).
Proof. intro E. apply dget_In in E. exact (in_map fst _ _ E). Qed.
Lemma dist_instance_ok same r m num : proper m -> usable m num r -> exists d, cf_dist_instance same r m num = Ok d.
Proof.
  intros [ND PR] U. unfold cf_dist_instance. destruct (@fuzzified_spec m) as (fz & E & F); [intros f row I; apply (PR f row I)|]. rewrite E. cbn [bind].
  apply foldM_ok. intros acc f I. apply num_keys_In in I. destruct I as (N & (v & Ev) & (w & Ew)).
  destruct (@ant_dict_usable m num r f w U Ew) as (row & d & Dm & Dw & L). rewrite Dm. cbn [ret_opt bind].
  destruct (@Forall2_dget _ _ strongest m fz f row F Dm) as (v' & Ev' & (l1 & x & l2 & R & _)). rewrite Ev in Ev'. injection Ev' as <-. rewrite Ev, Ew. cbn [ret_opt bind]. unfold weighted_literal_distance.
  destruct (@literal_distance_ok row v w) as [ld ->]; [rewrite R, map_app; apply in_or_app; right; left; reflexivity|exact (dget_key _ _ Dw)|auto|]. cbn [bind]. rewrite Dw. cbn [ret_opt bind]. eauto.
Qed.
Lemma dist_rule_ok same r fr m num tau : usable m num r -> usable m num fr -> exists d, cf_dist_rule same r fr m num tau = Ok d.
Proof.
  intros U V. unfold cf_dist_rule. cbv zeta.
  match goal with |- context[foldM ?f ?a ?l] => destruct (@foldM_ok _ _ f l) with (s := a) as [d D] end.
  - intros acc f I. apply num_keys_In in I. destruct I as (N & (v & Ev) & (w & Ew)).
    destruct (@ant_dict_usable m num r f w U Ew) as (row & d & Dm & Dw & L). destruct (@ant_dict_usable m num fr f v V Ev) as (row' & d' & Dm' & Dv & _). rewrite Dm in Dm'. injection Dm' as <-.
    rewrite Dm, Ev, Ew. cbn [ret_opt bind]. destruct (@literal_distance_ok row v w) as [ld ->]; [exact (dget_key _ _ Dv)|exact (dget_key _ _ Dw)|auto|]. cbn [bind]. eauto.
  - rewrite D. cbn [bind]. eauto.
Qed.

(** ** the counterfactual search returns *)
Lemma search_ok m c rules : proper m -> rules <> [] -> (forall r, In r rules -> r_ant r <> []) -> forall l, exists o, search m c (weighted_vote rules) l = Ok o.
Proof.
  intros [ND PR] N A. induction l as [|cf l IH]; cbn [search]; [eauto|]. destruct (@apply_gen (fst cf) m) as (m' & ch & -> & _); [intros f row I; apply (PR f row I)|assumption|]. cbn [bind fst].
  destruct (@vote_total rules m' N A) as [k ->]. cbn [bind]. destruct (Z.eqb k c); [exact IH|eauto].
Qed.
Lemma mapM_ok_ex A B (f : A -> res B) l : (forall x, In x l -> exists y, f x = Ok y) -> exists ys, mapM f l = Ok ys.
Proof.
  induction l as [|x l IH]; intro H; [exists []; reflexivity|]. cbn [mapM]. destruct (H x) as [y ->]; [left; reflexivity|]. cbn [bind]. destruct IH as [ys ->]; [intros; apply H; right; assumption|]. cbn [bind]. eauto.
Qed.
Lemma i_counterfactual_ok same m rules c num : proper m -> rules <> [] -> (forall r, In r rules -> r_ant r <> []) -> (forall r, In r rules -> usable m num r) ->
  exists o, i_counterfactual same m rules c num = Ok o.
Proof.
  intros P N A U. unfold i_counterfactual, i_candidates. match goal with |- context[mapM ?f ?l] => destruct (@mapM_ok_ex _ _ f l) as [cfs ->] end.
  - intros r I. unfold other_class in I. apply filter_In in I. destruct (@dist_instance_ok same r m num P) as [d ->]; [apply U, I|]. cbn [bind]. eauto.
  - cbn [bind]. apply search_ok; assumption.
Qed.
Lemma f_counterfactual_ok same fact m rules c num tau : proper m -> rules <> [] -> (forall r, In r rules -> r_ant r <> []) -> (forall r, In r rules -> usable m num r) ->
  (forall r, In r fact -> In r rules) -> exists o, f_counterfactual same fact m rules c num tau = Ok o.
Proof.
  intros P N A U F. unfold f_counterfactual. match goal with |- context[mapM ?f ?l] => destruct (@mapM_ok_ex _ _ f l) as [cfs ->] end.
  - intros r I. unfold other_class in I. apply filter_In in I. unfold f_distance. match goal with |- context[foldM ?f ?a ?l] => destruct (@foldM_ok _ _ f l) with (s := a) as [d ->] end.
    + intros acc fr J. destruct (@matching_total m fr) as [x ->]; [apply A, F, J|]. cbn [bind]. destruct (@dist_rule_ok same r fr m num tau) as [d ->]; [apply U, I|apply U, F, J|]. cbn [bind]. eauto.
    + cbn [bind]. eauto.
  - cbn [bind]. apply search_ok; assumption.
Qed.

(** ** the rules of a tree with a split can be used with the memberships of an instance *)
Lemma knows_length vars row m a v f w d rw : distinct_names vars -> row_membership vars row m -> nth_error vars a = Some v -> f = fv_name v ->
  dget f m = Some rw -> dget w rw = Some d -> (List.length (fv_sets v) <= List.length rw)%nat.
Proof.
  intros [_ DN] RM Hv -> Dm _. rewrite <- (map_length fs_name), <- (map_length fst). apply NoDup_incl_length; [apply DN; exact (nth_error_In _ _ Hv)|].
  intros n I. apply in_map_iff in I. destruct I as (s & <- & I). apply In_nth_error in I. destruct I as [i Hi]. destruct (RM a v i s Hv Hi) as (rw' & D1 & D2).
  rewrite Dm in D1. injection D1 as <-. exact (dget_key _ _ D2).
Qed.
Lemma rules_usable vars row m num p c w : distinct_names vars -> row_membership vars row m ->
  (forall v, In v vars -> In (fv_name v) num -> (2 <= List.length (fv_sets v))%nat) ->
  (forall l, In l p -> exists v s, nth_error vars (fst l) = Some v /\ nth_error (fv_sets v) (snd l) = Some s) ->
  usable m num (mkR (map (lit_name vars) p) c w).
Proof.
  intros DN RM N2 P f v I. cbn [r_ant] in I. apply in_map_iff in I. destruct I as ([a i] & E & I). destruct (P _ I) as (fv & s & Hv & Hs). cbn [fst snd] in *.
  unfold lit_name in E. cbn [fst snd] in E. rewrite Hv, Hs in E. injection E as <- <-. destruct (RM a fv i s Hv Hs) as (rw & D1 & D2). exists rw, (lit_degree vars row (a, i)).
  split; [assumption|]. split; [assumption|]. intro J. etransitivity; [apply (N2 fv); [exact (nth_error_In _ _ Hv)|assumption]|].
  exact (@knows_length vars row m a fv (fv_name fv) (fs_name s) _ rw DN RM Hv eq_refl D1 D2).
Qed.
(** the rules a tree gives: one for every leaf and class of positive weight *)
Lemma leaf_rule_form vars classes t r : NoDup classes -> wf vars classes t -> In r (List.concat (map (leaf_rules vars [] 0) (leaves t))) ->
  exists p n, In (p, n) (leaves t) /\ In (r_cons r) classes /\ r_weight r = leaf_weight n (r_cons r) /\ 0 < r_weight r /\ r = mkR (map (lit_name vars) p) (r_cons r) (r_weight r).
Proof.
  intros ND W I. apply in_concat in I. destruct I as (l & Hl & Hr). apply in_map_iff in Hl. destruct Hl as ([p n] & <- & Hin). destruct (@wf_leaves _ _ _ W _ _ Hin) as ((d & Ed & K & _) & _).
  unfold leaf_rules in Hr. cbn [fst snd app] in Hr. rewrite Ed in Hr. apply in_map_iff in Hr. destruct Hr as ([c w] & <- & Hr). apply filter_In in Hr. destruct Hr as [Hr Hw]. cbn [fst snd r_cons r_weight] in *.
  rewrite qltb_lt in Hw. exists p, n. split; [assumption|]. split; [rewrite <- K; exact (in_map fst _ _ Hr)|]. split; [|split; [assumption|reflexivity]].
  unfold leaf_weight. rewrite Ed. rewrite (@dget_nodup Z Qc _ c w d); [reflexivity|unfold dkeys; rewrite K; assumption|assumption].
Qed.
Lemma leaf_rule_in vars classes t p n c : NoDup classes -> wf vars classes t -> In (p, n) (leaves t) -> 0 < leaf_weight n c ->
  In (mkR (map (lit_name vars) p) c (leaf_weight n c)) (List.concat (map (leaf_rules vars [] 0) (leaves t))).
Proof.
  intros ND W I P. apply in_concat. exists (leaf_rules vars [] 0 (p, n)). split; [exact (in_map _ _ _ I)|]. destruct (@wf_leaves _ _ _ W _ _ I) as ((d & Ed & K & _) & _).
  unfold leaf_rules. cbn [fst snd app]. rewrite Ed. apply in_map_iff. exists (c, leaf_weight n c). split; [reflexivity|]. apply filter_In. cbn [snd]. split; [|apply qltb_lt; assumption].
  unfold leaf_weight in *. rewrite Ed in *. destruct (dget c d) as [w|] eqn:E; [apply dget_In; assumption|exfalso; qlra].
Qed.
Lemma rules_nonempty vars classes t : NoDup classes -> wf vars classes t -> List.concat (map (leaf_rules vars [] 0) (leaves t)) <> [].
Proof.
  intros ND W E. assert (N := @wf_leaves_nonempty _ _ _ W). destruct (leaves t) as [|[p n] L] eqn:EL; [congruence|]. assert (I : In (p, n) (leaves t)) by (rewrite EL; left; reflexivity).
  destruct (@wf_leaves _ _ _ W _ _ I) as ((d & Ed & K & B & S) & _).
  assert (Q : exists c w, In (c, w) d /\ 0 < w).
  { assert (G : forall l : list (Z * Qc), (forall c w, In (c, w) l -> 0 <= w) -> 0 < qsum (map snd l) -> exists c w, In (c, w) l /\ 0 < w).
    { clear. induction l as [|[c w] l IH]; intros P Q; [cbn [map] in Q; rewrite qsum_nil in Q; exfalso; qlra|]. cbn [map snd] in Q. rewrite qsum_cons in Q. destruct (qltb_spec 0 w) as [L|L]; [exists c, w; split; [left; reflexivity|assumption]|].
      destruct IH as (c' & w' & I & P'); [intros; eapply P; right; eassumption|qlra|]. exists c', w'. split; [right; assumption|assumption]. }
    apply G; [intros c w H; apply (B c w H)|]. rewrite S. qlra. }
  destruct Q as (c & w & Iw & Pw). assert (LW : leaf_weight n c = w). { unfold leaf_weight. rewrite Ed. rewrite (@dget_nodup Z Qc _ c w d); [reflexivity|unfold dkeys; rewrite K; assumption|assumption]. }
  assert (J := @leaf_rule_in vars classes t p n c ND W I). rewrite LW in J. specialize (J Pw). rewrite EL, E in J. destruct J.
Qed.

(** ** the fidelity is defined *)
Lemma zunique_sub y p : incl p y -> zunique (y ++ p) = zunique y.
Proof.
  intro I. apply P_Entropy.zunique_ext. intro c. rewrite in_app_iff. split; [intros [H|H]; auto|auto].
Qed.
Lemma fidelity_iff y p : incl p y -> (exists q, fdt_fidelity y p = Ok q) <-> scorable y.
Proof.
  intro I. unfold fdt_fidelity, f1_binary, scorable. rewrite (zunique_sub I). destruct (Nat.ltb_spec 2 (List.length (zunique y))) as [L|L].
  - split; [intros _ E; lia|eauto].
  - destruct (memb 1%Z (zunique y)) eqn:M; cbn [negb andb].
    + split; [intros _ _; apply memb_In in M; apply zunique_In; assumption|eauto].
    + destruct (Nat.leb_spec 2 (List.length (zunique y))) as [L2|L2].
      * split; [intros [q Q]; discriminate|]. intro S. exfalso. assert (H : In 1%Z y) by (apply S; lia). apply zunique_In in H. assert (H2 : memb 1%Z (zunique y) = true) by (apply memb_In; assumption). rewrite M in H2. discriminate.
      * split; [intros _ E; lia|eauto].
Qed.
