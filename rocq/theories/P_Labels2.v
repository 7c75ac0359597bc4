(** * Calling the classes by other labels: predictions, rules, discretisation and binary trees *)
From Verif Require Import Prelude M_Fuzzy M_Discretize M_Rule M_FDT M_FBDT S_Rule S_FDT S_FBDT P_FuzzySet P_FuzzyVar P_Entropy P_Rule P_FDT P_FDT2 P_FDT3 P_FDT4 P_FBDT P_FBDT2 P_FBDT3 P_Degrees S_Labels P_Labels.
From Coq Require Import Reals Lra.
Set Implicit Arguments.
Open Scope Qc_scope.

(** ** weights and supports *)
Lemma dict_as_fun (cv : dict Z Qc) : NoDup (map fst cv) -> cv = map (fun c => (c, match dget c cv with Some w => w | None => 0 end)) (map fst cv).
Proof.
  intro N. rewrite map_map. rewrite <- (map_id cv) at 1. apply map_ext_in. intros [c w] H. cbn [fst].
  rewrite (@dget_nodup Z Qc _ c w cv); [reflexivity|exact N|exact H].
Qed.
Lemma dget_graph (g : Z -> Qc) l c : In c l -> dget c (map (fun c => (c, g c)) l) = Some (g c).
Proof.
  induction l as [|k l IH]; intro H; [destruct H|]. cbn [map dget]. destruct (eqb c k) eqn:E; [apply eqb_eq in E; subst; reflexivity|].
  destruct H as [->|H]; [rewrite eqb_refl in E; discriminate|auto].
Qed.
Section Weights.
  Variable f : Z -> Z.
  Variable y : list Z.
  Hypothesis HD : distinct_on f y.
  Lemma relabel_weights_spec cv : map fst cv = zunique y ->
    map fst (relabel_weights f cv) = zunique (map f y) /\
    (forall c, In c y -> dget (f c) (relabel_weights f cv) = dget c cv) /\
    (forall c w, In c y -> In (f c, w) (relabel_weights f cv) <-> In (c, w) cv) /\
    (increasing_on f y -> relabel_weights f cv = map (fun kw => (f (fst kw), snd kw)) cv).
  Proof.
    intro K. assert (N : NoDup (map fst cv)) by (rewrite K; apply zunique_NoDup).
    pose (w := fun c => match dget c cv with Some w => w | None => 0 end).
    assert (E : cv = map (fun c => (c, w c)) (zunique y)) by (rewrite <- K; apply dict_as_fun; assumption).
    assert (R : relabel_weights f cv = map (fun c' => (c', qsum (map snd (filter (fun kw => Z.eqb (f (fst kw)) c') cv)))) (zunique (map f y))).
    { rewrite E. apply (relabel_dist f y w). }
    assert (W : forall c, In c y -> qsum (map snd (filter (fun kw => Z.eqb (f (fst kw)) (f c)) cv)) = w c).
    { intros c Hc. rewrite E at 1. apply weight_relabel; assumption. }
    assert (G : forall c, In c y -> dget (f c) (relabel_weights f cv) = dget c cv).
    { intros c Hc. rewrite R. rewrite (@dget_graph (fun c' => qsum (map snd (filter (fun kw => Z.eqb (f (fst kw)) c') cv))) (zunique (map f y)) (f c)) by (apply zunique_relabel_In; exists c; auto).
      rewrite W by assumption. rewrite E. rewrite (@dget_graph w) by (apply zunique_In; assumption). reflexivity. }
    split; [|split; [exact G|split]].
    - rewrite R, map_map. cbn [fst]. apply map_id.
    - intros c w0 Hc. assert (N' : NoDup (map fst (relabel_weights f cv))) by (rewrite R, map_map; cbn [fst]; rewrite map_id; apply zunique_NoDup). split; intro H.
      + apply (@dget_nodup Z Qc _ (f c) w0 _ N') in H. rewrite G in H by assumption. apply dget_In. assumption.
      + apply (@dget_nodup Z Qc _ c w0 _ N) in H. rewrite <- G in H by assumption. apply dget_In. assumption.
    - intro HI. rewrite R, (zunique_increasing HI), map_map. transitivity (map (fun kw => (f (fst kw), snd kw)) (map (fun c => (c, w c)) (zunique y))); [|rewrite <- E; reflexivity].
      rewrite map_map. cbn [fst snd]. apply map_ext_in. intros c Hc. rewrite zunique_In in Hc. rewrite W by assumption. reflexivity.
  Qed.
End Weights.

(** the best class under other labels *)
Lemma best_relabel (f : Z -> Z) (y : list Z) (sup sup' : Z -> Qc) (c c' : Z) : increasing_on f y -> (forall c, In c y -> sup' (f c) = sup c) ->
  best_class (zunique y) sup c -> best_class (zunique (map f y)) sup' c' -> c' = f c.
Proof.
  intros HI E B B'. apply (best_class_fun B'). destruct B as [B1 B2]. rewrite zunique_In in B1. split; [apply zunique_relabel_In; exists c; auto|].
  intros k Hk. apply zunique_relabel_In in Hk. destruct Hk as [k0 [Hk <-]]. rewrite !E by assumption. destruct (B2 k0) as [C1 C2]; [apply zunique_In; assumption|].
  split; [assumption|]. intro L. apply C2. destruct (Z.lt_trichotomy k0 c) as [Q|[Q|Q]]; [assumption|subst; lia|]. specialize (HI c k0 B1 Hk Q). lia.
Qed.
Lemma best_relabel_strict (f : Z -> Z) (y : list Z) (sup sup' : Z -> Qc) (c c' : Z) : (forall c, In c y -> sup' (f c) = sup c) ->
  In c y -> (forall k, In k y -> k <> c -> sup k < sup c) -> best_class (zunique (map f y)) sup' c' -> c' = f c.
Proof.
  intros E Hc S [B1 B2]. apply zunique_relabel_In in B1. destruct B1 as [k [Hk <-]]. destruct (Z.eq_dec k c) as [->|N]; [reflexivity|]. exfalso.
  specialize (S k Hk N). destruct (B2 (f c)) as [Q _]; [apply zunique_relabel_In; exists c; auto|]. rewrite !E in Q by assumption. qlra.
Qed.

(** ** FDT *)
Lemma relabel_value f t : t_value (relabel f t) = t_value t.
Proof. destruct t; reflexivity. Qed.
Lemma relabel_leaf f t : t_leaf (relabel f t) = t_leaf t.
Proof. destruct t; reflexivity. Qed.
Lemma relabel_leaves f t : leaves (relabel f t) = map (fun pl => (fst pl, relabel f (snd pl))) (leaves t).
Proof.
  induction t as [l cs cv lv va vr mu IH] using tree_ind'. destruct l; [reflexivity|]. cbn [relabel]. rewrite !leaves_inner.
  induction IH as [|c cs Hc _ IH]; [reflexivity|]. cbn [map List.concat]. rewrite map_app, IH. f_equal. rewrite Hc, !map_map. apply map_ext. intros [p n].
  unfold extend, own. cbn [fst snd]. rewrite relabel_value. reflexivity.
Qed.
Lemma wf_leaves_classes vars classes t : wf vars classes t -> forall (p : list (nat * nat)) (n : tree), In (p, n) (leaves t) -> exists d, t_class n = Some d /\ map fst d = classes.
Proof. intros W p n H. destruct (@wf_leaves vars classes t W p n H) as ((d & E & K & _) & _). exists d. auto. Qed.
Lemma relabel_support f y cfg t row : distinct_on f y -> wf (f_vars cfg) (zunique y) t -> forall c, In c y ->
  row_support cfg (relabel f t) row (f c) = row_support cfg t row c.
Proof.
  intros HD W c Hc.
  assert (E : map (fun pl => leaf_weight (snd pl) (f c) * activation (f_tnorm cfg) (f_vars cfg) row (fst pl)) (leaves (relabel f t)) =
              map (fun pl => leaf_weight (snd pl) c * activation (f_tnorm cfg) (f_vars cfg) row (fst pl)) (leaves t)).
  { rewrite relabel_leaves, map_map. apply map_ext_in. intros [p n] H. cbn [fst snd]. f_equal. destruct (@wf_leaves_classes _ _ _ W _ _ H) as (d & Ed & K).
    unfold leaf_weight. destruct n as [nl ncs ncv nlv nva nvr nmu]. cbn [t_class relabel] in *. rewrite Ed. cbn [option_map].
    destruct (@relabel_weights_spec f y HD d K) as (_ & G & _). rewrite G by assumption. reflexivity. }
  unfold row_support, tree_support, tree_max_support. rewrite E. reflexivity.
Qed.

(** ** discretisation *)
Lemma rows_relabel (f : Z -> Z) (data : list (Qc * Z)) : map snd (map (fun pc => (fst pc, f (snd pc))) data) = map f (map snd data).
Proof. rewrite !map_map. reflexivity. Qed.
Lemma rows_values (f : Z -> Z) (data : list (Qc * Z)) : map fst (map (fun pc => (fst pc, f (snd pc))) data) = map fst data.
Proof. rewrite map_map. reflexivity. Qed.
Lemma wfe_relabel f y ts : distinct_on f y -> weighted_fuzzy_entropy ts (map f y) = weighted_fuzzy_entropy ts y.
Proof.
  intro HD. unfold weighted_fuzzy_entropy. rewrite map_length. f_equal. f_equal. apply map_ext. intro t. rewrite (entropy_relabel HD). reflexivity.
Qed.
Lemma delta_relabel f y g b : distinct_on f y -> delta_point g b (map f y) = delta_point g b y.
Proof.
  intro HD. unfold delta_point. rewrite (wfe_relabel _ HD). rewrite (Permutation_length (zunique_relabel HD)), map_length.
  replace (map (fun t => (INR (positive_classes t (map f y)) * fuzzy_entropy t (map f y))%R) b) with (map (fun t => (INR (positive_classes t y) * fuzzy_entropy t y)%R) b); [reflexivity|].
  apply map_ext. intro t. rewrite (entropy_relabel HD). f_equal. f_equal. unfold positive_classes. change (map snd (filter (fun p => qltb 0 (fst p)) (zip t y))) with (masked t y).
  change (map snd (filter (fun p => qltb 0 (fst p)) (zip t (map f y)))) with (masked t (map f y)). rewrite masked_relabel.
  rewrite (Permutation_length (zunique_relabel (distinct_incl HD (@masked_incl y t)))), map_length. reflexivity.
Qed.
Lemma best_cut_relabel f y variable lo hi : distinct_on f y -> best_cut variable (map f y) lo hi = best_cut variable y lo hi.
Proof.
  intro HD. unfold best_cut. generalize (@None (R * Qc * list (list Qc))) as b. induction (qunique variable) as [|p l IH]; intro b; [reflexivity|]. cbn [foldM].
  destruct (_ && _); cbn [bind]; [|apply IH]. destruct (fuzzy_triangle variable [lo; p; hi]) as [ft|]; cbn [bind]; [|reflexivity]. rewrite (wfe_relabel _ HD).
  destruct b as [[[b q] z]|]; [|cbn [bind]; apply IH]. destruct (Rltb _ _); cbn [bind]; apply IH.
Qed.
Lemma filter_rows (f : Z -> Z) (p : Qc -> bool) (data : list (Qc * Z)) :
  filter (fun pc => p (fst pc)) (map (fun pc => (fst pc, f (snd pc))) data) = map (fun pc => (fst pc, f (snd pc))) (filter (fun pc => p (fst pc)) data).
Proof. induction data as [|[x c] data IH]; [reflexivity|]. cbn [map filter fst snd]. destruct (p x); cbn [map fst snd]; rewrite IH; reflexivity. Qed.
Lemma discretize_relabel (f : Z -> Z) md th : forall fuel depth lo data, distinct_on f (map snd data) ->
  discretize fuel md th depth lo (map (fun pc => (fst pc, f (snd pc))) data) = discretize fuel md th depth lo data.
Proof.
  induction fuel as [|fuel IH]; intros depth lo data HD; [reflexivity|]. cbn [discretize]. cbv zeta. rewrite rows_relabel, rows_values, map_length.
  destruct (qmaximum (map fst data)) as [hi|]; cbn [bind]; [|reflexivity]. rewrite (best_cut_relabel _ _ _ HD).
  destruct (best_cut (map fst data) (map snd data) lo hi) as [best|]; cbn [bind]; [|reflexivity].
  destruct (fuzzy_triangle (map fst data) [lo; hi]) as [g|]; cbn [bind]; [|reflexivity]. rewrite (delta_relabel _ _ HD), (wfe_relabel _ HD).
  match goal with |- bind ?r _ = bind ?r _ => destruct r as [t|]; cbn [bind]; [|reflexivity] end.
  destruct (_ || _); [|reflexivity]. destruct (match best with Some _ => _ | None => false end); [|reflexivity].
  set (bp := match best with Some (_, p, _) => p | None => 0 end).
  rewrite (filter_rows f (fun x => qleb x bp) data), (filter_rows f (fun x => qltb bp x) data).
  assert (D1 : distinct_on f (map snd (filter (fun pc => qleb (fst pc) bp) data))) by (apply (distinct_incl HD); intros z Hz; apply in_map_iff in Hz; destruct Hz as [q [<- Hz]]; apply filter_In in Hz; apply in_map; apply Hz).
  assert (D2 : distinct_on f (map snd (filter (fun pc => qltb bp (fst pc)) data))) by (apply (distinct_incl HD); intros z Hz; apply in_map_iff in Hz; destruct Hz as [q [<- Hz]]; apply filter_In in Hz; apply in_map; apply Hz).
  assert (I1 := fun d => IH d lo _ D1). assert (I2 := fun d => IH d bp _ D2). clear IH.
  revert I1 I2. generalize (filter (fun pc => qleb (fst pc) bp) data) as lf. generalize (filter (fun pc => qltb bp (fst pc)) data) as rg. intros rg lf I1 I2.
  destruct lf as [|a lf]; [reflexivity|]. destruct rg as [|b rg]; [reflexivity|].
  specialize (I1 (depth + 1)%Z). specialize (I2 (depth + 1)%Z). cbn [map] in I1, I2 |- *. rewrite I1, I2. cbn [List.length]. rewrite !map_length. reflexivity.
Qed.
Lemma entropy_points_relabel (f : Z -> Z) md th data : distinct_on f (map snd data) ->
  entropy_points md th (map (fun pc => (fst pc, f (snd pc))) data) = entropy_points md th data.
Proof. intro HD. unfold entropy_points. rewrite rows_values, map_length. destruct (qminimum _); cbn [bind]; [apply discretize_relabel; assumption|reflexivity]. Qed.

(** ** FBDT *)
Section Binary.
  Variable f : Z -> Z.
  Variable y : list Z.
  Hypothesis HD : distinct_on f y.
  Variable psort : list (string * option Qc) -> list (string * option Qc).
  Variable cats : list string.
  Hypothesis HI : increasing_on f y \/ cats = [].

  Lemma partitions_relabel fd XM : binary_partitions psort cats fd XM (map f y) = binary_partitions psort cats fd XM y.
  Proof.
    unfold binary_partitions. destruct HI as [H| ->].
    - rewrite (zunique_increasing H). rewrite nth_error_map. destruct (nth_error (zunique y) 0) as [c|] eqn:E; cbn [option_map ret_opt bind]; [|reflexivity].
      assert (Hc : In c y) by (apply zunique_In; eapply nth_error_In; exact E).
      match goal with |- bind (mapM ?g _) _ = bind (mapM ?h _) _ => replace (mapM g fd) with (mapM h fd); [reflexivity|] end. apply mapM_ext. intros [ft sets] _. cbn [fst snd].
      destruct (memb ft cats); [|reflexivity].
      match goal with |- bind (mapM ?g _) _ = bind (mapM ?h _) _ => replace (mapM g sets) with (mapM h sets); [reflexivity|] end. apply mapM_ext. intros v _.
      destruct (set_column XM ft v) as [col|]; cbn [bind]; [|reflexivity]. unfold positive_share. rewrite (card_relabel HD _ _ Hc). reflexivity.
    - destruct (nth_error (zunique y) 0) as [c|] eqn:E; destruct (nth_error (zunique (map f y)) 0) as [c'|] eqn:E'; cbn [ret_opt bind].
      + match goal with |- bind (mapM ?g _) _ = bind (mapM ?h _) _ => replace (mapM g fd) with (mapM h fd); [reflexivity|] end. apply mapM_ext. intros [ft sets] _. reflexivity.
      + exfalso. apply nth_error_In in E. rewrite zunique_In in E. assert (Q : In (f c) (zunique (map f y))) by (apply zunique_relabel_In; exists c; auto). destruct (zunique (map f y)); [destruct Q|discriminate].
      + exfalso. apply nth_error_In in E'. rewrite zunique_relabel_In in E'. destruct E' as [c [Hc _]]. rewrite <- zunique_In in Hc. destruct (zunique y); [destruct Hc|discriminate].
      + reflexivity.
  Qed.
  Lemma split_gain_relabel mu l r : split_gain mu l r (map f y) = split_gain mu l r y.
  Proof. unfold split_gain. rewrite !(entropy_relabel HD). reflexivity. Qed.
  Lemma score_partition_relabel XM mu ign hb p : score_partition XM (map f y) mu ign hb p = score_partition XM y mu ign hb p.
  Proof.
    unfold score_partition. destruct p as [[ft ls] rs]. rewrite map_length.
    destruct (score_side (fst hb) mu ign XM (List.length y) ft ls) as [[[h1 lmu] la]|]; cbn [bind]; [|reflexivity].
    destruct (score_side h1 mu ign XM (List.length y) ft rs) as [[[h2 rmu] ra]|]; cbn [bind]; [|reflexivity]. rewrite split_gain_relabel. reflexivity.
  Qed.
  Lemma max_split_relabel h mu ign fd XM : max_split psort cats h mu ign fd XM (map f y) = max_split psort cats h mu ign fd XM y.
  Proof.
    unfold max_split. rewrite partitions_relabel. destruct (binary_partitions psort cats fd XM y) as [ps|]; cbn [bind]; [|reflexivity].
    generalize (h, @None bsplit) as hb. induction ps as [|p ps IH]; intro hb; [reflexivity|]. cbn [foldM]. rewrite score_partition_relabel.
    destruct (score_partition XM y mu ign hb p); cbn [bind]; [apply IH|reflexivity].
  Qed.
  Lemma bfit_relabel cfg XM : forall fuel h node fd depth,
    bfit fuel cfg psort cats XM (map f y) h (brelabel f node) fd depth =
    rmap (fun ht => (fst ht, brelabel f (snd ht))) (bfit fuel cfg psort cats XM y h node fd depth).
  Proof.
    induction fuel as [|fuel IH]; intros h node fd depth; [reflexivity|]. cbn [bfit]. destruct node as [l cs cv lv va vr mu ig].
    cbn [brelabel b_mu b_children b_value b_var b_class b_ignored]. rewrite max_split_relabel.
    destruct (max_split psort cats h mu ig fd XM y) as [[h1 best]|]; cbn [bind rmap]; [|reflexivity]. rewrite (stop_relabel HD).
    destruct (stop_met cfg (best_gain best) (masked mu y) depth).
    { rewrite (class_value_relabel HD). destruct (get_class_value mu y); cbn [bind rmap brelabel fst snd]; reflexivity. }
    destruct best as [s|]; [|destruct (dget _ _); reflexivity].
    destruct (dget (s_att s) (f_positions (f_vars cfg))) as [a|]; cbn [ret_opt bind rmap]; [|reflexivity].
    destruct (nth_error (f_vars cfg) a) as [v|]; cbn [ret_opt bind rmap]; [|reflexivity]. cbv zeta.
    set (sd := dict_of (map (fun js => (fs_name (snd js), fst js)) (enumerate (fv_sets v)))).
    match goal with |- bind (bind (mapM ?g (s_left s)) ?k') _ = rmap _ (bind (bind (mapM ?g (s_left s)) ?k) _) =>
      assert (G : bind (mapM g (s_left s)) k' = rmap (fun ht => (fst ht, brelabel f (snd ht))) (bind (mapM g (s_left s)) k)) end.
    { destruct (mapM _ (s_left s)) as [idx|]; cbn [bind rmap]; [|reflexivity]. destruct (update_ignored h1 ig (s_att s) (s_lign s)) as [h2 cign].
      destruct (dget (s_att s) fd) as [av|]; cbn [ret_opt bind rmap]; [|reflexivity]. destruct (qltb 0 (qsum (s_lmu s))); [rewrite <- IH; reflexivity|].
      rewrite (class_value_relabel HD). destruct (get_class_value mu y); cbn [bind rmap brelabel fst snd map option_map]; reflexivity. }
    rewrite G. clear G.
    match goal with |- bind (rmap _ ?m) _ = _ => destruct m as [[h2 lt]|]; cbn [bind rmap fst snd]; [|reflexivity] end.
    match goal with |- bind (bind (mapM ?g (s_right s)) ?k') _ = rmap _ (bind (bind (mapM ?g (s_right s)) ?k) _) =>
      assert (G : bind (mapM g (s_right s)) k' = rmap (fun ht => (fst ht, brelabel f (snd ht))) (bind (mapM g (s_right s)) k)) end.
    { destruct (mapM _ (s_right s)) as [idx|]; cbn [bind rmap]; [|reflexivity]. destruct (update_ignored h2 ig (s_att s) (s_rign s)) as [h3 cign].
      destruct (dget (s_att s) fd) as [av|]; cbn [ret_opt bind rmap]; [|reflexivity]. destruct (qltb 0 (qsum (s_rmu s))); [rewrite <- IH; reflexivity|].
      rewrite (class_value_relabel HD). destruct (get_class_value mu y); cbn [bind rmap brelabel fst snd map option_map]; reflexivity. }
    rewrite G. clear G.
    match goal with |- bind (rmap _ ?m) _ = _ => destruct m as [[h3 rt]|]; cbn [bind rmap fst snd]; [|reflexivity] end.
    cbn [brelabel]. rewrite map_app. reflexivity.
  Qed.
End Binary.
Lemma bt_fit_relabel f y cfg psort root X : distinct_on f y -> (increasing_on f y \/ categorical_features (f_vars cfg) = Ok []) ->
  bt_fit cfg psort (brelabel f root) X (map f y) = rmap (fun ht => (fst ht, brelabel f (snd ht))) (bt_fit cfg psort root X y).
Proof.
  intros HD HI. unfold bt_fit. destruct (categorical_features (f_vars cfg)) as [cats|] eqn:C; cbn [bind rmap]; [|reflexivity]. rewrite map_length. destruct (_ || _); [reflexivity|].
  destruct (dataset_membership X (f_vars cfg)) as [XM|]; cbn [bind rmap]; [|reflexivity].
  rewrite <- (@bfit_relabel f y HD psort cats); [destruct root; reflexivity|]. destruct HI as [H|H]; [left; assumption|right; congruence].
Qed.
Lemma brelabel_value f t : b_value (brelabel f t) = b_value t.
Proof. destruct t; reflexivity. Qed.
Lemma brelabel_leaves f t : bleaves (brelabel f t) = map (fun pl => (fst pl, brelabel f (snd pl))) (bleaves t).
Proof.
  induction t as [l cs cv lv va vr mu ig IH] using btree_ind'. destruct l; [reflexivity|]. cbn [brelabel]. rewrite !bleaves_inner.
  induction IH as [|c cs Hc _ IH]; [reflexivity|]. cbn [map List.concat]. rewrite map_app, IH. f_equal. rewrite Hc, !map_map. apply map_ext. intros [p n].
  unfold bextend, bown. cbn [fst snd]. rewrite brelabel_value. reflexivity.
Qed.
Lemma brelabel_support f y cfg t row : distinct_on f y -> bwf (f_vars cfg) (zunique y) t -> forall c, In c y ->
  brow_support cfg (brelabel f t) row (f c) = brow_support cfg t row c.
Proof.
  intros HD W c Hc.
  assert (E : map (fun pl => bleaf_weight (snd pl) (f c) * bactivation (f_tnorm cfg) (f_vars cfg) row (fst pl)) (bleaves (brelabel f t)) =
              map (fun pl => bleaf_weight (snd pl) c * bactivation (f_tnorm cfg) (f_vars cfg) row (fst pl)) (bleaves t)).
  { rewrite brelabel_leaves, map_map. apply map_ext_in. intros [p n] H. cbn [fst snd]. f_equal. destruct (@bwf_leaves _ _ _ W _ _ H) as ((d & Ed & K & _) & _).
    unfold bleaf_weight. destruct n as [nl ncs ncv nlv nva nvr nmu nig]. cbn [b_class brelabel] in *. rewrite Ed. cbn [option_map].
    destruct (@relabel_weights_spec f y HD d K) as (_ & G & _). rewrite G by assumption. reflexivity. }
  unfold brow_support. cbv zeta. rewrite E. reflexivity.
Qed.
