(** * Proofs about fuzzy decision trees (C23-C30, C35, C40) *)
From Verif Require Import Prelude M_Fuzzy M_Discretize M_Rule M_FDT S_Rule S_FDT P_FuzzySet P_FuzzyVar P_Entropy P_Rule.
From Coq Require Import Reals Lra.
Set Implicit Arguments.
Open Scope Qc_scope.

(** ** degrees *)
Lemma membership_01 s x d : membership s x = Ok d -> 0 <= d /\ d <= 1.
Proof.
  destruct s as [c|n v]; cbn.
  - destruct x as [q|]; [|destruct (valid_points _ _ _); discriminate].
    intro H. apply membership_Ok in H. destruct H as [[A B] ->]. apply tri_01; assumption.
  - intro H. injection H as <-. destruct (eqb x v); split; qlra.
Qed.
Lemma lit_degree_01 vars row l : 0 <= lit_degree vars row l /\ lit_degree vars row l <= 1.
Proof.
  unfold lit_degree. destruct (nth_error vars _) as [v|]; [|split; qlra].
  destruct (nth_error (fv_sets v) _) as [s|]; [|split; qlra].
  destruct (nth_error row _) as [x|]; [|split; qlra].
  destruct (membership s x) as [d|] eqn:E; [|split; qlra]. eapply membership_01; eassumption.
Qed.
Lemma activation_nil tn vars row : activation tn vars row [] = 1. Proof. reflexivity. Qed.
Lemma activation_snoc tn vars row p l : activation tn vars row (p ++ [l]) = tn (activation tn vars row p) (lit_degree vars row l).
Proof. unfold activation. rewrite fold_left_app. reflexivity. Qed.
Lemma activation_01 vars row p : 0 <= activation qmin vars row p /\ activation qmin vars row p <= 1.
Proof.
  induction p as [|l p IH] using rev_ind; [rewrite activation_nil; split; qlra|].
  rewrite activation_snoc. destruct (lit_degree_01 vars row l), IH. split; [apply qmin_glb; assumption|]. eapply Qcle_trans; [apply qmin_r|assumption].
Qed.
Lemma acts_snoc vars X p l : acts vars X (p ++ [l]) = map2 qmin (acts vars X p) (map (fun row => lit_degree vars row l) X).
Proof.
  unfold acts. induction X as [|row X IH]; [reflexivity|]. cbn [map map2]. rewrite IH, activation_snoc. reflexivity.
Qed.
Lemma acts_nonneg vars X p : Forall (fun x => 0 <= x) (acts vars X p).
Proof. apply Forall_forall. intros x H. apply in_map_iff in H. destruct H as [row [<- _]]. apply activation_01. Qed.
Lemma acts_length vars X p : List.length (acts vars X p) = List.length X.
Proof. apply map_length. Qed.
Lemma acts_nil vars X : acts vars X [] = repeat 1 (List.length X).
Proof. unfold acts. induction X as [|r X IH]; [reflexivity|]. cbn [map repeat List.length]. rewrite IH. reflexivity. Qed.
Lemma mass_nonneg vars X p : 0 <= mass vars X p.
Proof. apply qsum_nonneg, acts_nonneg. Qed.
Lemma class_mass_card vars X y p c : class_mass vars X y p c = class_card (acts vars X p) y c.
Proof.
  unfold class_mass, class_card, zip. generalize (acts vars X p) as ms. intro ms. revert y.
  induction ms as [|m ms IH]; intros [|k y]; try reflexivity. cbn [map2 combine filter snd].
  rewrite qsum_cons, IH. destruct (Z.eqb k c); cbn [map fst]; [rewrite qsum_cons; reflexivity|ring].
Qed.

(** ** dataset_membership, exactly *)
Definition exact_sets (vars : list fvar) (X : list (list cell)) (a : nat) (v : fvar) : dict string (list Qc) :=
  map (fun js => (fs_name (snd js), map (fun row => lit_degree vars row (a, fst js)) X)) (enumerate (fv_sets v)).
Definition exact_mem (vars : list fvar) (X : list (list cell)) : xmem :=
  map (fun iv => (fv_name (snd iv), exact_sets vars X (fst iv) (snd iv))) (enumerate vars).
Lemma enumerate_In A (l : list A) i x : In (i, x) (enumerate l) <-> nth_error l i = Some x.
Proof.
  split.
  - intro H. apply In_nth_error in H. destruct H as [k Hk]. apply enumerate_nth_inv in Hk. cbn in Hk. destruct Hk as [-> H]. exact H.
  - intro H. apply enumerate_nth in H. eapply nth_error_In; eassumption.
Qed.
Lemma map_enumerate A B (f : A -> B) l : map (fun iv => f (snd iv)) (enumerate l) = map f l.
Proof. rewrite <- (map_snd_enumerate l) at 2. rewrite map_map. reflexivity. Qed.
Lemma mapM_map_ok A B (f : A -> res B) (g : A -> B) l : (forall x y, In x l -> f x = Ok y -> y = g x) ->
  forall ys, mapM f l = Ok ys -> ys = map g l.
Proof.
  intros H ys E. apply mapM_ok in E. induction E as [|x y l ys E1 E2 IH]; [reflexivity|]. cbn [map]. f_equal.
  - apply H; [left; reflexivity|assumption].
  - apply IH. intros; apply H; [right|]; assumption.
Qed.
Lemma dataset_membership_exact vars X XM : distinct_names vars -> dataset_membership X vars = Ok XM ->
  XM = exact_mem vars X /\
  forall a v s row, nth_error vars a = Some v -> In s (fv_sets v) -> In row X ->
    exists x d, nth_error row a = Some x /\ membership s x = Ok d.
Proof.
  intros [N1 N2] E. unfold dataset_membership in E. destruct (mapM _ (enumerate vars)) as [l|] eqn:EM; cbn [bind] in E; [|discriminate].
  injection E as <-.
  assert (C : forall a v p, nth_error vars a = Some v ->
     (do col <- column X a; do d <- var_membership v col; Ok (fv_name v, d)) = Ok p ->
     p = (fv_name v, exact_sets vars X a v) /\
     forall s row, In s (fv_sets v) -> In row X -> exists x d, nth_error row a = Some x /\ membership s x = Ok d).
  { intros a v p Hv H. destruct (column X a) as [col|] eqn:Ec; cbn [bind] in H; [|discriminate].
    unfold var_membership in H. destruct (mapM _ (fv_sets v)) as [l'|] eqn:Em; cbn [bind] in H; [|discriminate].
    injection H as <-. unfold column in Ec. apply mapM_ok in Ec.
    assert (D : forall s ms, membership_col s col = Ok ms ->
       (forall row, In row X -> exists x d, nth_error row a = Some x /\ membership s x = Ok d) /\
       ms = map (fun row => match nth_error row a with Some x => match membership s x with Ok d => d | Err _ => 0 end | None => 0 end) X).
    { intros s ms Hm. unfold membership_col in Hm. apply mapM_ok in Hm. clear - Ec Hm. revert ms Hm.
      induction Ec as [|row x X col H F IH]; intros ms Hm; inversion Hm as [|? d ? ms' H1 H2]; subst; [split; [intros ? []|reflexivity]|].
      destruct (nth_error row a) as [x'|] eqn:En; cbn in H; [|discriminate]. injection H as ->.
      destruct (IH _ H2) as [I1 I2]. split.
      - intros r [<-|Hr]; [eauto|auto].
      - cbn [map]. rewrite En, H1, <- I2. reflexivity. }
    split.
    - f_equal. rewrite dict_of_nodup.
      + unfold exact_sets. rewrite <- (map_snd_enumerate (fv_sets v)) in Em.
        assert (Em' : mapM (fun js => do m <- membership_col (snd js) col; Ok (fs_name (snd js), m)) (enumerate (fv_sets v)) = Ok l').
        { rewrite <- Em. generalize (enumerate (fv_sets v)). clear. induction l as [|x l IH]; [reflexivity|]. cbn [map mapM]. rewrite IH. reflexivity. }
        apply (@mapM_map_ok _ _ _ (fun js => (fs_name (snd js), map (fun row => lit_degree vars row (a, fst js)) X))) in Em'; [assumption|].
        intros [j s] q Hin Hq. cbn [fst snd] in *. apply enumerate_In in Hin.
        destruct (membership_col s col) as [ms|] eqn:Es; cbn [bind] in Hq; [|discriminate]. injection Hq as <-. f_equal.
        rewrite (proj2 (D s ms Es)). apply map_ext. intro row. unfold lit_degree. cbn [fst snd]. rewrite Hv, Hin. reflexivity.
      + assert (K : map fst l' = map fs_name (fv_sets v)).
        { apply mapM_ok in Em. clear - Em. induction Em as [|s p l l' H F IH]; [reflexivity|]. cbn [map]. rewrite IH. f_equal.
          destruct (membership_col s col); cbn in H; [|discriminate]. injection H as <-. reflexivity. }
        rewrite K. apply N2. eapply nth_error_In; eassumption.
    - intros s row Hs Hr. apply mapM_ok in Em.
      assert (exists ms, membership_col s col = Ok ms) as [ms Es].
      { clear - Em Hs. induction Em as [|s' p l l' H F IH]; [destruct Hs|]. destruct Hs as [->|Hs]; [|auto].
        destruct (membership_col s col); cbn in H; [eauto|discriminate]. }
      apply (proj1 (D s ms Es)). assumption. }
  split.
  - rewrite dict_of_nodup.
    + apply (@mapM_map_ok _ _ _ (fun iv => (fv_name (snd iv), exact_sets vars X (fst iv) (snd iv)))) in EM; [assumption|].
      intros [a v] p Hin Hp. cbn [fst snd]. apply enumerate_In in Hin. apply (C a v p Hin Hp).
    + assert (K : map fst l = map fv_name vars).
      { rewrite <- (map_enumerate fv_name vars). apply mapM_ok in EM. clear - EM.
        induction EM as [|[i v] p l l' H F IH]; [reflexivity|]. cbn [map fst snd]. rewrite IH. f_equal.
        destruct (column X i); cbn in H; [|discriminate]. destruct (var_membership v a); cbn in H; [|discriminate]. injection H as <-. reflexivity. }
      rewrite K. assumption.
  - intros a v s row Hv Hs Hr. apply mapM_ok in EM. destruct (Forall2_nth EM a (a := (a, v))) as (p & _ & Hp); [apply enumerate_nth; assumption|].
    cbn beta iota in Hp. eapply (proj2 (C a v p Hv Hp)); eassumption.
Qed.
Lemma exact_mem_get vars X a v : NoDup (map fv_name vars) -> nth_error vars a = Some v ->
  dget (fv_name v) (exact_mem vars X) = Some (exact_sets vars X a v).
Proof.
  intros N H. apply dget_nodup.
  - unfold exact_mem, dkeys. rewrite map_map. cbn [fst]. rewrite (map_enumerate fv_name). assumption.
  - apply in_map_iff. exists (a, v). split; [reflexivity|]. apply enumerate_In. assumption.
Qed.
Lemma positions_get vars a v : NoDup (map fv_name vars) -> nth_error vars a = Some v ->
  dget (fv_name v) (f_positions vars) = Some a.
Proof.
  intros N H. unfold f_positions. apply dict_of_get_nodup.
  - rewrite map_map. cbn [fst]. rewrite (map_enumerate fv_name). assumption.
  - apply in_map_iff. exists (a, v). split; [reflexivity|]. apply enumerate_In. assumption.
Qed.

(** ** one node of the training algorithm *)
Section Fit.
  Variable cfg : fdt_cfg.
  Variable ord : list (nat * nat) -> list string -> list string.
  Variable X : list (list cell).
  Variable y : list Z.
  Hypothesis Hord : forall p s, Permutation (ord p s) s.
  Hypothesis Hnames : distinct_names (f_vars cfg).
  Hypothesis Hlen : List.length X = List.length y.
  Let vars := f_vars cfg.
  Let XM := exact_mem vars X.
  Let ND : NoDup (map fv_name vars) := proj1 Hnames.

  Definition child_entry (p : list (nat * nat)) (a : nat) (js : nat * fset) : string * list Qc :=
    (fs_name (snd js), acts vars X (p ++ [(a, fst js)])).
  Lemma child_mus_exact p a v : child_mus qmin (acts vars X p) (exact_sets vars X a v) = map (child_entry p a) (enumerate (fv_sets v)).
  Proof.
    unfold child_mus, exact_sets. rewrite map_map. apply map_ext. intros [j s]. cbn [fst snd]. unfold child_entry. cbn [fst snd].
    rewrite acts_snoc. reflexivity.
  Qed.
  Lemma feature_gain_exact p a v : nth_error vars a = Some v -> mass vars X p <> 0 ->
    feature_gain qmin (acts vars X p) XM y (fv_name v)
    = Ok (info_gain vars X y p a, map (child_entry p a) (enumerate (fv_sets v))).
  Proof.
    intros Hv Hm. unfold feature_gain, XM. rewrite (@exact_mem_get vars X a v ND Hv). cbn [bind ret_opt].
    rewrite child_mus_exact. fold (mass vars X p). rewrite (proj2 (qeqb_neq _ _) Hm). f_equal. f_equal.
    unfold info_gain. rewrite Hv. f_equal. f_equal. f_equal. rewrite map_map. unfold enumerate, zip. cbn [fst snd child_entry].
    fold (mass vars X). generalize 0%nat. induction (fv_sets v) as [|s l IH]; intro k; [reflexivity|].
    cbn [List.length seq combine map fst snd]. f_equal. apply IH.
  Qed.

  (** the result of the feature loop *)
  Definition gain_result (p : list (nat * nat)) (L : list string) (r : string * R * dict string (list Qc)) : Prop :=
    (r = (""%string, 0%R, []) /\ forall a v, nth_error vars a = Some v -> In (fv_name v) L -> (info_gain vars X y p a <= 0)%R) \/
    (exists a v l1 l2, nth_error vars a = Some v /\ L = l1 ++ fv_name v :: l2 /\
       r = (fv_name v, info_gain vars X y p a, map (child_entry p a) (enumerate (fv_sets v))) /\
       (0 < info_gain vars X y p a)%R /\
       (forall b w, nth_error vars b = Some w -> In (fv_name w) l1 -> (info_gain vars X y p b < info_gain vars X y p a)%R) /\
       (forall b w, nth_error vars b = Some w -> In (fv_name w) l2 -> (info_gain vars X y p b <= info_gain vars X y p a)%R)).
  Lemma name_index f : In f (map fv_name vars) -> exists a v, nth_error vars a = Some v /\ fv_name v = f.
  Proof. intro H. apply in_map_iff in H. destruct H as [v [E H]]. apply In_nth_error in H. destruct H as [a H]. eauto. Qed.
  Lemma index_inj a b v w : nth_error vars a = Some v -> nth_error vars b = Some w -> fv_name v = fv_name w -> a = b.
  Proof.
    intros A B E. assert (Q := positions_get vars _ ND A). rewrite E in Q. rewrite (positions_get vars _ ND B) in Q. congruence.
  Qed.
  Lemma max_f_gain_exact p L : mass vars X p <> 0 -> NoDup L -> incl L (map fv_name vars) ->
    exists r, max_f_gain qmin (acts vars X p) L XM y = Ok r /\ gain_result p L r.
  Proof.
    intros Hm N I. unfold max_f_gain.
    assert (G : forall L2 L1 r, NoDup (L1 ++ L2) -> incl (L1 ++ L2) (map fv_name vars) -> gain_result p L1 r ->
      exists r', foldM (fun best feature => do g <- feature_gain qmin (acts vars X p) XM y feature;
         if Rltb (snd (fst best)) (fst g) then Ok (feature, fst g, snd g) else Ok best) r L2 = Ok r' /\ gain_result p (L1 ++ L2) r').
    { induction L2 as [|f L2 IH]; intros L1 r N' I' Hr.
      - exists r. rewrite app_nil_r. split; [reflexivity|assumption].
      - destruct (@name_index f) as [a [v [Hv Hf]]]; [apply I', in_or_app; right; left; reflexivity|].
        cbn [foldM]. subst f. rewrite (@feature_gain_exact p a v Hv Hm). cbn [bind fst snd].
        replace (L1 ++ fv_name v :: L2) with ((L1 ++ [fv_name v]) ++ L2) in * by (rewrite <- app_assoc; reflexivity).
        match goal with |- context [bind (if ?b then _ else _) _] => destruct b eqn:B end; cbn [bind]; apply IH; try assumption.
        + right. exists a, v, L1, []. rewrite Rltb_lt in B. repeat split; try assumption.
          * destruct Hr as [[-> _]|(a0 & v0 & l1 & l2 & _ & _ & -> & P & _)]; cbn [fst snd] in B; lra.
          * intros b w Hb Hin. destruct Hr as [[-> Q]|(a0 & v0 & l1 & l2 & H0 & -> & -> & P & Q1 & Q2)]; cbn [fst snd] in B.
            -- specialize (Q b w Hb Hin). lra.
            -- apply in_app_or in Hin. destruct Hin as [Hin|[E|Hin]].
               ++ specialize (Q1 b w Hb Hin). lra.
               ++ rewrite (@index_inj b a0 w v0 Hb H0) by congruence. assumption.
               ++ specialize (Q2 b w Hb Hin). lra.
          * intros b w _ [].
        + rewrite Rltb_ge in B. destruct Hr as [[-> Q]|(a0 & v0 & l1 & l2 & H0 & -> & -> & P & Q1 & Q2)]; cbn [fst snd] in B.
          * left. split; [reflexivity|]. intros b w Hb Hin. apply in_app_or in Hin. destruct Hin as [Hin|[E|[]]]; [eauto|].
            rewrite (@index_inj b a w v Hb Hv) by congruence. assumption.
          * right. exists a0, v0, l1, (l2 ++ [fv_name v]). rewrite <- app_assoc. repeat split; try assumption.
            intros b w Hb Hin. apply in_app_or in Hin. destruct Hin as [Hin|[E|[]]]; [eauto|].
            rewrite (@index_inj b a w v Hb Hv) by congruence. assumption. }
    apply (G L [] (""%string, 0%R, []) N I). left. split; [reflexivity|]. intros a v _ [].
  Qed.

  Definition class_dist (p : list (nat * nat)) : dict Z Qc := map (fun c => (c, share vars X y p c)) (zunique y).
  Lemma class_value_exact p : mass vars X p <> 0 -> get_class_value (acts vars X p) y = Ok (class_dist p).
  Proof.
    intro H. unfold get_class_value. fold (mass vars X p). rewrite (proj2 (qeqb_neq _ _) H). unfold class_dist. apply (f_equal (@Ok (dict Z Qc))).
    apply map_ext. intro c. unfold share. rewrite class_mass_card. reflexivity.
  Qed.

  (** [fit_node fuel value var p feats depth]: training of a fresh node whose memberships are the
      activations of [p] *)
  Definition fit_node (fuel : nat) (node : tree) (p : list (nat * nat)) (feats : list string) (depth : Z) : res tree :=
    partial_fit fuel cfg ord XM y node p feats depth.
  Definition blank (p : list (nat * nat)) (l : nat * nat) (v : fvar) : tree := new_tree (Some l) (Some v) (acts vars X (p ++ [l])).
  (** result for the child testing set [i] of the variable [v] at position [a] *)
  Definition child_result (fuel : nat) (p : list (nat * nat)) (feats : list string) (depth : Z) (a : nat) (v : fvar) (i : nat) : res tree :=
    if qltb 0 (mass vars X (p ++ [(a, i)]))
    then fit_node fuel (blank p (a, i) v) (p ++ [(a, i)]) (remove string_dec (fv_name v) feats) (depth + 1)
    else Ok (Tree true [] (Some (class_dist p)) (-1) (Some (a, i)) (Some v) (acts vars X (p ++ [(a, i)]))).

  Lemma mapM_reindex A B C (f : A -> res C) (g : B -> res C) l l' :
    Forall2 (fun x x' => f x = g x') l l' -> mapM f l = mapM g l'.
  Proof. induction 1 as [|x x' l l' H F IH]; [reflexivity|]. cbn [mapM]. rewrite H, IH. reflexivity. Qed.
  Lemma enumerate_Forall2 A B (R : nat * A -> nat -> Prop) (l : list A) (k : list B) :
    List.length l = List.length k -> (forall i x, nth_error l i = Some x -> R (i, x) i) ->
    Forall2 R (enumerate l) (seq 0 (List.length k)).
  Proof.
    intros L H. rewrite <- L. clear k L. unfold enumerate, zip.
    assert (G : forall n, (forall i x, nth_error l i = Some x -> R (n + i, x)%nat (n + i)%nat) -> Forall2 R (combine (seq n (List.length l)) l) (seq n (List.length l))).
    { clear H. induction l as [|x l IH]; intros n H; [constructor|]. cbn [List.length seq combine]. constructor.
      - specialize (H 0%nat x eq_refl). rewrite Nat.add_0_r in H. exact H.
      - apply IH. intros i z Hi. specialize (H (S i) z Hi). rewrite Nat.add_succ_r in H. exact H. }
    apply (G 0%nat). exact H.
  Qed.
  Lemma child_lookup p a v i s : NoDup (map fs_name (fv_sets v)) -> nth_error (fv_sets v) i = Some s ->
    dget (fs_name s) (map (child_entry p a) (enumerate (fv_sets v))) = Some (acts vars X (p ++ [(a, i)])).
  Proof.
    intros N H. apply dget_nodup.
    - unfold dkeys. rewrite map_map. unfold child_entry. cbn [fst]. rewrite (map_enumerate fs_name). assumption.
    - apply in_map_iff. exists (i, s). split; [reflexivity|]. apply enumerate_In. assumption.
  Qed.

  (** the exact behaviour of one call *)
  Lemma partial_fit_step fuel node p feats depth :
    t_mu node = acts vars X p -> 0 < mass vars X p -> NoDup feats -> incl feats (map fv_name vars) ->
    exists att gain cm, gain_result p (ord p feats) (att, gain, cm) /\
    fit_node (S fuel) node p feats depth =
      if stop_met cfg gain (masked (acts vars X p) y) depth
      then Ok (Tree true (t_children node) (Some (class_dist p)) depth (t_value node) (t_var node) (acts vars X p))
      else match dget att XM with
           | None => Err KeyError
           | Some sets =>
             do children <- mapM (fun iv =>
                 let '(i, value) := iv in
                 if negb (memb att feats) then Err KeyError else
                 do a <- ret_opt KeyError (dget att (f_positions vars));
                 do v <- ret_opt IndexError (nth_error vars a);
                 do m <- ret_opt KeyError (dget value cm);
                 let child := new_tree (Some (a, i)) (Some v) m in
                 if qltb 0 (qsum m) then
                   fit_node fuel child (p ++ [(a, i)]) (remove string_dec att feats) (depth + 1)
                 else Ok (Tree true [] (Some (class_dist p)) (-1) (Some (a, i)) (Some v) m))
               (enumerate (dkeys sets));
             Ok (Tree false (t_children node ++ children) (t_class node) depth (t_value node) (t_var node) (acts vars X p))
           end.
  Proof.
    intros Hmu Hm N I. assert (Hm' : mass vars X p <> 0) by (intro E; rewrite E in Hm; qlra).
    destruct (@max_f_gain_exact p (ord p feats) Hm') as [[[att gain] cm] [E G]].
    { exact (Permutation_NoDup (Permutation_sym (Hord p feats)) N). }
    { intros f Hf. apply I. exact (Permutation_in _ (Hord p feats) Hf). }
    exists att, gain, cm. split; [assumption|].
    unfold fit_node. cbn [partial_fit]. rewrite Hmu, E. cbn [bind].
    destruct (stop_met _ _ _ _).
    - rewrite class_value_exact by assumption. reflexivity.
    - unfold ret_opt at 1. fold vars. destruct (dget att XM) as [sets|]; cbn [bind]; [|reflexivity].
      match goal with |- bind ?u _ = bind ?w _ => assert (EQ : u = w); [|rewrite EQ; reflexivity] end.
      apply mapM_ext. intros [i value] _. rewrite class_value_exact by exact Hm'. reflexivity.
  Qed.
  Definition leaf_result (node : tree) (p : list (nat * nat)) (depth : Z) : tree :=
    Tree true (t_children node) (Some (class_dist p)) depth (t_value node) (t_var node) (acts vars X p).
  Definition split_result (fuel : nat) (node : tree) (p : list (nat * nat)) (feats : list string) (depth : Z) (a : nat) (v : fvar) : res tree :=
    do children <- mapM (child_result fuel p feats depth a v) (seq 0 (List.length (fv_sets v)));
    Ok (Tree false (t_children node ++ children) (t_class node) depth (t_value node) (t_var node) (acts vars X p)).
  Definition stops (p : list (nat * nat)) (gain : R) (depth : Z) : bool := stop_met cfg gain (masked (acts vars X p) y) depth.
  Lemma partial_fit_cases fuel node p feats depth :
    (0 < f_threshold cfg)%R \/ ~ In ""%string (map fv_name vars) ->
    t_mu node = acts vars X p -> 0 < mass vars X p -> NoDup feats -> incl feats (map fv_name vars) ->
    ((forall a v, nth_error vars a = Some v -> In (fv_name v) feats -> (info_gain vars X y p a <= 0)%R) /\
     fit_node (S fuel) node p feats depth = if stops p 0 depth then Ok (leaf_result node p depth) else Err KeyError) \/
    (exists a v l1 l2, nth_error vars a = Some v /\ ord p feats = l1 ++ fv_name v :: l2 /\ (0 < info_gain vars X y p a)%R /\
       (forall b w, nth_error vars b = Some w -> In (fv_name w) l1 -> (info_gain vars X y p b < info_gain vars X y p a)%R) /\
       (forall b w, nth_error vars b = Some w -> In (fv_name w) l2 -> (info_gain vars X y p b <= info_gain vars X y p a)%R) /\
       fit_node (S fuel) node p feats depth =
         if stops p (info_gain vars X y p a) depth then Ok (leaf_result node p depth) else split_result fuel node p feats depth a v).
  Proof.
    intros Hth Hmu Hm N I. destruct (@partial_fit_step fuel node p feats depth Hmu Hm N I) as [att [gain [cm [G E]]]].
    fold (stops p gain depth) in E. destruct G as [[R Q]|(a & v & l1 & l2 & Hv & HL & R & P & Q1 & Q2)].
    - left. injection R as -> -> ->. split.
      + intros a v Hv Hin. apply (Q a v Hv). exact (Permutation_in _ (Permutation_sym (Hord p feats)) Hin).
      + rewrite E. destruct (stops p 0 depth) eqn:S; [reflexivity|].
        destruct Hth as [Hth|Hth].
        * exfalso. unfold stops, stop_met in S. rewrite !orb_false_iff in S. destruct S as [_ S]. rewrite Rltb_ge in S. lra.
        * assert (D : dget ""%string XM = None).
          { apply dget_None. unfold XM, exact_mem, dkeys. rewrite map_map. cbn [fst]. rewrite (map_enumerate fv_name). assumption. }
          rewrite D. reflexivity.
    - right. exists a, v, l1, l2. injection R as -> -> ->. repeat split; try assumption. rewrite E.
      destruct (stops p _ depth); [reflexivity|].
      unfold XM. rewrite (@exact_mem_get vars X a v ND Hv). unfold split_result.
      match goal with |- bind ?u _ = bind ?w _ => assert (EQ : u = w); [|rewrite EQ; reflexivity] end.
      apply mapM_reindex. apply enumerate_Forall2.
      { unfold exact_sets, dkeys. rewrite !map_length. rewrite <- (map_snd_enumerate (fv_sets v)) at 2. rewrite map_length. reflexivity. }
      intros i value Hi.
      assert (Hin : In (fv_name v) feats).
      { apply (Permutation_in _ (Hord p feats)). rewrite HL. apply in_or_app. right. left. reflexivity. }
      rewrite (proj2 (memb_In _ _ _) Hin). cbn [negb].
      rewrite (positions_get vars _ ND Hv). cbn [bind ret_opt]. rewrite Hv. cbn [bind ret_opt].
      assert (Hs : exists s, nth_error (fv_sets v) i = Some s /\ fs_name s = value).
      { unfold exact_sets, dkeys in Hi. rewrite map_map in Hi. cbn [fst] in Hi. rewrite (map_enumerate fs_name) in Hi.
        rewrite nth_error_map in Hi. destruct (nth_error (fv_sets v) i) as [s|]; cbn in Hi; [|discriminate]. injection Hi as <-. eauto. }
      destruct Hs as [s [Hs <-]]. rewrite (@child_lookup p a v i s); [|apply (proj2 Hnames); eapply nth_error_In; eassumption|assumption].
      cbn [bind ret_opt]. reflexivity.
  Qed.

  (** ** all nodes of a fitted tree *)
  Hypothesis Hth : (0 < f_threshold cfg)%R \/ ~ In ""%string (map fv_name vars).
  Definition remaining (p : list (nat * nat)) : list string :=
    fold_left (fun fs l => match nth_error vars (fst l) with Some v => remove string_dec (fv_name v) fs | None => fs end) p (f_features cfg).
  Lemma remaining_snoc p a i v : nth_error vars a = Some v -> remaining (p ++ [(a, i)]) = remove string_dec (fv_name v) (remaining p).
  Proof. intro H. unfold remaining. rewrite fold_left_app. cbn [fold_left fst]. rewrite H. reflexivity. Qed.
  Lemma NoDup_rm (l : list string) x : NoDup l -> NoDup (remove string_dec x l).
  Proof.
    clear. induction 1 as [|z l Hz Hl IH]; cbn; [constructor|]. destruct (string_dec x z); [assumption|]. constructor; [|assumption].
    intro H. apply in_remove in H. tauto.
  Qed.
  Lemma remaining_spec p : NoDup (remaining p) /\ incl (remaining p) (map fv_name vars) /\
    (forall f, In f (remaining p) <-> In f (map fv_name vars) /\ forall l v, In l p -> nth_error vars (fst l) = Some v -> fv_name v <> f).
  Proof.
    clear Hth.
    assert (G : NoDup (remaining p) /\ (forall f, In f (remaining p) <-> In f (map fv_name vars) /\ forall l v, In l p -> nth_error vars (fst l) = Some v -> fv_name v <> f)).
    { induction p as [|l p [IH1 IH2]] using rev_ind.
      - unfold remaining, f_features. cbn [fold_left]. split; [apply NoDup_nodup|]. intro f. rewrite nodup_In. split; [intro; split; [assumption|intros l v []]|tauto].
      - destruct l as [a i]. destruct (nth_error vars a) as [v|] eqn:E.
        + rewrite (@remaining_snoc p a i v E). split; [apply NoDup_rm; assumption|]. intro f. split.
          * intro H. apply in_remove in H. destruct H as [H Hn]. apply IH2 in H. destruct H as [H1 H2]. split; [assumption|].
            intros l w Hl Hw. apply in_app_or in Hl. destruct Hl as [Hl|[<-|[]]]; [eauto|]. cbn in Hw. congruence.
          * intros [H1 H2]. apply in_in_remove.
            -- intro C. apply (H2 (a, i) v); [apply in_or_app; right; left; reflexivity|assumption|congruence].
            -- apply IH2. split; [assumption|]. intros l w Hl. apply H2. apply in_or_app. left. assumption.
        + assert (R : remaining (p ++ [(a, i)]) = remaining p) by (unfold remaining; rewrite fold_left_app; cbn [fold_left fst]; rewrite E; reflexivity).
          rewrite R. split; [assumption|]. intro f. rewrite IH2. split; intros [H1 H2]; (split; [assumption|]).
          * intros l w Hl Hw. apply in_app_or in Hl. destruct Hl as [Hl|[<-|[]]]; [eauto|]. cbn in Hw. congruence.
          * intros l w Hl. apply H2. apply in_or_app. left. assumption. }
    destruct G as [G1 G2]. split; [assumption|]. split; [intros f Hf; apply G2; assumption|assumption].
  Qed.

  Definition plen (p : list (nat * nat)) : Z := Z.of_nat (List.length p).
  Lemma plen_snoc p l : plen (p ++ [l]) = (plen p + 1)%Z.
  Proof. clear. unfold plen. rewrite app_length. cbn. lia. Qed.
  Definition fitted (p : list (nat * nat)) (node n : tree) : Prop :=
    0 < mass vars X p /\ t_mu node = acts vars X p /\ t_children node = [] /\
    exists fuel, fit_node fuel node p (remaining p) (plen p) = Ok n.
  (** what a fitted node looks like *)
  Definition chosen (p : list (nat * nat)) (a : nat) (v : fvar) : Prop :=
    nth_error vars a = Some v /\ (0 < info_gain vars X y p a)%R /\
    exists l1 l2, ord p (remaining p) = l1 ++ fv_name v :: l2 /\
      (forall b w, nth_error vars b = Some w -> In (fv_name w) l1 -> (info_gain vars X y p b < info_gain vars X y p a)%R) /\
      (forall b w, nth_error vars b = Some w -> In (fv_name w) l2 -> (info_gain vars X y p b <= info_gain vars X y p a)%R).
  Definition zero_leaf (p : list (nat * nat)) (l : nat * nat) (v : fvar) : tree :=
    Tree true [] (Some (class_dist p)) (-1) (Some l) (Some v) (acts vars X (p ++ [l])).
  Lemma fitted_cases p node n : fitted p node n ->
    (n = leaf_result node p (plen p) /\
     ((exists a v, chosen p a v /\ stops p (info_gain vars X y p a) (plen p) = true) \/
      ((forall a v, nth_error vars a = Some v -> In (fv_name v) (remaining p) -> (info_gain vars X y p a <= 0)%R) /\ stops p 0 (plen p) = true))) \/
    (exists a v cs, chosen p a v /\ stops p (info_gain vars X y p a) (plen p) = false /\
       n = Tree false cs (t_class node) (plen p) (t_value node) (t_var node) (acts vars X p) /\
       Forall2 (fun i c => (0 < mass vars X (p ++ [(a, i)]) /\ fitted (p ++ [(a, i)]) (blank p (a, i) v) c) \/
                           (mass vars X (p ++ [(a, i)]) = 0 /\ c = zero_leaf p (a, i) v)) (seq 0 (List.length (fv_sets v))) cs).
  Proof.
    intros [Hm [Hmu [Hc [fuel E]]]]. destruct fuel as [|fuel]; [discriminate|].
    destruct (remaining_spec p) as [N [I _]].
    destruct (@partial_fit_cases fuel node p (remaining p) (plen p) Hth Hmu Hm N I) as [[Q F]|(a & v & l1 & l2 & Hv & HL & P & Q1 & Q2 & F)]; rewrite F in E.
    - left. destruct (stops p 0 (plen p)) eqn:S; [|discriminate]. injection E as <-. split; [reflexivity|right; split; [assumption|reflexivity]].
    - assert (C : chosen p a v) by (split; [assumption|split; [assumption|exists l1, l2; auto]]).
      destruct (stops p _ (plen p)) eqn:S.
      + left. injection E as <-. split; [reflexivity|left; exists a, v; auto].
      + right. unfold split_result in E. destruct (mapM _ (seq 0 _)) as [cs|] eqn:M; cbn [bind] in E; [|discriminate].
        injection E as <-. rewrite Hc. exists a, v, cs. split; [assumption|]. split; [assumption|]. split; [reflexivity|].
        apply mapM_ok in M. eapply Forall2_impl; [|exact M]. intros i c H. unfold child_result in H. cbv beta in H.
        destruct (qltb 0 (mass vars X (p ++ [(a, i)]))) eqn:B.
        * left. rewrite qltb_lt in B. split; [assumption|]. split; [assumption|]. split; [reflexivity|]. split; [reflexivity|].
          exists fuel. rewrite (@remaining_snoc p a i v Hv), plen_snoc. assumption.
        * right. rewrite qltb_ge in B. assert (NN := mass_nonneg vars X (p ++ [(a, i)])). split; [apply Qcle_antisym; assumption|].
          injection H as <-. reflexivity.
  Qed.
  Lemma Forall2_In_r A B (R : A -> B -> Prop) l l' b : Forall2 R l l' -> In b l' -> exists a, In a l /\ R a b.
  Proof. induction 1 as [|a' b' l l' H F IH]; intros []; [subst; exists a'; split; [left; reflexivity|assumption]|]. destruct IH as [a [H1 H2]]; [assumption|]. exists a. split; [right|]; assumption. Qed.
  Lemma fitted_value p node n : fitted p node n -> t_value n = t_value node /\ t_var n = t_var node /\ t_mu n = acts vars X p /\ t_level n = plen p.
  Proof.
    intro H. destruct (fitted_cases H) as [[-> _]|(a & v & cs & _ & _ & -> & _)]; unfold leaf_result; cbn; auto.
  Qed.
  Lemma fitted_nodes t q n : node_at t q n -> forall p node, fitted p node t ->
    (exists node', fitted (p ++ q) node' n /\ (q = [] -> node' = node) /\
       (forall q' l, q = q' ++ [l] -> exists v, nth_error vars (fst l) = Some v /\ node' = blank (p ++ q') l v)) \/
    (exists q' l v node' par, q = q' ++ [l] /\ nth_error vars (fst l) = Some v /\ n = zero_leaf (p ++ q') l v /\
       mass vars X (p ++ q) = 0 /\ fitted (p ++ q') node' par).
  Proof.
    induction 1 as [t|t c l q n Hl Hc Hv Hn IH]; intros p node F.
    - left. exists node. rewrite app_nil_r. split; [assumption|]. split; [reflexivity|]. intros q' l E. destruct q'; discriminate.
    - destruct (fitted_cases F) as [[-> _]|(a & v & cs & Ch & _ & Et & FF)]; [discriminate|].
      rewrite Et in Hc. cbn in Hc. destruct (@Forall2_In_r _ _ _ _ _ c FF Hc) as [i [Hi [[Mi Fi]|[Mi ->]]]].
      + destruct (fitted_value Fi) as [Vc _]. rewrite Vc in Hv. cbn in Hv. injection Hv as <-.
        destruct (IH (p ++ [(a, i)]) _ Fi) as [(node' & A & B & C)|(q' & l' & v' & node' & par & A & B & C & D & E)].
        * left. exists node'. rewrite <- app_assoc in A. split; [exact A|]. split; [discriminate|].
          intros q' l' Eq. destruct q' as [|l0 q'].
          -- injection Eq as E1 E2. subst. exists v. split; [apply Ch|]. rewrite app_nil_r. rewrite (B eq_refl). reflexivity.
          -- injection Eq as E1 E2. subst. destruct (C q' l' eq_refl) as [v' [C1 C2]]. exists v'. split; [assumption|].
             rewrite <- app_assoc in C2. exact C2.
        * right. exists ((a, i) :: q'), l', v', node', par. subst q. rewrite <- app_assoc in C, D, E. cbn [app] in C, D, E.
          split; [reflexivity|]. split; [assumption|]. split; [exact C|]. split; [exact D|exact E].
      + cbn in Hv. injection Hv as <-. inversion Hn as [|? ? ? ? ? Hlf]; subst; [|discriminate].
        right. exists [], (a, i), v, node. eexists. rewrite app_nil_r. cbn [app]. split; [reflexivity|]. split; [apply Ch|]. split; [reflexivity|]. split; [exact Mi|exact F].
  Qed.

  (** ** totality *)
  Lemma remaining_shrinks p a i v l1 l2 : nth_error vars a = Some v -> ord p (remaining p) = l1 ++ fv_name v :: l2 ->
    (List.length (remaining (p ++ [(a, i)])) < List.length (remaining p))%nat.
  Proof.
    intros Hv HL. rewrite (@remaining_snoc p a i v Hv). apply remove_length_lt.
    apply (Permutation_in _ (Hord p (remaining p))). rewrite HL. apply in_or_app. right. left. reflexivity.
  Qed.
  Lemma fit_outcome fuel : forall p node, (List.length (remaining p) < fuel)%nat -> 0 < mass vars X p -> t_mu node = acts vars X p ->
    (exists n, fit_node fuel node p (remaining p) (plen p) = Ok n) \/
    ((f_threshold cfg <= 0)%R /\ fit_node fuel node p (remaining p) (plen p) = Err KeyError).
  Proof.
    induction fuel as [|fuel IH]; intros p node L Hm Hmu; [lia|].
    destruct (remaining_spec p) as [N [I _]].
    destruct (@partial_fit_cases fuel node p (remaining p) (plen p) Hth Hmu Hm N I) as [[Q F]|(a & v & l1 & l2 & Hv & HL & P & Q1 & Q2 & F)]; rewrite F.
    - destruct (stops p 0 (plen p)) eqn:S; [left; eauto|]. right. split; [|reflexivity].
      unfold stops, stop_met in S. rewrite !orb_false_iff in S. destruct S as [_ S]. rewrite Rltb_ge in S. assumption.
    - destruct (stops p _ (plen p)); [left; eauto|]. unfold split_result.
      assert (G : (exists cs, mapM (child_result fuel p (remaining p) (plen p) a v) (seq 0 (List.length (fv_sets v))) = Ok cs) \/
                  ((f_threshold cfg <= 0)%R /\ mapM (child_result fuel p (remaining p) (plen p) a v) (seq 0 (List.length (fv_sets v))) = Err KeyError)).
      { generalize (seq 0 (List.length (fv_sets v))). induction l as [|i l IHl]; [left; eexists; reflexivity|]. cbn [mapM].
        assert (C : (exists c, child_result fuel p (remaining p) (plen p) a v i = Ok c) \/
                    ((f_threshold cfg <= 0)%R /\ child_result fuel p (remaining p) (plen p) a v i = Err KeyError)).
        { unfold child_result. destruct (qltb 0 _) eqn:B; [|left; eauto]. rewrite qltb_lt in B.
          rewrite <- (@remaining_snoc p a i v Hv), <- (plen_snoc p (a, i)). apply IH; [|assumption|reflexivity].
          assert (R := @remaining_shrinks p a i v l1 l2 Hv HL). lia. }
        destruct C as [[c ->]|[T ->]]; cbn [bind]; [|right; split; [assumption|reflexivity]].
        destruct IHl as [[cs ->]|[T ->]]; cbn [bind]; [left; eauto|right; split; [assumption|reflexivity]]. }
      destruct G as [[cs ->]|[T ->]]; cbn [bind]; [left; eauto|right; split; [assumption|reflexivity]].
  Qed.

  (** ** class distributions *)
  Lemma class_dist_spec p : 0 < mass vars X p -> map fst (class_dist p) = zunique y /\
    (forall c w, In (c, w) (class_dist p) -> 0 <= w /\ w <= 1 /\ w = share vars X y p c) /\ qsum (map snd (class_dist p)) = 1.
  Proof.
    intro Hm. assert (Hm' : mass vars X p <> 0) by (intro E; rewrite E in Hm; qlra).
    assert (LA : List.length (acts vars X p) = List.length y) by (rewrite acts_length; assumption).
    unfold class_dist. split; [rewrite map_map; apply map_id|]. split.
    - intros c w H. apply in_map_iff in H. destruct H as [c' [E Hc]]. injection E as -> <-.
      unfold share. rewrite class_mass_card.
      assert (A := @class_card_nonneg (acts vars X p) y c (acts_nonneg vars X p)).
      assert (B := @class_card_le (acts vars X p) y c (acts_nonneg vars X p) LA).
      destruct (@Qcdiv_01 _ _ A B Hm) as [C D]. auto.
    - rewrite map_map. cbn [snd]. unfold share.
      rewrite (map_ext _ (fun c => / mass vars X p * class_card (acts vars X p) y c)).
      + rewrite qsum_map_mult. rewrite class_card_sum by assumption. fold (mass vars X p). field. assumption.
      + intro c. rewrite class_mass_card. unfold Qcdiv. ring.
  Qed.
End Fit.
