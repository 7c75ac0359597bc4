(** * Fitted fuzzy trees: structure, distributions, gains, termination *)
From Verif Require Import Prelude M_Fuzzy M_Discretize M_Rule M_FDT S_Rule S_FDT P_FuzzySet P_FuzzyVar P_Entropy P_Rule P_FDT.
From Coq Require Import Reals Lra.
Set Implicit Arguments.
Open Scope Qc_scope.

(** ** fit *)
Lemma mass_nil vars X : mass vars X [] = qn (List.length X).
Proof.
  unfold mass. rewrite acts_nil. induction (List.length X) as [|n IH]; [reflexivity|]. cbn [repeat].
  rewrite qsum_cons, IH, qn_S. reflexivity.
Qed.
Definition root_of (root : tree) (n : nat) : tree :=
  Tree (t_leaf root) (t_children root) (t_class root) (t_level root) (t_value root) (t_var root) (repeat 1 n).
Lemma fit_Ok cfg ord root X y t : distinct_names (f_vars cfg) -> fit cfg ord root X y = Ok t ->
  List.length X = List.length y /\ y <> [] /\ readable (f_vars cfg) X /\
  partial_fit (S (List.length (f_features cfg))) cfg ord (exact_mem (f_vars cfg) X) y (root_of root (List.length y)) [] (f_features cfg) 0 = Ok t.
Proof.
  intros Hn H. unfold fit in H. destruct (Nat.eqb_spec (List.length X) (List.length y)) as [L|L]; cbn [negb orb] in H; [|discriminate].
  destruct (Nat.eqb_spec (List.length y) 0) as [L0|L0]; [discriminate|].
  destruct (dataset_membership X (f_vars cfg)) as [XM|] eqn:E; cbn [bind] in H; [|discriminate].
  destruct (@dataset_membership_exact (f_vars cfg) X XM Hn E) as [-> R].
  split; [assumption|]. split; [intros ->; apply L0; reflexivity|]. split; [|exact H].
  intros row Hr a v s Hv Hs. eapply R; eassumption.
Qed.
Lemma trained_fitted cfg ord X y t : trained cfg ord X y t ->
  List.length X = List.length y /\ y <> [] /\ readable (f_vars cfg) X /\
  fitted cfg ord X y [] (root_of fresh_root (List.length y)) t.
Proof.
  intros (Ho & Hn & Hth & H). destruct (@fit_Ok cfg ord fresh_root X y t Hn H) as (L & N & R & F).
  repeat split; try assumption.
  - rewrite mass_nil, L. apply qn_pos. destruct y; [congruence|cbn; lia].
  - cbn. rewrite acts_nil, L. reflexivity.
  - eexists. exact F.
Qed.

Lemma masked_reaching vars X y p : masked (acts vars X p) y = reaching vars X y p.
Proof.
  unfold masked, reaching, acts, zip. revert y. induction X as [|r X IH]; intros [|k y]; try reflexivity.
  cbn [map combine filter fst snd]. destruct (qltb 0 _); cbn [map]; rewrite ?IH; reflexivity.
Qed.
Lemma zunique_lt2 l : Nat.ltb (List.length (zunique l)) 2 = true <-> forall c c', In c l -> In c' l -> c = c'.
Proof.
  rewrite Nat.ltb_lt. assert (N := zunique_NoDup l). split.
  - intros H c c' A B. rewrite <- zunique_In in A, B. destruct (zunique l) as [|a [|b u]]; [destruct A| |cbn in H; lia].
    destruct A as [<-|[]], B as [<-|[]]. reflexivity.
  - intro H. assert (A : forall x, In x (zunique l) -> In x l) by (intro; apply zunique_In).
    destruct (zunique l) as [|a [|b u]]; cbn; try lia. exfalso.
    assert (a = b) by (apply H; apply A; cbn; auto). inversion N as [|? ? N1]; subst. apply N1. left. reflexivity.
Qed.

Section Trained.
  Variable cfg : fdt_cfg.
  Variable ord : list (nat * nat) -> list string -> list string.
  Variable X : list (list cell).
  Variable y : list Z.
  Variable t : tree.
  Hypothesis T : trained cfg ord X y t.
  Let vars := f_vars cfg.
  Let Hord : forall p s, Permutation (ord p s) s := proj1 T.
  Let Hnames : distinct_names (f_vars cfg) := proj1 (proj2 T).
  Let Hth := proj1 (proj2 (proj2 T)).
  Let Hlen : List.length X = List.length y := proj1 (trained_fitted T).
  Let F := proj2 (proj2 (proj2 (trained_fitted T))).

  Lemma stops_limit p g : stops cfg X y p g (plen p) = true <-> limit_met cfg X y p \/ (g < f_threshold cfg)%R.
  Proof.
    unfold stops, stop_met, limit_met. fold vars. rewrite (masked_reaching vars X y p). rewrite !orb_true_iff, zunique_lt2, Z.ltb_lt, Z.leb_le, Rltb_lt.
    unfold plen. tauto.
  Qed.
  Lemma node_cases p n : node_at t p n ->
    (exists node, fitted cfg ord X y p node n /\ (p = [] -> node = root_of fresh_root (List.length y)) /\
       (forall q l, p = q ++ [l] -> exists v, nth_error vars (fst l) = Some v /\ node = blank cfg X q l v)) \/
    (exists q l v node par, p = q ++ [l] /\ nth_error vars (fst l) = Some v /\ n = zero_leaf cfg X y q l v /\
       mass vars X p = 0 /\ fitted cfg ord X y q node par).
  Proof.
    intro H. destruct (@fitted_nodes cfg ord X y Hord Hnames Hth t p n H [] _ F) as [A|A]; [left|right]; exact A.
  Qed.

  Lemma node_mu p n : node_at t p n -> t_mu n = acts vars X p.
  Proof.
    intro H. destruct (node_cases H) as [(node & Fn & _)|(q & l & v & node & par & -> & Hv & -> & _)]; [|reflexivity].
    apply (@fitted_value cfg ord X y Hord Hnames Hth p node n Fn).
  Qed.
  Lemma node_leaf_class p n : node_at t p n -> t_leaf n = true ->
    exists q, t_class n = Some (class_dist cfg X y q) /\ 0 < mass vars X q /\
      ((0 < mass vars X p /\ q = p) \/ (mass vars X p = 0 /\ exists l, p = q ++ [l])).
  Proof.
    intros H L. destruct (node_cases H) as [(node & Fn & _)|(q & l & v & node & par & -> & Hv & -> & M & Fq)].
    - destruct (@fitted_cases cfg ord X y Hord Hnames Hth p node n Fn) as [[-> _]|(a & v & cs & _ & _ & -> & _)]; [|discriminate].
      exists p. split; [reflexivity|]. destruct Fn as [M _]. auto.
    - exists q. split; [reflexivity|]. split; [apply Fq|]. right. split; [assumption|eauto].
  Qed.
  Lemma node_level p n : node_at t p n -> 0 < mass vars X p -> t_level n = Z.of_nat (List.length p).
  Proof.
    intros H M. destruct (node_cases H) as [(node & Fn & _)|(q & l & v & node & par & -> & Hv & -> & M0 & _)].
    - destruct (@fitted_value cfg ord X y Hord Hnames Hth p node n Fn) as (_ & _ & _ & E). exact E.
    - rewrite M0 in M. exfalso. qlra.
  Qed.

  (** inner nodes *)
  Lemma untested_remaining p a v : nth_error vars a = Some v -> (untested vars p a <-> In (fv_name v) (remaining cfg p)).
  Proof.
    intro Hv. destruct (@remaining_spec cfg p) as (_ & _ & S). rewrite S. unfold untested. split.
    - intros [A B]. split; [apply in_map, (nth_error_In _ _ Hv)|]. intros l w Hl Hw E. apply B.
      rewrite <- (@index_inj cfg Hnames (fst l) a w v Hw Hv E). apply in_map. assumption.
    - intros [A B]. split; [apply nth_error_Some; congruence|]. intro C. apply in_map_iff in C. destruct C as [l [E C]]. subst a.
      exact (B l v C Hv eq_refl).
  Qed.
  Lemma chosen_max p a v : chosen cfg ord X y p a v ->
    untested vars p a /\ (0 < info_gain vars X y p a)%R /\ forall b, untested vars p b -> (info_gain vars X y p b <= info_gain vars X y p a)%R.
  Proof.
    intros (Hv & P & l1 & l2 & E & Q1 & Q2). split; [|split; [assumption|]].
    - apply (@untested_remaining p a v Hv). apply (Permutation_in _ (Hord p (remaining cfg p))). rewrite E. apply in_or_app. right. left. reflexivity.
    - intros b Hb. destruct (nth_error vars b) as [w|] eqn:Hw; [|apply nth_error_None in Hw; destruct Hb; lia].
      rewrite (@untested_remaining p b w Hw) in Hb. apply (Permutation_in _ (Permutation_sym (Hord p (remaining cfg p)))) in Hb.
      rewrite E in Hb. apply in_app_or in Hb. destruct Hb as [Hb|[Hb|Hb]].
      + apply Rlt_le. exact (Q1 b w Hw Hb).
      + rewrite (@index_inj cfg Hnames b a w v Hw Hv (eq_sym Hb)). apply Rle_refl.
      + exact (Q2 b w Hw Hb).
  Qed.
  Lemma node_inner p n : node_at t p n -> t_leaf n = false ->
    exists a v, nth_error vars a = Some v /\ chosen cfg ord X y p a v /\ stops cfg X y p (info_gain vars X y p a) (plen p) = false /\
      0 < mass vars X p /\
      map t_value (t_children n) = map (fun i => Some (a, i)) (seq 0 (List.length (fv_sets v))) /\
      Forall (fun c => t_var c = Some v) (t_children n).
  Proof.
    intros H L. destruct (node_cases H) as [(node & Fn & _)|(q & l & v & node & par & -> & Hv & -> & M0 & _)]; [|discriminate].
    destruct (@fitted_cases cfg ord X y Hord Hnames Hth p node n Fn) as [[-> _]|(a & v & cs & Ch & St & -> & FF)]; [discriminate|].
    exists a, v. split; [apply Ch|]. split; [assumption|]. split; [assumption|]. split; [apply Fn|]. cbn [t_children].
    assert (G : Forall2 (fun i c => t_value c = Some (a, i) /\ t_var c = Some v) (seq 0 (List.length (fv_sets v))) cs).
    { eapply Forall2_impl; [|exact FF]. intros i c [[_ Fc]|[_ ->]]; [|split; reflexivity].
      destruct (@fitted_value cfg ord X y Hord Hnames Hth _ _ _ Fc) as (A & B & _). auto. }
    clear - G. induction G as [|i c l cs [A B] G [IH1 IH2]]; [split; [reflexivity|constructor]|]. cbn [map]. rewrite A, IH1. split; [reflexivity|constructor; assumption].
  Qed.
  Lemma node_at_snoc t0 p l n : node_at t0 (p ++ [l]) n -> exists m, node_at t0 p m /\ t_leaf m = false /\ In n (t_children m) /\ t_value n = Some l.
  Proof.
    revert t0. induction p as [|l0 p IH]; intros t0 H; cbn [app] in H.
    - inversion H as [|? c ? ? ? L C V N]; subst. inversion N; subst. exists t0. split; [constructor|auto].
    - inversion H as [|? c ? ? ? L C V N]; subst. destruct (IH c N) as (m & A & B). exists m. split; [|assumption].
      econstructor; eassumption.
  Qed.
  Lemma node_path p n : node_at t p n -> NoDup (map fst p) /\ (forall l, In l p -> exists v s, nth_error vars (fst l) = Some v /\ nth_error (fv_sets v) (snd l) = Some s) /\
    (Z.of_nat (List.length p) <= Z.max 0 (f_max_depth cfg))%Z.
  Proof.
    revert n. induction p as [|l p IH] using rev_ind; intros n H; [split; [constructor|split; [intros ? []|cbn; lia]]|].
    destruct (@node_at_snoc t p l n H) as (m & Hm & Lm & Cm & Vm).
    destruct (IH m Hm) as (A & B & C). destruct (@node_inner p m Hm Lm) as (a & v & Hv & Ch & St & M & Vs & _).
    assert (E : exists i, In i (seq 0 (List.length (fv_sets v))) /\ l = (a, i)).
    { apply (in_map t_value) in Cm. rewrite Vs, Vm in Cm. apply in_map_iff in Cm. destruct Cm as [i [E Hi]]. injection E as <-. eauto. }
    destruct E as [i [Hi ->]]. destruct (chosen_max Ch) as ((U1 & U2) & _). split; [|split].
    - rewrite map_app. apply NoDup_snoc; assumption.
    - intros l Hl. apply in_app_or in Hl. destruct Hl as [Hl|[<-|[]]]; [auto|]. cbn [fst snd]. exists v.
      apply in_seq in Hi. destruct (nth_error (fv_sets v) i) as [s|] eqn:Es; [eauto|]. apply nth_error_None in Es. lia.
    - assert (NL : ~ (limit_met cfg X y p \/ (info_gain vars X y p a < f_threshold cfg)%R)) by (intro Q; rewrite <- stops_limit in Q; congruence).
      unfold limit_met in NL. rewrite app_length. cbn [List.length]. lia.
  Qed.
  Lemma node_leaf p n : node_at t p n -> t_leaf n = true -> 0 < mass vars X p ->
    limit_met cfg X y p \/
    ((forall a, untested vars p a -> (info_gain vars X y p a < f_threshold cfg)%R) \/
     (forall a, untested vars p a -> (info_gain vars X y p a <= 0)%R) /\ (0 < f_threshold cfg)%R).
  Proof.
    intros H L M. destruct (node_cases H) as [(node & Fn & _)|(q & l & v & node & par & -> & Hv & -> & M0 & _)]; [|rewrite M0 in M; exfalso; qlra].
    destruct (@fitted_cases cfg ord X y Hord Hnames Hth p node n Fn) as [[-> [(a & v & Ch & St)|[Q St]]]|(a & v & cs & Ch & St & -> & FF)]; [| |discriminate].
    - rewrite stops_limit in St. destruct St as [St|St]; [left; assumption|]. right. left. intros b Hb.
      destruct (chosen_max Ch) as (_ & _ & Mx). specialize (Mx b Hb). unfold vars in *. lra.
    - rewrite stops_limit in St. destruct St as [St|St]; [left; assumption|]. right. right. split; [|assumption]. intros b Hb.
      destruct (nth_error vars b) as [w|] eqn:Hw; [|apply nth_error_None in Hw; destruct Hb; lia].
      apply (Q b w Hw). apply (@untested_remaining p b w Hw). assumption.
  Qed.
End Trained.

(** ** totality *)
Lemma membership_total vars X : readable vars X -> wide vars X -> exists XM, dataset_membership X vars = Ok XM.
Proof.
  intros R W. unfold dataset_membership.
  assert (E : exists l, mapM (fun iv => let '(i, v) := iv in do col <- column X i; do d <- var_membership v col; Ok (fv_name v, d)) (enumerate vars) = Ok l).
  { apply mapM_total. intros [i v] Hin. apply enumerate_In in Hin.
    assert (I : forall row, In row X -> (i < List.length row)%nat).
    { intros row Hr. specialize (W row Hr). assert (nth_error vars i <> None) by congruence. apply nth_error_Some in H. lia. }
    assert (C : exists col, column X i = Ok col /\ forall x, In x col -> exists row, In row X /\ nth_error row i = Some x).
    { clear - I. unfold column. induction X as [|row X' IH]; [exists []; split; [reflexivity|intros ? []]|].
      destruct IH as [col [E P]]; [intros; apply I; right; assumption|]. specialize (I row (or_introl eq_refl)). apply nth_error_Some in I.
      destruct (nth_error row i) as [x|] eqn:Ex; [|congruence]. exists (x :: col). cbn [mapM]. rewrite Ex. cbn [bind ret_opt]. rewrite E. split; [reflexivity|].
      intros z [<-|Hz]; [exists row; split; [left; reflexivity|assumption]|]. destruct (P z Hz) as [r [A B]]. exists r. split; [right|]; assumption. }
    destruct C as [col [-> P]]. cbn [bind].
    assert (V : exists d, var_membership v col = Ok d).
    { unfold var_membership.
      assert (M : exists l, mapM (fun s => do m <- membership_col s col; Ok (fs_name s, m)) (fv_sets v) = Ok l).
      { apply mapM_total. intros s Hs. assert (Q : exists m, membership_col s col = Ok m).
        { unfold membership_col. apply mapM_total. intros x Hx. destruct (P x Hx) as [row [A B]].
          destruct (R row A i v s Hin Hs) as [x' [d [C D]]]. rewrite B in C. injection C as <-. eauto. }
        destruct Q as [m ->]. cbn. eauto. }
      destruct M as [l ->]. cbn. eauto. }
    destruct V as [d ->]. cbn. eauto. }
  destruct E as [l E]. rewrite E. cbn. eauto.
Qed.
Section Outcome.
  Variable cfg : fdt_cfg.
  Variable ord : list (nat * nat) -> list string -> list string.
  Variable X : list (list cell).
  Variable y : list Z.
  Hypothesis Hord : forall p s, Permutation (ord p s) s.
  Hypothesis Hnames : distinct_names (f_vars cfg).
  Hypothesis Hlen : List.length X = List.length y.
  Hypothesis Hy : y <> [].
  Hypothesis HR : readable (f_vars cfg) X.
  Hypothesis HW : wide (f_vars cfg) X.
  Hypothesis Hth : (0 < f_threshold cfg)%R \/ ~ In ""%string (map fv_name (f_vars cfg)).
  Let vars := f_vars cfg.
  Lemma fit_exact root : fit cfg ord root X y =
    fit_node cfg ord X y (S (List.length (f_features cfg))) (root_of root (List.length y)) [] (remaining cfg []) (plen []).
  Proof.
    unfold fit. rewrite Hlen, Nat.eqb_refl. cbn [negb orb]. destruct (Nat.eqb_spec (List.length y) 0) as [E|E]; [destruct y; [congruence|discriminate]|].
    destruct (membership_total HR HW) as [XM EM]. rewrite EM. cbn [bind].
    destruct (@dataset_membership_exact (f_vars cfg) X XM Hnames EM) as [-> _]. reflexivity.
  Qed.
  Lemma root_mass : 0 < mass vars X [].
  Proof. rewrite mass_nil, Hlen. apply qn_pos. destruct y; [congruence|cbn; lia]. Qed.
  Lemma root_mu root : t_mu (root_of root (List.length y)) = acts vars X [].
  Proof. cbn. rewrite acts_nil, Hlen. reflexivity. Qed.
  Definition stuck (p : list (nat * nat)) : Prop :=
    0 < mass vars X p /\ ~ limit_met cfg X y p /\ (f_threshold cfg <= 0)%R /\ forall a, untested vars p a -> (info_gain vars X y p a <= 0)%R.
  Lemma not_stops p g : stops cfg X y p g (plen p) = false -> ~ limit_met cfg X y p /\ (f_threshold cfg <= g)%R.
  Proof.
    unfold stops, stop_met, limit_met. rewrite (masked_reaching (f_vars cfg) X y p). rewrite !orb_false_iff.
    rewrite <- not_true_iff_false, zunique_lt2, Z.ltb_ge, Z.leb_gt, Rltb_ge. unfold plen. intros [[[A B] C] D]. split; [|assumption].
    intros [E|[E|E]]; [contradiction|lia|lia].
  Qed.
  Lemma untested_rem p a v : nth_error vars a = Some v -> (untested vars p a <-> In (fv_name v) (remaining cfg p)).
  Proof.
    intro Hv. destruct (@remaining_spec cfg p) as (_ & _ & S). rewrite S. unfold untested. split.
    - intros [A B]. split; [apply in_map, (nth_error_In _ _ Hv)|]. intros l w Hl Hw E. apply B.
      rewrite <- (@index_inj cfg Hnames (fst l) a w v Hw Hv E). apply in_map. assumption.
    - intros [A B]. split; [apply nth_error_Some; congruence|]. intro C. apply in_map_iff in C. destruct C as [l [E C]]. subst a.
      exact (B l v C Hv eq_refl).
  Qed.
  Lemma node_outcome fuel : forall p node, (List.length (remaining cfg p) < fuel)%nat -> 0 < mass vars X p -> t_mu node = acts vars X p ->
    (exists n, fit_node cfg ord X y fuel node p (remaining cfg p) (plen p) = Ok n) \/
    ((exists q, stuck q) /\ fit_node cfg ord X y fuel node p (remaining cfg p) (plen p) = Err KeyError).
  Proof.
    induction fuel as [|fuel IH]; intros p node L Hm Hmu; [lia|].
    destruct (@remaining_spec cfg p) as [N [I _]].
    destruct (@partial_fit_cases cfg ord X y Hord Hnames fuel node p (remaining cfg p) (plen p) Hth Hmu Hm N I) as [[Q F]|(a & v & l1 & l2 & Hv & HL & P & Q1 & Q2 & F)]; rewrite F.
    - destruct (stops cfg X y p 0 (plen p)) eqn:S; [left; eauto|]. right. split; [|reflexivity].
      destruct (@not_stops p 0 S) as [A B]. exists p. split; [assumption|]. split; [assumption|]. split; [assumption|].
      intros b Hb. destruct (nth_error vars b) as [w|] eqn:Hw; [|apply nth_error_None in Hw; destruct Hb; lia].
      apply (Q b w Hw). apply (@untested_rem p b w Hw). assumption.
    - destruct (stops cfg X y p _ (plen p)); [left; eauto|]. unfold split_result.
      assert (G : (exists cs, mapM (child_result cfg ord X y fuel p (remaining cfg p) (plen p) a v) (seq 0 (List.length (fv_sets v))) = Ok cs) \/
                  ((exists q, stuck q) /\ mapM (child_result cfg ord X y fuel p (remaining cfg p) (plen p) a v) (seq 0 (List.length (fv_sets v))) = Err KeyError)).
      { generalize (seq 0 (List.length (fv_sets v))). induction l as [|i l IHl]; [left; eexists; reflexivity|]. cbn [mapM].
        assert (C : (exists c, child_result cfg ord X y fuel p (remaining cfg p) (plen p) a v i = Ok c) \/
                    ((exists q, stuck q) /\ child_result cfg ord X y fuel p (remaining cfg p) (plen p) a v i = Err KeyError)).
        { unfold child_result. destruct (qltb 0 _) eqn:B; [|left; eauto]. rewrite qltb_lt in B.
          rewrite <- (@remaining_snoc cfg p a i v Hv), <- (plen_snoc p (a, i)). apply IH; [|assumption|reflexivity].
          assert (R := @remaining_shrinks cfg ord Hord p a i v l1 l2 Hv HL). lia. }
        destruct C as [[c ->]|[T ->]]; cbn [bind]; [|right; split; [assumption|reflexivity]].
        destruct IHl as [[cs ->]|[T ->]]; cbn [bind]; [left; eauto|right; split; [assumption|reflexivity]]. }
      destruct G as [[cs ->]|[T ->]]; cbn [bind]; [left; eauto|right; split; [assumption|reflexivity]].
  Qed.
  Lemma fit_total root : (exists t, fit cfg ord root X y = Ok t) \/ ((exists q, stuck q) /\ fit cfg ord root X y = Err KeyError).
  Proof.
    rewrite fit_exact. apply node_outcome; [|apply root_mass|apply root_mu]. cbn. lia.
  Qed.
  Lemma fit_root_stuck root : stuck [] -> fit cfg ord root X y = Err KeyError.
  Proof.
    intros (Hm & NL & Th & G). rewrite fit_exact. destruct (@remaining_spec cfg []) as [N [I _]].
    destruct (@partial_fit_cases cfg ord X y Hord Hnames (List.length (f_features cfg)) (root_of root (List.length y)) [] (remaining cfg []) (plen []) Hth (root_mu root) Hm N I)
      as [[Q F]|(a & v & l1 & l2 & Hv & HL & P & Q1 & Q2 & F)].
    - rewrite F. destruct (stops cfg X y [] 0 (plen [])) eqn:S; [|reflexivity]. exfalso.
      unfold stops, stop_met in S. rewrite (masked_reaching (f_vars cfg) X y []) in S. rewrite !orb_true_iff, zunique_lt2, Z.ltb_lt, Z.leb_le, Rltb_lt in S.
      unfold limit_met, plen in *. cbn [List.length] in *. destruct S as [[[S|S]|S]|S]; [tauto|tauto|tauto|lra].
    - exfalso. assert (U : untested vars [] a) by (split; [apply nth_error_Some; unfold vars; congruence|intros []]). specialize (G a U). unfold vars in G. lra.
  Qed.
End Outcome.

(** ** the iteration order matters only for ties *)
Section Orders.
  Variable cfg : fdt_cfg.
  Variables ord1 ord2 : list (nat * nat) -> list string -> list string.
  Variable X : list (list cell).
  Variable y : list Z.
  Hypothesis Hord1 : forall p s, Permutation (ord1 p s) s.
  Hypothesis Hord2 : forall p s, Permutation (ord2 p s) s.
  Hypothesis Hnames : distinct_names (f_vars cfg).
  Hypothesis Hth : (0 < f_threshold cfg)%R \/ ~ In ""%string (map fv_name (f_vars cfg)).
  Let vars := f_vars cfg.
  Hypothesis Huniq : forall p a b, untested vars p a -> untested vars p b -> (0 < info_gain vars X y p a)%R ->
    info_gain vars X y p a = info_gain vars X y p b ->
    (forall c, untested vars p c -> (info_gain vars X y p c <= info_gain vars X y p a)%R) -> a = b.
  Lemma order_max ord p a v l1 l2 : (forall p s, Permutation (ord p s) s) -> nth_error vars a = Some v -> ord p (remaining cfg p) = l1 ++ fv_name v :: l2 ->
    (forall b w, nth_error vars b = Some w -> In (fv_name w) l1 -> (info_gain vars X y p b < info_gain vars X y p a)%R) ->
    (forall b w, nth_error vars b = Some w -> In (fv_name w) l2 -> (info_gain vars X y p b <= info_gain vars X y p a)%R) ->
    untested vars p a /\ forall b, untested vars p b -> (info_gain vars X y p b <= info_gain vars X y p a)%R.
  Proof.
    intros Ho Hv E Q1 Q2. split.
    - apply (@untested_rem cfg Hnames p a v Hv). apply (Permutation_in _ (Ho p (remaining cfg p))). rewrite E. apply in_or_app. right. left. reflexivity.
    - intros b Hb. destruct (nth_error vars b) as [w|] eqn:Hw; [|apply nth_error_None in Hw; destruct Hb; lia].
      apply (@untested_rem cfg Hnames p b w Hw) in Hb. apply (Permutation_in _ (Permutation_sym (Ho p (remaining cfg p)))) in Hb.
      rewrite E in Hb. apply in_app_or in Hb. destruct Hb as [Hb|[Hb|Hb]].
      + apply Rlt_le. exact (Q1 b w Hw Hb).
      + rewrite (@index_inj cfg Hnames b a w v Hw Hv (eq_sym Hb)). apply Rle_refl.
      + exact (Q2 b w Hw Hb).
  Qed.
  Lemma order_node fuel : forall p node, 0 < mass vars X p -> t_mu node = acts vars X p ->
    fit_node cfg ord1 X y fuel node p (remaining cfg p) (plen p) = fit_node cfg ord2 X y fuel node p (remaining cfg p) (plen p).
  Proof.
    induction fuel as [|fuel IH]; intros p node Hm Hmu; [reflexivity|].
    destruct (@remaining_spec cfg p) as [N [I _]].
    destruct (@partial_fit_cases cfg ord1 X y Hord1 Hnames fuel node p (remaining cfg p) (plen p) Hth Hmu Hm N I) as [[Q F]|(a & v & l1 & l2 & Hv & HL & P & Q1 & Q2 & F)];
    destruct (@partial_fit_cases cfg ord2 X y Hord2 Hnames fuel node p (remaining cfg p) (plen p) Hth Hmu Hm N I) as [[Q' F']|(a' & v' & l1' & l2' & Hv' & HL' & P' & Q1' & Q2' & F')];
      rewrite F, F'.
    - reflexivity.
    - exfalso. assert (In (fv_name v') (remaining cfg p)) by (apply (Permutation_in _ (Hord2 p (remaining cfg p))); rewrite HL'; apply in_or_app; right; left; reflexivity).
      specialize (Q a' v' Hv' H). lra.
    - exfalso. assert (In (fv_name v) (remaining cfg p)) by (apply (Permutation_in _ (Hord1 p (remaining cfg p))); rewrite HL; apply in_or_app; right; left; reflexivity).
      specialize (Q' a v Hv H). lra.
    - destruct (@order_max ord1 p a v l1 l2 Hord1 Hv HL Q1 Q2) as [U M]. destruct (@order_max ord2 p a' v' l1' l2' Hord2 Hv' HL' Q1' Q2') as [U' M'].
      assert (a = a') by (apply (Huniq U U' P); [apply Rle_antisym; [apply M', U|apply M, U']|assumption]). subst a'.
      assert (v = v') by congruence. subst v'.
      destruct (stops cfg X y p _ _); [reflexivity|]. unfold split_result.
      match goal with |- bind ?u _ = bind ?w _ => assert (EQ : u = w); [|rewrite EQ; reflexivity] end.
      apply mapM_ext. intros i _. unfold child_result. destruct (qltb 0 _) eqn:B; [|reflexivity]. rewrite qltb_lt in B.
      rewrite <- (@remaining_snoc cfg p a i v Hv), <- (plen_snoc p (a, i)). apply IH; [assumption|reflexivity].
  Qed.
  Lemma order_fit root : fit cfg ord1 root X y = fit cfg ord2 root X y.
  Proof.
    unfold fit. destruct (Nat.eqb_spec (List.length X) (List.length y)) as [L|L]; cbn [negb orb]; [|reflexivity].
    destruct (Nat.eqb_spec (List.length y) 0) as [E|E]; [reflexivity|].
    destruct (dataset_membership X (f_vars cfg)) as [XM|] eqn:EM; cbn [bind]; [|reflexivity].
    destruct (@dataset_membership_exact (f_vars cfg) X XM Hnames EM) as [-> _].
    apply (@order_node (S (List.length (f_features cfg))) [] (root_of root (List.length y))).
    - apply (@root_mass cfg X y L). intros ->. apply E. reflexivity.
    - apply (@root_mu cfg X y L root).
  Qed.
End Orders.

(** ** training never reads the t-norm or the voting method *)
Lemma fit_ignores_tnorm vars th md me tn tn' vt vt' ord root X y :
  fit (mkFDT vars th md me tn vt) ord root X y = fit (mkFDT vars th md me tn' vt') ord root X y.
Proof.
  unfold fit. cbn [f_vars]. destruct (_ || _); [reflexivity|]. destruct (dataset_membership X vars) as [XM|]; cbn [bind]; [|reflexivity].
  unfold f_features. cbn [f_vars]. generalize (S (List.length (nodup string_dec (map fv_name vars)))) as fuel.
  generalize (nodup string_dec (map fv_name vars)) as feats. generalize 0%Z as depth.
  match goal with |- forall depth feats fuel, partial_fit _ _ _ _ _ ?n _ _ _ = _ => generalize n end. generalize (@nil (nat * nat)) as p.
  intros p node depth feats fuel. revert p node depth feats. induction fuel as [|fuel IH]; intros p node depth feats; [reflexivity|].
  cbn [partial_fit]. destruct (max_f_gain _ _ _ _ _) as [[[att gain] cm]|]; cbn [bind]; [|reflexivity].
  unfold stop_met. cbn [f_min_examples f_max_depth f_threshold f_vars]. destruct (_ || _); [reflexivity|].
  destruct (ret_opt KeyError (dget att XM)) as [sets|]; cbn [bind]; [|reflexivity].
  match goal with |- bind ?u _ = bind ?w _ => assert (EQ : u = w); [|rewrite EQ; reflexivity] end.
  apply mapM_ext. intros [i value] _. destruct (negb _); [reflexivity|].
  destruct (ret_opt KeyError (dget att _)) as [a|]; cbn [bind]; [|reflexivity].
  destruct (ret_opt IndexError _) as [v|]; cbn [bind]; [|reflexivity].
  destruct (ret_opt KeyError (dget value cm)) as [m|]; cbn [bind]; [|reflexivity].
  destruct (qltb 0 _); [apply IH|reflexivity].
Qed.
