(** * Proofs about rows without fuzziness: the predicted class *)
From Verif Require Import Prelude M_Fuzzy M_Discretize M_Rule M_FDT S_Rule S_FDT S_Crisp P_FuzzySet P_FuzzyVar P_Entropy P_Rule P_FDT P_FDT2 P_FDT3 P_FDT4 P_Crisp.
Set Implicit Arguments.
Open Scope Qc_scope.

Lemma dget_table A (EA : EqDec A) B (f : A -> B) (L : list A) c : In c L -> dget c (map (fun c => (c, f c)) L) = Some (f c).
Proof.
  induction L as [|x L IH]; intro H; [destruct H|]. cbn [map dget fst]. unfold dget in *. cbn.
  destruct (eqb c x) eqn:E; [apply eqb_eq in E; subst x; reflexivity|]. apply IH. destruct H as [->|H]; [|assumption].
  rewrite eqb_refl in E. discriminate.
Qed.
Lemma zunique_ne y : y <> [] -> zunique y <> [].
Proof. destruct y as [|c y]; [congruence|]. intros _ E. assert (H : In c (zunique (c :: y))) by (apply zunique_In; left; reflexivity). rewrite E in H. destruct H. Qed.
Lemma best_class_ext classes f g c : (forall c, In c classes -> f c = g c) -> best_class classes f c -> best_class classes g c.
Proof. intros E [A B]. split; [assumption|]. intros c' H. rewrite <- !E by assumption. apply B, H. Qed.

(** the class predicted for one crisp row: the best one at the only leaf it is inside of *)
Lemma predict_only cfg ord X y t row : trained cfg ord X y t -> crisp_norm (f_tnorm cfg) -> crisp (f_vars cfg) row -> readable (f_vars cfg) [row] ->
  exists l1 p n l2 c, leaves t = l1 ++ (p, n) :: l2 /\ inside (f_vars cfg) row p = true /\
    (forall q m, In (q, m) (l1 ++ l2) -> inside (f_vars cfg) row q = false) /\
    predict cfg t [row] = Ok [c] /\ best_class (zunique y) (leaf_weight n) c.
Proof.
  intros T N C R. assert (Hs := crisp_sets C). destruct (trained_wf T Hs) as [W V]. destruct (trained_fitted T) as (_ & Hy & _).
  destruct (one_leaf C (trained_complete T)) as (l1 & p & n & l2 & E & Ip & Iq).
  destruct (@predict_spec cfg t (zunique y) [row] W V (zunique_sorted y) (zunique_NoDup y) (zunique_ne Hy) R) as [ps [Ep F]].
  inversion F as [|r c l l' B F' E1 E2]; subst. inversion F'; subst.
  exists l1, p, n, l2, c. split; [assumption|]. split; [assumption|]. split; [assumption|]. split; [assumption|].
  apply (best_class_ext (f := row_support cfg t row)); [|exact B]. intros c' _.
  apply (@only_support cfg t row l1 p n l2 c' N C E Ip); [|assumption].
  apply (@leaf_weight_01 (f_vars cfg) (zunique y) t p n c' W). rewrite E. apply in_or_app. right. left. reflexivity.
Qed.

(** with crisp training data the weights of a leaf are relative frequencies *)
Lemma leaf_counts cfg ord X y t p n : trained cfg ord X y t -> (forall v, In v (f_vars cfg) -> fv_sets v <> []) ->
  (forall row, In row X -> crisp (f_vars cfg) row) -> In (p, n) (leaves t) ->
  exists q, members (f_vars cfg) X y q <> [] /\
    (q = p \/ (members (f_vars cfg) X y p = [] /\ exists l, p = q ++ [l])) /\
    forall c, In c (zunique y) -> leaf_weight n c = frequency (members (f_vars cfg) X y q) c / qn (List.length (members (f_vars cfg) X y q)).
Proof.
  intros T Hs C Hin. destruct (trained_wf T Hs) as [W V]. destruct (trained_fitted T) as (HL & _).
  apply (@leaves_node_at _ _ t W) in Hin. destruct Hin as [Hn Hl].
  destruct (node_leaf_class T Hn Hl) as (q & E & M & Q). exists q. rewrite (@crisp_mass _ X y q C HL) in M. split; [|split].
  - intro Z. rewrite Z in M. cbn in M. rewrite qn_0 in M. qlra.
  - destruct Q as [[_ Q]|[Q1 Q2]]; [left; assumption|right]. split; [|assumption]. rewrite (@crisp_mass _ X y p C HL) in Q1. rewrite <- qn_0, qn_inj in Q1.
    destruct (members (f_vars cfg) X y p); [reflexivity|discriminate].
  - intros c Hc. unfold leaf_weight. rewrite E. unfold class_dist. rewrite dget_table by assumption. unfold share.
    rewrite (@crisp_class_mass _ X y q c C HL), (@crisp_mass _ X y q C HL). reflexivity.
Qed.
Lemma best_frequency classes l f c : l <> [] -> (forall c, In c classes -> f c = frequency l c / qn (List.length l)) ->
  best_class classes f c -> best_class classes (frequency l) c.
Proof.
  intros Hl E B. assert (P : 0 < qn (List.length l)) by (apply qn_pos; destruct l; [congruence|cbn; lia]).
  assert (P' : qn (List.length l) <> 0) by (intro Z; rewrite Z in P; qlra).
  apply (@best_class_scale classes (fun c => frequency l c / qn (List.length l)) (frequency l) (qn (List.length l)) c).
  - assumption.
  - intro c'. field. assumption.
  - revert B. apply best_class_ext. assumption.
Qed.

(** ** accuracy on the training data *)
Lemma only_sum vars row Ls (k : Qc) : only vars row Ls -> qsum (map (fun pl : list (nat * nat) * tree => if inside vars row (fst pl) then k else 0) Ls) = k.
Proof.
  intros (l1 & p & n & l2 & -> & Ip & Iq). rewrite map_app. cbn [map fst]. rewrite qsum_app, qsum_cons, Ip.
  rewrite !qsum_map_zero; [ring| |]; intros [q m] H; cbn [fst]; rewrite (Iq q m); try reflexivity; apply in_or_app; auto.
Qed.
Lemma partition_sum vars Ls (f : list cell * Z -> Qc) D : (forall rc, In rc D -> only vars (fst rc) Ls) ->
  qsum (map f D) = qsum (map (fun pl => qsum (map (fun rc => if inside vars (fst rc) (fst pl) then f rc else 0) D)) Ls).
Proof.
  induction D as [|rc D IH]; intro H.
  - cbn [map]. rewrite qsum_map_zero; [reflexivity|]. reflexivity.
  - cbn [map]. rewrite qsum_cons. rewrite IH by (intros; apply H; right; assumption).
    rewrite <- (only_sum (f rc) (H rc (or_introl eq_refl))) at 1. rewrite <- qsum_map_plus. reflexivity.
Qed.
Lemma members_sum vars D p c : qsum (map (fun rc : list cell * Z => if inside vars (fst rc) p then (if Z.eqb (snd rc) c then 1 else 0) else 0) D)
  = frequency (map snd (filter (fun rc => inside vars (fst rc) p) D)) c.
Proof.
  unfold frequency. induction D as [|[r k] D IH]; [reflexivity|]. cbn [map filter fst snd]. rewrite qsum_cons, IH. destruct (inside vars r p); cbn [map snd count_occ]; [|ring].
  destruct (Z.eqb_spec k c) as [->|Dk]; destruct (Z.eq_dec _ c) as [E|E]; try congruence; [rewrite qn_S; reflexivity|ring].
Qed.
Lemma frequency_sum (D : list (list cell * Z)) c : qsum (map (fun rc => if Z.eqb (snd rc) c then 1 else 0) D) = frequency (map snd D) c.
Proof.
  unfold frequency. induction D as [|[r k] D IH]; [reflexivity|]. cbn [map snd]. rewrite qsum_cons, IH. cbn [count_occ].
  destruct (Z.eqb_spec k c) as [->|Dk]; destruct (Z.eq_dec _ c) as [E|E]; try congruence; [rewrite qn_S; reflexivity|ring].
Qed.

Lemma rows_map cfg ord X y t X' ps (k : list cell -> Z) : trained cfg ord X y t -> (forall v, In v (f_vars cfg) -> fv_sets v <> []) -> readable (f_vars cfg) X' ->
  predict cfg t X' = Ok ps -> (forall row, In row X' -> predict cfg t [row] = Ok [k row]) -> ps = map k X'.
Proof.
  intros T Hs R E K. destruct (trained_wf T Hs) as [W V]. destruct (trained_fitted T) as (_ & Hy & _).
  assert (A := @predict_rowwise cfg t (zunique y) X' ps W V (zunique_sorted y) (zunique_NoDup y) (zunique_ne Hy) R E). clear E R.
  induction A as [|row c X'' ps' H A IH]; [reflexivity|]. cbn [map]. rewrite (K row (or_introl eq_refl)) in H. injection H as ->.
  rewrite IH; [reflexivity|]. intros; apply K; right; assumption.
Qed.
Lemma readable_sub vars X X' : incl X' X -> readable vars X -> readable vars X'.
Proof. intros I R row H. apply R, I, H. Qed.
Lemma correct_count (k : list cell -> Z) X y : List.length X = List.length y ->
  qn (countb (fun p => Z.eqb (fst p) (snd p)) (combine (map k X) y)) = qsum (map (fun rc => if Z.eqb (snd rc) (k (fst rc)) then 1 else 0) (combine X y)).
Proof.
  revert y. unfold countb. induction X as [|r X IH]; intros [|c y] L; try discriminate; [reflexivity|]. cbn [map combine filter fst snd].
  rewrite qsum_cons, <- (IH y) by (cbn in L; lia). rewrite (Z.eqb_sym c). destruct (Z.eqb (k r) c); cbn [List.length]; [rewrite qn_S; reflexivity|ring].
Qed.
Lemma snd_combine A B (X : list A) (y : list B) : List.length X = List.length y -> map snd (combine X y) = y.
Proof. revert y. induction X as [|r X IH]; intros [|c y] L; try discriminate; [reflexivity|]. cbn [combine map snd]. rewrite IH by (cbn in L; lia). reflexivity. Qed.

Lemma training_score cfg ord X y t c s : trained cfg ord X y t -> crisp_norm (f_tnorm cfg) ->
  (forall row, In row X -> crisp (f_vars cfg) row) -> readable (f_vars cfg) X -> fdt_score cfg t X y = Ok s ->
  frequency y c / qn (List.length y) <= s.
Proof.
  intros T N C R HS. destruct (trained_fitted T) as (HL & Hy & _).
  assert (Hs : forall v, In v (f_vars cfg) -> fv_sets v <> []).
  { destruct X as [|r X]; [destruct y; [congruence|discriminate]|]. apply (@crisp_sets (f_vars cfg) r). apply C. left. reflexivity. }
  assert (P : 0 < qn (List.length y)) by (apply qn_pos; destruct y; [congruence|cbn; lia]).
  set (k := fun row => match predict cfg t [row] with Ok (c :: _) => c | _ => 0%Z end).
  assert (K : forall row, In row X -> exists l1 p n l2, leaves t = l1 ++ (p, n) :: l2 /\ inside (f_vars cfg) row p = true /\
    (forall q m, In (q, m) (l1 ++ l2) -> inside (f_vars cfg) row q = false) /\
    predict cfg t [row] = Ok [k row] /\ best_class (zunique y) (leaf_weight n) (k row)).
  { intros row H. destruct (predict_only T N (C row H)) as (l1 & p & n & l2 & c' & A & B & D & E & F).
    - apply (@readable_sub _ X); [intros r [<-|[]]; assumption|assumption].
    - exists l1, p, n, l2. unfold k. rewrite E. repeat (split; [assumption|]). split; [reflexivity|assumption]. }
  unfold fdt_score in HS. destruct (negb _ || _); [discriminate|]. destruct (predict cfg t X) as [ps|] eqn:Ep; [|discriminate]. cbn [bind] in HS. injection HS as <-.
  assert (Eps : ps = map k X).
  { apply (@rows_map cfg ord X y t X ps k T Hs R Ep). intros row H. destruct (K row H) as (? & ? & ? & ? & _ & _ & _ & E & _). exact E. }
  subst ps. unfold score. change (zip (map k X) y) with (combine (map k X) y). rewrite (@correct_count k X y HL).
  assert (G : frequency y c <= qsum (map (fun rc => if Z.eqb (snd rc) (k (fst rc)) then 1 else 0) (combine X y))).
  2:{ apply (Qcdiv_le _ _ P). rewrite Qcdiv_mult; [assumption|]. intro Z. rewrite Z in P. qlra. }
  rewrite <- (@snd_combine _ _ X y HL) at 1. rewrite <- frequency_sum.
  assert (On : forall rc, In rc (combine X y) -> only (f_vars cfg) (fst rc) (leaves t)).
  { intros [r z] H. apply in_combine_l in H. apply (one_leaf (C r H) (trained_complete T)). }
  rewrite !(@partition_sum (f_vars cfg) (leaves t) _ _ On). apply qsum_map_le. intros [p n] Hpn. cbn [fst].
  rewrite members_sum. fold (members (f_vars cfg) X y p).
  destruct (members (f_vars cfg) X y p) as [|m0 ms] eqn:Em.
  { apply qsum_nonneg. apply Forall_forall. intros x Hx. apply in_map_iff in Hx. destruct Hx as [[r z] [<- _]]. cbn [fst snd]. destruct (inside _ _ _); [destruct (Z.eqb _ _)|]; discriminate. }
  assert (Ex : exists r0, In r0 X /\ inside (f_vars cfg) r0 p = true).
  { assert (H : In m0 (members (f_vars cfg) X y p)) by (rewrite Em; left; reflexivity). unfold members in H. apply in_map_iff in H. destruct H as [[r z] [_ H]].
    apply filter_In in H. destruct H as [H I]. apply in_combine_l in H. exists r. auto. }
  destruct Ex as (r0 & Hr0 & I0).
  destruct (@leaf_counts cfg ord X y t p n T Hs C Hpn) as (q & Mq & Q & Wq). destruct Q as [->|[Q _]]; [|rewrite Q in Em; discriminate].
  assert (Same : forall r, In r X -> inside (f_vars cfg) r p = true -> best_class (zunique y) (leaf_weight n) (k r)).
  { intros r Hr Ir. destruct (K r Hr) as (l1 & p' & n' & l2 & E & _ & D & _ & F). rewrite E in Hpn. apply in_app_or in Hpn. destruct Hpn as [Hp|[Hp|Hp]].
    - rewrite (D p n) in Ir; [discriminate|]. apply in_or_app; auto.
    - injection Hp as -> ->. exact F.
    - rewrite (D p n) in Ir; [discriminate|]. apply in_or_app; auto. }
  assert (E1 : map (fun rc => if inside (f_vars cfg) (fst rc) p then (if Z.eqb (snd rc) (k (fst rc)) then 1 else 0) else 0) (combine X y)
             = map (fun rc => if inside (f_vars cfg) (fst rc) p then (if Z.eqb (snd rc) (k r0) then 1 else 0) else 0) (combine X y)).
  { apply map_ext_in. intros [r z] H. cbn [fst snd]. destruct (inside (f_vars cfg) r p) eqn:I; [|reflexivity]. apply in_combine_l in H.
    rewrite (@best_class_fun _ _ _ _ (Same r H I) (Same r0 Hr0 I0)). reflexivity. }
  rewrite E1, members_sum. fold (members (f_vars cfg) X y p). rewrite <- Em.
  assert (B := best_frequency Mq Wq (Same r0 Hr0 I0)).
  destruct (in_dec Z.eq_dec c (zunique y)) as [Hc|Hc]; [apply B; assumption|].
  assert (Z0 : frequency (members (f_vars cfg) X y p) c = 0).
  { unfold frequency. rewrite (proj1 (count_occ_not_In Z.eq_dec _ c)); [reflexivity|]. intro H. apply Hc, zunique_In. unfold members in H.
    apply in_map_iff in H. destruct H as [[r z] [<- H]]. apply filter_In in H. destruct H as [H _]. apply in_combine_r in H. exact H. }
  rewrite Z0. apply qn_nonneg.
Qed.

(** ** categorical variables *)
Lemma categorical_crisp vars row : (forall a v, nth_error vars a = Some v -> categorical v /\ exists x, nth_error row a = Some x /\ known v x) ->
  crisp vars row /\ readable vars [row].
Proof.
  intro H. split.
  - intros a v Hv. destruct (H a v Hv) as [(nvs & E & ND) (x & Hx & m & Hm)]. destruct (In_nth_error _ _ Hm) as [i Hi].
    exists i. split; [apply nth_error_Some; congruence|]. unfold lit_degree. cbn [fst snd]. rewrite Hv, Hx, Hi. cbn [membership]. rewrite eqb_refl. split; [reflexivity|].
    intros j Dj. rewrite E in *. rewrite nth_error_map in *. destruct (nth_error nvs i) as [[n1 x1]|] eqn:E1; [|discriminate]. cbn in Hi. injection Hi as -> ->.
    destruct (nth_error nvs j) as [[n2 x2]|] eqn:E2; cbn [option_map]; [|reflexivity]. cbn [membership fst snd].
    destruct (eqb x x2) eqn:B; [|reflexivity]. apply eqb_eq in B. subst x2. exfalso. apply Dj. rewrite NoDup_nth_error in ND. symmetry. apply ND.
    + rewrite map_length. apply nth_error_Some. congruence.
    + rewrite !nth_error_map, E1, E2. reflexivity.
  - intros r [<-|[]] a v s Hv Hs. destruct (H a v Hv) as [(nvs & E & ND) (x & Hx & _)]. rewrite E in Hs. apply in_map_iff in Hs. destruct Hs as [[n z] [<- _]].
    exists x. eexists. split; [assumption|reflexivity].
Qed.
