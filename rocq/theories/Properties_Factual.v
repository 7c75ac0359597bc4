(** * Properties C48-C51: factual explanations *)
From Verif Require Import Prelude M_Fuzzy M_Rule M_Metrics M_Factual S_Factual P_Metrics P_Factual.
Open Scope string_scope.
Open Scope list_scope.
Open Scope Qc_scope.

(** In all statements [mt] is rule.matching on the instance (of ordinary or multi-value rules)
    and [deg] its values on the rules at hand.  Example: one feature, three rules. *)
Definition fx_m : imem := [("x", [("low", qc 3 4); ("high", qc 1 4)]); ("z", [("a", 1); ("b", 0)])].
Definition fx_r1 : rule string := mkR [("x", "low")] 1%Z (qc 4 5).
Definition fx_r2 : rule string := mkR [("x", "high"); ("z", "a")] 1%Z 1.
Definition fx_r3 : rule string := mkR [("x", "high")] 0%Z 1.
Definition fx_r4 : rule string := mkR [("z", "a")] 1%Z (qc 2 5).
Definition fx_rules := [fx_r1; fx_r2; fx_r3; fx_r4].

(** ** C48 *)
Theorem C48_m_factual : forall V (mt : rule V -> res Qc) deg rules c,
  (forall r, In r rules -> mt r = Ok (deg r)) -> class_fired deg c rules <> [] ->
  let mean := mass_of deg (class_fired deg c rules) / qn (List.length (class_fired deg c rules)) in
  exists f, m_factual mt rules c = Ok f /\ f <> [] /\
    (forall r, In r f <-> In r rules /\ qc 1 1000 < deg r /\ r_cons r = c /\ mean <= ad deg r) /\
    StronglySorted (fun a b => ad deg b <= ad deg a) f /\
    (forall v, filter (fun r => qeqb (ad deg r) v) f = filter (fun r => qeqb (ad deg r) v) (filter (fun r => qleb mean (ad deg r)) (class_fired deg c rules))).
Proof.
  intros V mt deg rules c H N mean. destruct (ranked_sort deg c rules) as (P & S & T). set (s := sort_desc (ad deg) (class_fired deg c rules)) in *.
  assert (L : List.length s = List.length (class_fired deg c rules)) by (apply Permutation_length; assumption).
  assert (NZ : qn (List.length s) <> 0). { rewrite L. intro Z. rewrite <- qn_0 in Z. apply qn_inj in Z. destruct (class_fired deg c rules); [congruence|discriminate]. }
  exists (filter (fun r => qleb mean (ad deg r)) s). unfold m_factual. rewrite (sorted_class_spec mt deg c rules H). fold s. cbn [bind].
  rewrite fold_left_qsum, Qcplus_0_l, map_length. unfold pdiv. destruct (qeqb_spec (qn (List.length s)) 0); [contradiction|]. cbn [bind].
  rewrite (mass_perm deg P), L. fold mean. split; [rewrite (map_snd_filter deg (fun a => qleb mean a)); reflexivity|]. split; [|split; [|split]].
  - intro E. assert (A : forall r, In r s -> ad deg r < mean).
    { intros r Hr. apply Qcnot_le_lt. intro Q. assert (K : In r []) by (rewrite <- E; apply filter_In; split; [assumption|apply qleb_le; assumption]). destruct K. }
    assert (B : forall l, l <> [] -> (forall r, In r l -> ad deg r < mean) -> mass_of deg l < qn (List.length l) * mean).
    { clear. induction l as [|r l IH]; intros N A; [congruence|]. rewrite mass_cons. cbn [List.length]. rewrite qn_S. specialize (A r (or_introl eq_refl)) as Ar.
      destruct l as [|r' l]; [unfold mass_of; cbn [map List.length]; rewrite qsum_nil, qn_0; qlra|].
      assert (mass_of deg (r' :: l) < qn (List.length (r' :: l)) * mean) by (apply IH; [discriminate|intros; apply A; right; assumption]).
      replace ((1 + qn (List.length (r' :: l))) * mean) with (mean + qn (List.length (r' :: l)) * mean) by ring. qlra. }
    assert (Ns : s <> []) by (intro E'; rewrite E' in L; destruct (class_fired deg c rules); [congruence|discriminate]).
    specialize (B s Ns A). rewrite (mass_perm deg P), L in B. unfold mean in B at 1.
    assert (Q : qn (List.length (class_fired deg c rules)) * (mass_of deg (class_fired deg c rules) / qn (List.length (class_fired deg c rules))) = mass_of deg (class_fired deg c rules)) by (field; rewrite <- L; assumption).
    rewrite Q in B. qlra.
  - intro r. rewrite filter_In. split.
    + intros [Hr M]. rewrite qleb_le in M. apply (Permutation_in _ P) in Hr. unfold class_fired in Hr. apply filter_In in Hr. destruct Hr as [Hr C]. apply andb_true_iff in C. rewrite qltb_lt, Z.eqb_eq in C. tauto.
    + intros (Hr & D & C & M). rewrite qleb_le. split; [|assumption]. apply (Permutation_in _ (Permutation_sym P)). unfold class_fired. apply filter_In. split; [assumption|].
      apply andb_true_iff. rewrite qltb_lt, Z.eqb_eq. auto.
  - apply filter_sorted. assumption.
  - intro v. rewrite filter_comm, T, filter_comm. reflexivity.
Qed.
Print Assumptions C48_m_factual.

Theorem C48_nothing_fired : forall V (mt : rule V -> res Qc) deg rules c,
  (forall r, In r rules -> mt r = Ok (deg r)) -> class_fired deg c rules = [] -> m_factual mt rules c = Err ZeroDivisionError.
Proof. intros V mt deg rules c H E. unfold m_factual. rewrite (sorted_class_spec mt deg c rules H), E. reflexivity. Qed.
Print Assumptions C48_nothing_fired.

Example C48_instance : m_factual (matching fx_m) fx_rules 1 = Ok [fx_r1] /\
  m_factual (matching fx_m) fx_rules 2 = Err ZeroDivisionError.
Proof. split; vm_compute; reflexivity. Qed.

(** ** C49 *)
Theorem C49_mr_factual : forall V (mt : rule V -> res Qc) deg rules c,
  (forall r, In r rules -> mt r = Ok (deg r)) -> (exists r, In r rules /\ r_cons r <> c) ->
  exists T s k, largest_other deg rules c T /\ ranked deg c rules s /\ (k <= List.length s)%nat /\
    mr_factual mt rules c = Ok (firstn k s) /\
    (* it stops as soon as the total exceeds T *)
    (forall j, (j < k)%nat -> mass_of deg (firstn j s) <= T) /\ ((k < List.length s)%nat -> T < mass_of deg (firstn k s)) /\
    (* no smaller set of fired rules of the class exceeds T, and if any does, so does the result *)
    (forall sub rest, Permutation (sub ++ rest) (class_fired deg c rules) -> T < mass_of deg sub ->
       (k <= List.length sub)%nat /\ ((forall r, In r (class_fired deg c rules) -> 0 <= ad deg r) -> T < mass_of deg (firstn k s))).
Proof.
  intros V mt deg rules c H (r0 & Hr0 & Hc0). pose proof (ranked_sort deg c rules) as RK. set (s := sort_desc (ad deg) (class_fired deg c rules)) in *.
  set (ks := zunique (filter (fun k => negb (Z.eqb k c)) (map (@r_cons V) rules))).
  assert (Nk : map (class_total deg rules) ks <> []).
  { assert (I : In (r_cons r0) ks) by (apply other_classes_In; eauto). destruct ks; [destruct I|discriminate]. }
  destruct (qmaximum_ok Nk) as [T ET]. pose proof (qmaximum_spec _ ET) as [T1 T2].
  destruct (@take_until_spec V deg T s 0) as (k & K1 & K2 & K3 & K4).
  exists T, s, k. split; [|split; [assumption|split; [assumption|split; [|split; [|split]]]]].
  - split.
    + apply in_map_iff in T1. destruct T1 as (q & E & I). apply other_classes_In in I. destruct I as (r & Hr & N & <-). eauto.
    + intros r Hr N. apply T2. apply in_map. apply other_classes_In. eauto.
  - unfold mr_factual. rewrite (sorted_class_spec mt deg c rules H). cbn [bind]. rewrite (robust_spec mt deg rules c H). fold ks. rewrite ET. cbn [bind]. fold s. rewrite K2. reflexivity.
  - intros j Hj. specialize (K3 j Hj). rewrite Qcplus_0_l in K3. assumption.
  - intro Hk. specialize (K4 Hk). rewrite Qcplus_0_l in K4. assumption.
  - intros sub rest P M. destruct RK as (P1 & S1 & _). assert (P' : Permutation (sub ++ rest) s) by (rewrite P; apply Permutation_sym; assumption).
    pose proof (@top_k V deg s sub rest S1 P') as TK. split.
    + destruct (Nat.le_gt_cases k (List.length sub)) as [|Lt]; [assumption|]. exfalso. specialize (K3 _ Lt). rewrite Qcplus_0_l in K3. qlra.
    + intro Nn. destruct (Nat.eq_dec k (List.length s)) as [->|D]; [|specialize (K4 ltac:(lia)); rewrite Qcplus_0_l in K4; assumption].
      rewrite firstn_all. assert (mass_of deg sub <= mass_of deg s).
      { apply (@mass_le_perm V deg sub rest s); [|assumption]. intros r Hr. apply Nn. apply (Permutation_in _ P1). assumption. }
      qlra.
Qed.
Print Assumptions C49_mr_factual.

Theorem C49_single_class : forall V (mt : rule V -> res Qc) deg rules c,
  (forall r, In r rules -> mt r = Ok (deg r)) -> (forall r, In r rules -> r_cons r = c) -> mr_factual mt rules c = Err ValueError.
Proof.
  intros V mt deg rules c H A. unfold mr_factual. rewrite (sorted_class_spec mt deg c rules H). cbn [bind]. rewrite (robust_spec mt deg rules c H).
  replace (filter (fun k => negb (Z.eqb k c)) (map (@r_cons V) rules)) with (@nil Z); [reflexivity|].
  clear H. induction rules as [|r rules IH]; [reflexivity|]. cbn. rewrite A by (left; reflexivity). rewrite Z.eqb_refl. apply IH. intros; apply A; right; assumption.
Qed.
Print Assumptions C49_single_class.
Example C49_instance : mr_factual (matching fx_m) fx_rules 1 = Ok [fx_r1] /\ mr_factual (matching fx_m) fx_rules 0 = Ok [fx_r3] /\
  mr_factual (matching fx_m) [fx_r1; fx_r2] 1 = Err ValueError.
Proof. repeat split; vm_compute; reflexivity. Qed.

(** ** C50 *)
Theorem C50_c_factual : forall V (mt : rule V -> res Qc) deg rules c lam beta,
  (forall r, In r rules -> mt r = Ok (deg r)) -> class_fired deg c rules <> [] -> (forall r, In r (class_fired deg c rules) -> ad deg r <> 0) ->
  exists s k, ranked deg c rules s /\ (k < List.length s)%nat /\ c_factual mt rules c lam beta = Ok (firstn (S k) s) /\
    (forall i, (i < k)%nat -> ~ jump deg lam beta s i) /\ ((S k < List.length s)%nat -> jump deg lam beta s k) /\
    (* with beta the mass is reached or all rules are taken *)
    (forall b, beta = Some b -> b <= mass_of deg (firstn (S k) s) \/ firstn (S k) s = s).
Proof.
  intros V mt deg rules c lam beta H N NZ. pose proof (ranked_sort deg c rules) as RK. set (s := sort_desc (ad deg) (class_fired deg c rules)) in *.
  destruct RK as (P & S1 & T). destruct s as [|r s'] eqn:Es; [apply Permutation_nil in P; congruence|]. rewrite <- Es in *.
  assert (NZs : forall r, In r s -> ad deg r <> 0) by (intros; apply NZ, (Permutation_in _ P); assumption).
  destruct (@take_quotient_spec V deg lam beta s NZs s' 0 r) as (k & K1 & K2 & K3 & K4 & K5); [rewrite Es; reflexivity|rewrite Es; reflexivity|].
  exists s, k. split; [split; [assumption|split; assumption]|]. split; [assumption|]. split; [|split; [|split; [assumption|]]].
  - unfold c_factual. rewrite (sorted_class_spec mt deg c rules H). cbn [bind]. fold s. rewrite Es. cbn [map fst].
    rewrite Es in K3. cbn [firstn] in K3. unfold mass_of in K3 at 1. cbn [map] in K3. rewrite qsum_cons, qsum_nil, Qcplus_0_r in K3. rewrite K3. cbn [bind map snd].
    rewrite Nat.sub_0_r, map_map. cbn [snd firstn]. rewrite map_id. reflexivity.
  - intros i Hi. apply K4; lia.
  - intros b ->. destruct (Nat.eq_dec (S k) (List.length s)) as [E|E]; [right; rewrite E; apply firstn_all|left].
    destruct (K5 ltac:(lia)) as (a & b' & _ & _ & _ & M). assumption.
Qed.
Print Assumptions C50_c_factual.

Lemma ranked_unique V (deg : rule V -> Qc) c rules s s' : ranked deg c rules s -> ranked deg c rules s' -> s = s'.
Proof.
  intros (_ & S1 & F1) (_ & S2 & F2). assert (F : forall v, filter (fun r => qeqb (ad deg r) v) s = filter (fun r => qeqb (ad deg r) v) s') by (intro; rewrite F1, F2; reflexivity).
  clear F1 F2. revert s' S2 F. induction s as [|x s IH]; intros s' S2 F.
  - destruct s' as [|y s']; [reflexivity|]. specialize (F (ad deg y)). cbn in F. rewrite qeqb_refl in F. discriminate.
  - destruct s' as [|y s']; [specialize (F (ad deg x)); cbn in F; rewrite qeqb_refl in F; discriminate|].
    inversion S1 as [|? ? S1' F1]; subst. inversion S2 as [|? ? S2' F2]; subst. rewrite Forall_forall in F1, F2.
    assert (I1 : In x (y :: s')). { assert (Q : In x (filter (fun r => qeqb (ad deg r) (ad deg x)) (x :: s))) by (apply filter_In; split; [left; reflexivity|apply qeqb_refl]). rewrite F in Q. apply filter_In in Q. tauto. }
    assert (I2 : In y (x :: s)). { assert (Q : In y (filter (fun r => qeqb (ad deg r) (ad deg y)) (y :: s'))) by (apply filter_In; split; [left; reflexivity|apply qeqb_refl]). rewrite <- F in Q. apply filter_In in Q. tauto. }
    assert (A : ad deg x = ad deg y).
    { destruct I1 as [->|I1]; [reflexivity|]. destruct I2 as [->|I2]; [reflexivity|]. specialize (F1 _ I2). specialize (F2 _ I1). qlra. }
    assert (x = y) by (specialize (F (ad deg x)); cbn in F; rewrite <- A in F; rewrite qeqb_refl in F; congruence). subst y. f_equal.
    apply IH; [assumption|assumption|]. intro v. specialize (F v). cbn in F. destruct (qeqb (ad deg x) v); [injection F as F|]; exact F.
Qed.
(** a larger lam or beta never removes rules: the smaller result is a prefix of the larger *)
Theorem C50_monotone : forall V (mt : rule V -> res Qc) deg rules c lam lam' beta beta',
  (forall r, In r rules -> mt r = Ok (deg r)) -> class_fired deg c rules <> [] -> (forall r, In r (class_fired deg c rules) -> ad deg r <> 0) ->
  lam <= lam' -> beta_le beta beta' ->
  exists f more, c_factual mt rules c lam beta = Ok f /\ c_factual mt rules c lam' beta' = Ok (f ++ more).
Proof.
  intros V mt deg rules c lam lam' beta beta' H N NZ Ll Lb.
  destruct (C50_c_factual V mt deg rules c lam beta H N NZ) as (s & k & RK & K & E & A & B & _).
  destruct (C50_c_factual V mt deg rules c lam' beta' H N NZ) as (s' & k' & RK' & K' & E' & A' & B' & _).
  pose proof (ranked_unique V deg c rules s s' RK RK') as <-.
  assert (Kk : (k <= k')%nat).
  { destruct (Nat.le_gt_cases k k') as [|Lt]; [assumption|]. exfalso. apply (A k' Lt). destruct (B' ltac:(lia)) as (a & b & J1 & J2 & J3 & J4).
    exists a, b. repeat split; try assumption; [qlra|]. destruct beta as [m|], beta' as [m'|]; cbn in Lb; try tauto. qlra. }
  exists (firstn (S k) s), (skipn (S k) (firstn (S k') s)). split; [assumption|]. rewrite E'. apply (f_equal (@Ok _)).
  rewrite <- (firstn_skipn (S k) (firstn (S k') s)) at 1. rewrite firstn_firstn. replace (Nat.min (S k) (S k')) with (S k) by lia. reflexivity.
Qed.
Print Assumptions C50_monotone.
Theorem C50_nothing_fired : forall V (mt : rule V -> res Qc) deg rules c lam beta,
  (forall r, In r rules -> mt r = Ok (deg r)) -> class_fired deg c rules = [] -> c_factual mt rules c lam beta = Err IndexError.
Proof. intros V mt deg rules c lam beta H E. unfold c_factual. rewrite (sorted_class_spec mt deg c rules H), E. reflexivity. Qed.
Print Assumptions C50_nothing_fired.
Example C50_instance : c_factual (matching fx_m) fx_rules 1 (qc 1 10) None = Ok [fx_r1] /\
  c_factual (matching fx_m) fx_rules 1 (qc 1 10) (Some (qc 9 10)) = Ok [fx_r1; fx_r4] /\
  c_factual (matching fx_m) fx_rules 1 (qz 2) None = Ok [fx_r1; fx_r4; fx_r2].
Proof. repeat split; vm_compute; reflexivity. Qed.

(** ** C51 *)
Theorem C51_FID3_factual : forall V (mt : rule V -> res Qc) deg rules th,
  (forall r, In r rules -> mt r = Ok (deg r)) ->
  (FID3_factual mt rules th = Err ValueError /\ forall r, In r rules -> deg r <= th) \/
  (exists r l1 l2, FID3_factual mt rules th = Ok r /\ rules = l1 ++ r :: l2 /\ th < deg r /\
     (forall r', In r' rules -> deg r' <= deg r) /\ (forall r', In r' l1 -> deg r' < deg r)).
Proof.
  intros V mt deg rules th H. unfold FID3_factual. rewrite (fired_spec mt deg th rules H). cbn [bind].
  rewrite (@mapM_Ok _ _ _ (fun r => (deg r, r))) by (intros r Hr; apply filter_In in Hr; rewrite H by tauto; reflexivity). cbn [bind].
  destruct (max_by _ _) as [b|] eqn:E; cbn [ret_opt bind]; [right|left].
  - apply (max_by_spec fst) in E. destruct E as (I & G & l1 & l2 & S & F). destruct b as [d r]. apply in_map_iff in I. destruct I as (r' & Q & I). injection Q as Q <-. subst d.
    apply filter_In in I. destruct I as [I J]. rewrite qltb_lt in J. cbn [fst snd] in *.
    assert (X : exists m1 m2, filter (fun r => qltb th (deg r)) rules = m1 ++ r' :: m2 /\ map (fun r => (deg r, r)) m1 = l1).
    { clear - S. revert l1 S. induction (filter (fun r => qltb th (deg r)) rules) as [|x m IH]; intros l1 S; [destruct l1; discriminate|]. cbn in S. destruct l1 as [|p l1]; injection S as S1 S2.
      - exists [], m. subst. auto.
      - destruct (IH _ S2) as (m1 & m2 & -> & <-). exists (x :: m1), m2. subst. auto. }
    destruct X as (m1 & m2 & X & <-).
    assert (Y : exists l1 l2, rules = l1 ++ r' :: l2 /\ m1 = filter (fun r => qltb th (deg r)) l1).
    { clear - X. revert m1 X. induction rules as [|x rules IH]; intros m1 X; [destruct m1; discriminate|]. cbn in X. destruct (qltb th (deg x)) eqn:Q.
      - destruct m1 as [|y m1]; injection X as X1 X2; [exists [], rules; subst; auto|]. destruct (IH _ X2) as (a & b & -> & ->). exists (x :: a), b. subst. cbn. rewrite Q. auto.
      - destruct (IH _ X) as (a & b & -> & ->). exists (x :: a), b. cbn. rewrite Q. auto. }
    destruct Y as (a & b & Y & ->). exists r', a, b. split; [reflexivity|]. split; [assumption|]. split; [assumption|].
    assert (K : forall r0, In r0 rules -> deg r0 <= deg r').
    { intros r0 Hr0. destruct (qltb_spec th (deg r0)) as [L|L]; [|qlra]. apply (G (deg r0, r0)). apply in_map_iff. exists r0. split; [reflexivity|]. apply filter_In. split; [assumption|apply qltb_lt; assumption]. }
    split; [assumption|]. intros r0 Hr0. destruct (qltb_spec th (deg r0)) as [L|L]; [|qlra].
    rewrite Forall_forall in F. apply (F (deg r0, r0)). apply in_map_iff. exists r0. split; [reflexivity|]. apply filter_In. split; [assumption|apply qltb_lt; assumption].
  - split; [reflexivity|]. apply (max_by_None fst) in E. intros r Hr. destruct (qltb_spec th (deg r)) as [L|L]; [|assumption]. exfalso.
    assert (I : In r (filter (fun r => qltb th (deg r)) rules)) by (apply filter_In; split; [assumption|apply qltb_lt; assumption]). destruct (filter (fun r => qltb th (deg r)) rules); [destruct I|discriminate].
Qed.
Print Assumptions C51_FID3_factual.
Example C51_instance : FID3_factual (matching fx_m) fx_rules (qc 1 100) = Ok fx_r4 /\ FID3_factual (matching fx_m) fx_rules 1 = Err ValueError.
Proof. split; vm_compute; reflexivity. Qed.
