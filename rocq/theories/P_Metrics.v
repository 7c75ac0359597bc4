(** * Proofs about the metrics *)
From Verif Require Import Prelude M_Fuzzy M_Rule M_Metrics S_Metrics P_Rule.
Set Implicit Arguments.
Open Scope Qc_scope.

Lemma foldM_ok_fold S A (f : S -> A -> res S) (g : S -> A -> S) (l : list A) : forall (s : S),
  (forall s x, In x l -> f s x = Ok (g s x)) -> foldM f s l = Ok (fold_left g l s).
Proof.
  induction l as [|x l IH]; intros s H; [reflexivity|]. cbn [foldM fold_left]. rewrite H by (left; reflexivity). cbn [bind]. apply IH. intros; apply H; right; assumption.
Qed.
Lemma map_seq_nth A (d : A) (l : list A) : map (fun j => nth j l d) (seq 0 (List.length l)) = l.
Proof.
  induction l as [|x l IH]; [reflexivity|]. cbn [List.length seq map]. f_equal. rewrite <- seq_shift, map_map. exact IH.
Qed.
Lemma map2_map_seq A B C D (f : A -> B -> C) (g : D -> A) (h : D -> B) (l : list D) : map2 f (map g l) (map h l) = map (fun j => f (g j) (h j)) l.
Proof. induction l as [|x l IH]; [reflexivity|]. cbn. rewrite IH. reflexivity. Qed.
Lemma map_const_repeat A B (c : B) (l : list A) : map (fun _ => c) l = repeat c (List.length l).
Proof. induction l as [|x l IH]; [reflexivity|]. cbn. rewrite IH. reflexivity. Qed.

Definition degree_of (ds : fdata) (f v : string) (j : nat) : Qc :=
  match dget f ds with Some sets => match dget v sets with Some col => nth j col 0 | None => 0 end | None => 0 end.
Definition coverb (ds : fdata) (th : Qc) (r : rule string) (j : nat) : bool :=
  qltb th (fold_left (fun m fv => qmin m (degree_of ds (fst fv) (snd fv) j)) (r_ant r) 1).

Lemma dget_In' V (k : string) (v : V) (d : dict string V) : dget k d = Some v -> In (k, v) d.
Proof.
  induction d as [|[k' v'] d IH]; [discriminate|]. cbn. destruct (eqb k k') eqn:E; intro H; [left; apply eqb_eq in E; congruence|right; auto].
Qed.

Lemma covered_spec ds n th r : rows_of ds n -> rule_known ds r ->
  covered_instances set_lookup r ds th = Ok (map (coverb ds th r) (seq 0 n), n).
Proof.
  intros [(f0 & v0 & col0 & sets0 & rest & E) L] K. unfold covered_instances.
  assert (DL : data_length ds = Ok n).
  { subst ds. unfold data_length. cbn. rewrite (L f0 ((v0, col0) :: sets0) v0 col0); [reflexivity|left; reflexivity|left; reflexivity]. }
  rewrite DL. cbn [bind].
  assert (F : forall ant g, (forall f v, In (f, v) ant -> exists sets col, dget f ds = Some sets /\ dget v sets = Some col) ->
    foldM (fun mu fv => do sets <- ret_opt KeyError (dget (fst fv) ds); do col <- set_lookup sets (snd fv); np_minimum mu col) (map g (seq 0 n)) ant
    = Ok (map (fun j => fold_left (fun m fv => qmin m (degree_of ds (fst fv) (snd fv) j)) ant (g j)) (seq 0 n))).
  { induction ant as [|[f v] ant IH]; intros g Ka; [reflexivity|]. cbn [foldM fst snd]. destruct (Ka f v (or_introl eq_refl)) as (sets & col & Hf & Hv).
    rewrite Hf. cbn [ret_opt bind]. unfold set_lookup at 1. rewrite Hv. cbn [ret_opt bind].
    assert (Lc : List.length col = n) by (apply (L f sets v); apply dget_In'; assumption).
    unfold np_minimum at 1. rewrite map_length, seq_length, Lc, Nat.eqb_refl. cbn [bind].
    rewrite <- (map_seq_nth 0 col), Lc, map2_map_seq. rewrite IH by (intros; apply Ka; right; assumption).
    apply (f_equal (@Ok _)). apply map_ext. intro j. cbn [fold_left fst snd]. unfold degree_of at 3. rewrite Hf, Hv. reflexivity. }
  replace (repeat 1 n) with (map (fun _ : nat => 1) (seq 0 n)) by (rewrite map_const_repeat, seq_length; reflexivity).
  rewrite F by assumption. cbn [bind]. rewrite map_map. reflexivity.
Qed.

Lemma andb_absorb A (p : A -> bool) (h t : A) l : t = h -> p h && (p t && forallb p l) = forallb p (t :: l).
Proof. intros ->. cbn. destruct (p h); reflexivity. Qed.
Lemma coverage_spec ds n th rules : rows_of ds n -> rules <> [] -> (forall r, In r rules -> rule_known ds r) ->
  fuzzy_coverage set_lookup rules ds th = Ok (map (fun j => forallb (fun r => coverb ds th r j) rules) (seq 0 n), n).
Proof.
  intros R N K. destruct rules as [|r0 rules]; [congruence|]. unfold fuzzy_coverage. cbn [nth_error ret_opt bind].
  rewrite (@covered_spec ds n th r0 R (K r0 (or_introl eq_refl))). cbn [bind fst snd].
  assert (F : forall rs g, (forall r, In r rs -> rule_known ds r) ->
    foldM (fun c r => do cr <- covered_instances set_lookup r ds th; Ok (map2 andb c (fst cr))) (map g (seq 0 n)) rs
    = Ok (map (fun j => g j && forallb (fun r => coverb ds th r j) rs) (seq 0 n))).
  { induction rs as [|r rs IH]; intros g Kr; [cbn; apply (f_equal (@Ok _)); apply map_ext; intro; symmetry; apply andb_true_r|].
    cbn [foldM]. rewrite (@covered_spec ds n th r R (Kr r (or_introl eq_refl))). cbn [bind fst]. rewrite map2_map_seq. rewrite IH by (intros; apply Kr; right; assumption).
    apply (f_equal (@Ok _)). apply map_ext. intro j. cbn [forallb]. rewrite andb_assoc. reflexivity. }
  rewrite F by assumption. cbn [bind]. apply (f_equal (@Ok _)). f_equal. apply map_ext. intro j. cbn. destruct (coverb ds th r0 j); reflexivity.
Qed.

Lemma coverb_covers ds n th r j : rows_of ds n -> rule_known ds r -> (j < n)%nat -> coverb ds th r j = true <-> covers ds th r j.
Proof.
  intros [_ L] K Hj. unfold coverb, covers. rewrite qltb_lt.
  assert (G : forall ant m, th < fold_left (fun m fv => qmin m (degree_of ds (fst fv) (snd fv) j)) ant m <->
    th < m /\ forall f v, In (f, v) ant -> th < degree_of ds f v j).
  { induction ant as [|[f v] ant IH]; intro m; cbn [fold_left fst snd]; [split; [intro; split; [assumption|intros ? ? []]|tauto]|].
    rewrite IH. split.
    - intros [A B]. split; [eapply Qclt_le_trans; [exact A|apply qmin_l]|]. intros f' v' [E|E]; [injection E as <- <-; eapply Qclt_le_trans; [exact A|apply qmin_r]|auto].
    - intros [A B]. split; [|intros; apply B; right; assumption]. unfold qmin. destruct (qltb _ _); [apply B; left; reflexivity|assumption]. }
  rewrite G. split; intros [A B]; (split; [assumption|]); intros f v H.
  - destruct (K f v H) as (sets & col & Hf & Hv). specialize (B f v H). unfold degree_of in B. rewrite Hf, Hv in B.
    exists (nth j col 0). split; [|assumption]. exists sets, col. repeat split; try assumption. apply nth_error_nth'.
    rewrite (L f sets v col); [assumption|apply dget_In'; assumption|apply dget_In'; assumption].
  - destruct (B f v H) as (d & (sets & col & Hf & Hv & Hd) & Hth). unfold degree_of. rewrite Hf, Hv. rewrite (nth_error_nth _ _ 0 Hd). assumption.
Qed.

Lemma count_true_map A (p : A -> bool) l : count_true (map p l) = List.length (filter p l).
Proof. unfold count_true, countb. induction l as [|x l IH]; [reflexivity|]. cbn. destruct (p x); cbn; rewrite IH; reflexivity. Qed.
Lemma row_set_filter n (P : nat -> Prop) (p : nat -> bool) : (forall j, (j < n)%nat -> p j = true <-> P j) -> row_set n P (filter p (seq 0 n)).
Proof.
  intro H. split; [apply NoDup_filter, seq_NoDup|]. intro j. rewrite filter_In, in_seq. split.
  - intros [A B]. split; [lia|]. apply H; [lia|assumption].
  - intros [A B]. split; [lia|]. apply H; assumption.
Qed.
Lemma row_set_length n (P Q : nat -> Prop) l l' : (forall j, (j < n)%nat -> P j -> Q j) -> row_set n P l -> row_set n Q l' -> (List.length l <= List.length l')%nat.
Proof.
  intros H [N1 I1] [N2 I2]. apply NoDup_incl_length; [assumption|]. intros j Hj. apply I1 in Hj. apply I2. split; [tauto|]. apply H; tauto.
Qed.
Lemma row_set_bound n (P : nat -> Prop) l : row_set n P l -> (List.length l <= n)%nat.
Proof.
  intros [N I]. rewrite <- (seq_length n 0). apply NoDup_incl_length; [assumption|]. intros j Hj. apply I in Hj. apply in_seq. lia.
Qed.
Lemma np_ratio_01 a b : (a <= b)%nat -> (0 < b)%nat -> exists c, np_ratio a b = Some c /\ c = qn a / qn b /\ 0 <= c /\ c <= 1.
Proof.
  intros H1 H2. unfold np_ratio. destruct (Nat.eqb_spec b 0); [lia|]. eexists. split; [reflexivity|]. split; [reflexivity|].
  apply Qcdiv_01; [apply qn_nonneg|apply qn_le; assumption|apply qn_pos; assumption].
Qed.
Lemma forallb_all_covers ds n th rules j : rows_of ds n -> (forall r, In r rules -> rule_known ds r) -> (j < n)%nat ->
  forallb (fun r => coverb ds th r j) rules = true <-> forall r, In r rules -> covers ds th r j.
Proof.
  intros R K Hj. rewrite forallb_forall. split; intros H r Hr; [rewrite <- (@coverb_covers ds n th r j R (K r Hr) Hj)|rewrite (@coverb_covers ds n th r j R (K r Hr) Hj)]; auto.
Qed.

(** ** counting agreements *)
Lemma select_map A (d : A) (p : nat -> bool) (l : list A) n : List.length l = n ->
  select (map p (seq 0 n)) l = Ok (map (fun j => nth j l d) (filter p (seq 0 n))).
Proof.
  intros L. unfold select. rewrite map_length, seq_length, L, Nat.eqb_refl. apply (f_equal (@Ok _)).
  rewrite <- (map_seq_nth d l) at 1. rewrite L. generalize (seq 0 n). intro s. clear L.
  unfold zip. induction s as [|j s IH]; [reflexivity|]. cbn. destruct (p j); cbn; rewrite IH; reflexivity.
Qed.
Lemma filter_filter A (p q : A -> bool) l : filter p (filter q l) = filter (fun x => q x && p x) l.
Proof. induction l as [|x l IH]; [reflexivity|]. cbn. destruct (q x); cbn; [destruct (p x); rewrite IH; reflexivity|assumption]. Qed.
Lemma nth_eq_Some (l : list Z) j c : (j < List.length l)%nat -> nth j l 0%Z = c <-> nth_error l j = Some c.
Proof. intro H. rewrite (nth_error_nth' l 0%Z H). split; congruence. Qed.

Lemma map2_eqb_count (y y' : list Z) : List.length y = List.length y' ->
  count_true (map2 Z.eqb y y') = List.length (filter (fun j => Z.eqb (nth j y 0%Z) (nth j y' 0%Z)) (seq 0 (List.length y))).
Proof.
  intro L. rewrite <- (map_seq_nth 0%Z y) at 1. rewrite <- (map_seq_nth 0%Z y') at 1. rewrite <- L, map2_map_seq. apply count_true_map.
Qed.
Lemma agree_set (y y' : list Z) : List.length y = List.length y' ->
  row_set (List.length y) (fun j => nth_error y j = nth_error y' j) (filter (fun j => Z.eqb (nth j y 0%Z) (nth j y' 0%Z)) (seq 0 (List.length y))).
Proof.
  intro L. apply row_set_filter. intros j Hj. rewrite Z.eqb_eq, (@nth_eq_Some y j _ Hj), (nth_error_nth' y' 0%Z) by lia. split; congruence.
Qed.

(** ** the moth distance *)
Section Moth.
  Variables (n : nat) (con dis : list nat) (mad : dict nat Qc).
  Let step := fun (acc : Qc * nat) (ip : nat * (cell * cell)) =>
      let '(i, (x, x')) := ip in
      if memb i con then
        do d <- cell_diff x x';
        if qeqb d 0 then Ok acc else
        do m <- ret_opt KeyError (dget i mad);
        do q <- pdiv d m;
        Ok (fst acc + q, snd acc)
      else Ok (fst acc, (snd acc + neq_cell x x')%nat).
  Definition cterm (a b : list cell) (i : nat) : Qc :=
    if memb i con then match nth_error a i, nth_error b i, dget i mad with Some (CNum x), Some (CNum y), Some m => qabs (x - y) / m | _, _, _ => 0 end else 0.
  Definition dterm (a b : list cell) (i : nat) : nat :=
    if memb i con then 0%nat else if eq_dec (nth_error a i) (nth_error b i) then 0%nat else 1%nat.
  Definition nsum (l : list nat) : nat := fold_right Nat.add 0%nat l.

  Lemma nth_error_skipn A (l : list A) k x r : skipn k l = x :: r -> nth_error l k = Some x /\ skipn (S k) l = r.
  Proof.
    clear. revert l. induction k as [|k IH]; intros [|z l] H; try discriminate; [injection H as -> ->; auto|]. exact (IH l H).
  Qed.
  Lemma step_fold a b : instance_ok n con dis mad a -> instance_ok n con dis mad b ->
    forall m k sa sb acc, skipn k a = sa -> skipn k b = sb -> List.length sa = m -> List.length sb = m ->
    foldM step acc (zip (seq k m) (zip sa sb)) = Ok (fst acc + qsum (map (cterm a b) (seq k m)), (snd acc + nsum (map (dterm a b) (seq k m)))%nat).
  Proof.
    intros [La Oa] [Lb Ob]. induction m as [|m IH]; intros k sa sb acc Ea Eb Ha Hb.
    - destruct sa; [|discriminate]. cbn. rewrite Qcplus_0_r, Nat.add_0_r. destruct acc; reflexivity.
    - destruct sa as [|x sa]; [discriminate|]. destruct sb as [|x' sb]; [discriminate|]. destruct (@nth_error_skipn _ a k x sa Ea) as [Na Ea']. destruct (@nth_error_skipn _ b k x' sb Eb) as [Nb Eb'].
      cbn in Ha, Hb. cbn [seq zip combine foldM]. specialize (Oa k x Na). specialize (Ob k x' Nb).
      assert (S : step acc (k, (x, x')) = Ok (fst acc + cterm a b k, (snd acc + dterm a b k)%nat)).
      { unfold step, cterm, dterm. rewrite Na, Nb. destruct (memb k con) eqn:M.
        - rewrite (memb_In _ k con) in M. destruct Oa as [Oa _]. destruct (Oa M) as (q & mm & -> & Hm & Pm). destruct Ob as [Ob _]. destruct (Ob M) as (q' & mm' & -> & Hm' & _).
          rewrite Hm in Hm' |- *. cbn [cell_diff bind]. destruct (qeqb_spec (qabs (q - q')) 0) as [Z|Z].
          + rewrite Z. replace (0 / mm) with 0 by (field; intro; subst; qlra). rewrite Qcplus_0_r, Nat.add_0_r. destruct acc; reflexivity.
          + cbn [ret_opt bind]. unfold pdiv. destruct (qeqb_spec mm 0) as [W|W]; [exfalso; subst; qlra|]. cbn [bind]. rewrite Nat.add_0_r. reflexivity.
        - rewrite Qcplus_0_r. unfold neq_cell. apply (f_equal (@Ok _)). f_equal. f_equal. destruct (eqb x x') eqn:E.
          + apply eqb_eq in E. subst. destruct (eq_dec (Some x') (Some x')); congruence.
          + apply eqb_neq in E. destruct (eq_dec (Some x) (Some x')); congruence. }
      rewrite S. cbn [bind]. rewrite (IH (Datatypes.S k) sa sb) by (auto; lia). cbn [map qsum fold_right nsum fst snd].
      fold (qsum (map (cterm a b) (seq (Datatypes.S k) m))). fold (nsum (map (dterm a b) (seq (Datatypes.S k) m))).
      apply (f_equal (@Ok _)). f_equal; [apply eq_sym, Qcplus_assoc|lia].
  Qed.
  Lemma qn_nsum A (f : A -> nat) l : qn (nsum (map f l)) = qsum (map (fun x => qn (f x)) l).
  Proof. clear. induction l as [|x l IH]; [reflexivity|]. cbn [map nsum fold_right]. rewrite qn_plus. fold (nsum (map f l)). rewrite IH. reflexivity. Qed.
  Lemma qsum_div A (f : A -> Qc) c l : qsum (map f l) / c = qsum (map (fun x => f x / c) l).
  Proof.
    clear. unfold Qcdiv. rewrite (map_ext (fun x => f x * / c) (fun x => / c * f x)) by (intro; apply Qcmult_comm). rewrite qsum_map_mult. apply Qcmult_comm.
  Qed.
  Lemma con_nonempty a b i : cterm a b i <> 0 -> (0 < List.length con)%nat.
  Proof. unfold cterm. destruct (memb i con) eqn:E; [|congruence]. rewrite (memb_In _ i con) in E. intros _. destruct con; [destruct E|cbn; lia]. Qed.
  Lemma moth_formula a b : instance_ok n con dis mad a -> instance_ok n con dis mad b ->
    moth a b con dis mad = Ok (qsum (map (feature_distance con dis mad a b) (seq 0 n))).
  Proof.
    intros Oa Ob. unfold moth. fold step. pose proof Oa as [La Pa]. pose proof Ob as [Lb Pb].
    unfold enumerate. replace (List.length (zip a b)) with n by (unfold zip; rewrite combine_length; lia).
    rewrite (@step_fold a b Oa Ob n 0 a b (0, 0%nat)) by (auto; lia). cbn [bind fst snd]. rewrite Qcplus_0_l. cbn [Nat.add].
    assert (C : (if qeqb (qsum (map (cterm a b) (seq 0 n))) 0 then Ok 0 else pdiv (qsum (map (cterm a b) (seq 0 n))) (qn (List.length con)))
      = Ok (qsum (map (fun i => cterm a b i / qn (List.length con)) (seq 0 n)))).
    { rewrite <- qsum_div. destruct (qeqb_spec (qsum (map (cterm a b) (seq 0 n))) 0) as [Z|Z].
      - rewrite Z. apply (f_equal (@Ok _)). unfold Qcdiv. ring.
      - unfold pdiv. destruct (qeqb_spec (qn (List.length con)) 0) as [W|W]; [|reflexivity]. exfalso. apply Z. apply qsum_map_zero. intros i _.
        destruct (Qc_eq_dec (cterm a b i) 0) as [|D]; [assumption|]. apply con_nonempty in D. apply qn_pos in D. rewrite W in D. qlra. }
    rewrite C. cbn [bind].
    assert (D : (if Nat.eqb (nsum (map (dterm a b) (seq 0 n))) 0 then Ok 0 else pdiv (qn (nsum (map (dterm a b) (seq 0 n)))) (qn (List.length dis)))
      = Ok (qsum (map (fun i => qn (dterm a b i) / qn (List.length dis)) (seq 0 n)))).
    { rewrite <- (qsum_div (fun i => qn (dterm a b i))), <- qn_nsum. destruct (Nat.eqb_spec (nsum (map (dterm a b) (seq 0 n))) 0) as [Z|Z].
      - rewrite Z. apply (f_equal (@Ok _)). rewrite qn_0. unfold Qcdiv. ring.
      - unfold pdiv. destruct (qeqb_spec (qn (List.length dis)) 0) as [W|W]; [|reflexivity]. exfalso. apply Z.
        assert (G : forall l, (forall i, In i l -> dterm a b i = 0%nat) -> nsum (map (dterm a b) l) = 0%nat).
        { induction l as [|i l IH]; intro H; [reflexivity|]. cbn [map nsum fold_right]. rewrite H by (left; reflexivity). cbn. apply IH. intros; apply H; right; assumption. }
        apply G. intros i Hi. unfold dterm. destruct (memb i con) eqn:M; [reflexivity|]. destruct (eq_dec (nth_error a i) (nth_error b i)) as [|N]; [reflexivity|].
        exfalso. apply (memb_not_In _ i con) in M. apply in_seq in Hi. destruct (nth_error a i) as [x|] eqn:Ex; [|apply nth_error_None in Ex; lia].
        destruct (Pa i x Ex) as [_ I]. specialize (I M). destruct dis; [destruct I|]. cbn [List.length] in W. rewrite qn_S in W. pose proof (qn_nonneg (List.length l)). qlra. }
    rewrite D. cbn [bind]. rewrite <- qsum_map_plus. apply (f_equal (@Ok _)). f_equal. apply map_ext_in. intros i Hi.
    unfold cterm, dterm, feature_distance. destruct (memb i con) eqn:M.
    - rewrite (memb_In _ i con) in M. destruct (in_dec Nat.eq_dec i con); [|contradiction]. rewrite qn_0.
      destruct (nth_error a i) as [[|]|]; destruct (nth_error b i) as [[|]|]; destruct (dget i mad); unfold Qcdiv; ring.
    - apply (memb_not_In _ i con) in M. destruct (in_dec Nat.eq_dec i con); [contradiction|]. destruct (eq_dec _ _); [rewrite qn_0; unfold Qcdiv; ring|].
      rewrite qn_S, qn_0. unfold Qcdiv; ring.
  Qed.

  Lemma len_div (l : list nat) i : In i l -> 0 < qn (List.length l).
  Proof. clear. intro H. apply qn_pos. destruct l; [destruct H|cbn; lia]. Qed.
  Lemma fd_facts a b c i : instance_ok n con dis mad a -> instance_ok n con dis mad b -> instance_ok n con dis mad c -> (i < n)%nat ->
    let d := fun x y => feature_distance con dis mad x y i in
    0 <= d a b /\ d a b = d b a /\ (d a b = 0 <-> nth_error a i = nth_error b i) /\ d a c <= d a b + d b c.
  Proof.
    intros [La Pa] [Lb Pb] [Lc Pc] Hi d. unfold d, feature_distance.
    destruct (nth_error a i) as [x|] eqn:Ea; [|apply nth_error_None in Ea; lia].
    destruct (nth_error b i) as [y|] eqn:Eb; [|apply nth_error_None in Eb; lia].
    destruct (nth_error c i) as [z|] eqn:Ec; [|apply nth_error_None in Ec; lia].
    destruct (Pa i x Ea) as [Ca Da]. destruct (Pb i y Eb) as [Cb _]. destruct (Pc i z Ec) as [Cc _].
    destruct (in_dec Nat.eq_dec i con) as [M|M].
    - destruct (Ca M) as (q & m & -> & Hm & Pm). destruct (Cb M) as (q' & m' & -> & Hm' & _). destruct (Cc M) as (q'' & m'' & -> & Hm'' & _). rewrite Hm.
      pose proof (len_div _ _ M) as PL. clear - Pm PL. set (L := qn (List.length con)) in *. clearbody L.
      assert (K : 0 < / (m * L)). { assert (Hml : 0 < m * L) by (apply Qcmult_pos; assumption). assert (Q : 0 < 1 / (m * L)) by (apply Qclt_div; [assumption|qlra]). unfold Qcdiv in Q. rewrite Qcmult_1_l in Q. exact Q. }
      assert (N1 : m <> 0) by (intro; subst; qlra). assert (N2 : L <> 0) by (intro; subst; qlra).
      assert (R : forall u, qabs u / m / L = / (m * L) * qabs u) by (intro u; field; auto). rewrite !R.
      set (k := / (m * L)) in *. clearbody k. clear - K. pose proof (qabs_nonneg (q - q')) as A1. pose proof (qabs_tri q q' q'') as A2.
      repeat split.
      + apply Qcmult_nonneg; [qlra|assumption].
      + rewrite qabs_sym. reflexivity.
      + intro Z. f_equal. f_equal. assert (Z' : qabs (q - q') = 0) by (destruct (Qcmult_integral _ _ Z); [exfalso; subst; qlra|assumption]). rewrite qabs_zero in Z'. qlra.
      + intro Z. injection Z as ->. replace (q' - q') with 0 by ring. replace (qabs 0) with 0 by reflexivity. ring.
      + generalize dependent (qabs (q - q')). generalize (qabs (q' - q'')), (qabs (q - q'')). intros u v w _ H. qnra.
    - pose proof (len_div _ _ (Da M)) as PL. assert (K : 0 < 1 / qn (List.length dis)) by (apply Qclt_div; [assumption|qlra]).
      revert K. generalize (1 / qn (List.length dis)). intros k K. clear - K.
      destruct (eq_dec (Some x) (Some y)) as [E1|E1]; destruct (eq_dec (Some y) (Some x)) as [E2|E2]; try congruence;
      destruct (eq_dec (Some x) (Some z)) as [E3|E3]; destruct (eq_dec (Some y) (Some z)) as [E4|E4]; try congruence;
      repeat split; try congruence; try qlra; intro Q; exfalso; qlra.
  Qed.
End Moth.

Lemma qsum_zero_terms A (f : A -> Qc) l : (forall x, In x l -> 0 <= f x) -> qsum (map f l) = 0 -> forall x, In x l -> f x = 0.
Proof.
  intros N Z x Hx. assert (F := @qsum_zero_all (map f l)). rewrite Forall_forall in F. 
  assert (G : Forall (fun x0 => x0 = 0) (map f l)).
  { apply qsum_zero_all; [apply Forall_forall; intros q Hq; apply in_map_iff in Hq; destruct Hq as [z [<- Hz]]; auto|assumption]. }
  rewrite Forall_forall in G. apply G. apply in_map. assumption.
Qed.
Lemma nth_error_ext A (a b : list A) : List.length a = List.length b -> (forall i, (i < List.length a)%nat -> nth_error a i = nth_error b i) -> a = b.
Proof.
  revert b. induction a as [|x a IH]; intros [|y b] L H; try discriminate; [reflexivity|]. cbn in L. f_equal.
  - specialize (H 0%nat). cbn in H. assert (E : Some x = Some y) by (apply H; lia). congruence.
  - apply IH; [lia|]. intros i Hi. apply (H (S i)). cbn. lia.
Qed.

(** ** implausibility *)
Lemma closest_spec (dist : list cell -> list cell -> res Qc) inst (ds : list (list cell)) :
  (forall row, In row ds -> exists d, dist inst row = Ok d) ->
  exists c, closest_instance dist inst ds = Ok c /\
    ((c = [] /\ forall row d, In row ds -> dist inst row = Ok d -> d <= 0) \/
     (In c ds /\ exists d, dist inst c = Ok d /\ 0 < d /\ forall row d', In row ds -> dist inst row = Ok d' -> 0 < d' -> d <= d')).
Proof.
  intro T. unfold closest_instance.
  set (stp := fun (best : list cell * option Qc) row => do d <- dist inst row; if match snd best with None => true | Some m => qltb d m end && qltb 0 d then Ok (row, Some d) else Ok best).
  assert (G : forall l done best, (forall row, In row (done ++ l) -> exists d, dist inst row = Ok d) ->
     ((best = ([], None) /\ forall row d, In row done -> dist inst row = Ok d -> d <= 0) \/
      (exists c d, best = (c, Some d) /\ In c done /\ dist inst c = Ok d /\ 0 < d /\ forall row d', In row done -> dist inst row = Ok d' -> 0 < d' -> d <= d')) ->
     exists best', foldM stp best l = Ok best' /\
     ((best' = ([], None) /\ forall row d, In row (done ++ l) -> dist inst row = Ok d -> d <= 0) \/
      (exists c d, best' = (c, Some d) /\ In c (done ++ l) /\ dist inst c = Ok d /\ 0 < d /\ forall row d', In row (done ++ l) -> dist inst row = Ok d' -> 0 < d' -> d <= d'))).
  { clear. induction l as [|row l IH]; intros done best T I.
    - rewrite app_nil_r. exists best. auto.
    - destruct (T row) as [d Hd]; [apply in_or_app; right; left; reflexivity|]. cbn [foldM]. unfold stp at 1. rewrite Hd. cbn [bind].
      replace (done ++ row :: l) with ((done ++ [row]) ++ l) in * by (rewrite <- app_assoc; reflexivity).
      destruct (qltb_spec 0 d) as [P|P]; [rewrite andb_true_r|rewrite andb_false_r].
      + destruct I as [[-> I]|(c & m & -> & Hc & Hm & Pm & I)]; cbn [snd].
        * apply IH; [assumption|]. right. exists row, d. repeat split; try assumption; [apply in_or_app; right; left; reflexivity|].
          intros row' d' Hr Hd' P'. apply in_app_or in Hr. destruct Hr as [Hr|[<-|[]]]; [specialize (I row' d' Hr Hd'); qlra|rewrite Hd in Hd'; injection Hd' as ->; apply Qcle_refl].
        * destruct (qltb_spec d m) as [Q|Q]; apply IH; try assumption; right; [exists row, d|exists c, m]; repeat split; try assumption.
          -- apply in_or_app; right; left; reflexivity.
          -- intros row' d' Hr Hd' P'. apply in_app_or in Hr. destruct Hr as [Hr|[<-|[]]]; [specialize (I row' d' Hr Hd' P'); qlra|rewrite Hd in Hd'; injection Hd' as ->; apply Qcle_refl].
          -- apply in_or_app; left; assumption.
          -- intros row' d' Hr Hd' P'. apply in_app_or in Hr. destruct Hr as [Hr|[<-|[]]]; [eauto|rewrite Hd in Hd'; injection Hd' as ->; assumption].
      + apply IH; [assumption|]. destruct I as [[-> I]|(c & m & -> & Hc & Hm & Pm & I)]; [left|right].
        * split; [reflexivity|]. intros row' d' Hr Hd'. apply in_app_or in Hr. destruct Hr as [Hr|[<-|[]]]; [eauto|rewrite Hd in Hd'; injection Hd' as ->; assumption].
        * exists c, m. repeat split; try assumption; [apply in_or_app; left; assumption|].
          intros row' d' Hr Hd' P'. apply in_app_or in Hr. destruct Hr as [Hr|[<-|[]]]; [eauto|rewrite Hd in Hd'; injection Hd' as ->; qlra]. }
  destruct (G ds [] ([], None)) as [best [E I]]; [assumption|left; split; [reflexivity|intros ? ? []]|].
  exists (fst best). fold stp. rewrite E. split; [reflexivity|]. destruct I as [[-> I]|(c & d & -> & Hc & Hd & P & I)]; [left; auto|right]. split; [assumption|]. exists d. auto.
Qed.
