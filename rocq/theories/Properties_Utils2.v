(** * Properties C74, C85: nearest records *)
From Verif Require Import Prelude M_Fuzzy M_Discretize M_Rule M_FDT M_ID3 M_Neighborhood M_Sampling M_Genetic M_Utils S_Utils P_FuzzyVar P_Metrics P_Counterfactual P_Neighborhood2 P_Explainer P_Sampling P_Genetic P_ID3b P_Utils P_Utils2 P_Utils3 Properties_Utils.
Set Implicit Arguments.
Open Scope string_scope. Open Scope list_scope. Open Scope Qc_scope.

(** a stable sort of positions meets the hypothesis on argsort *)
Definition fl_leb (a b : fl) : bool := match a, b with _, None => true | None, Some _ => false | Some p, Some q => qleb p q end.
Definition stable_argsort (l : list fl) : list nat := sort_by (fun i j => fl_leb (nth i l None) (nth j l None)) (seq 0 (List.length l)).
Lemma fl_leb_le a b : fl_leb a b = true <-> fl_le a b.
Proof. destruct a, b; cbn; try (split; [intros _; exact I|reflexivity]); [apply qleb_le|split; [discriminate|intros []]]. Qed.
Lemma stable_sorts : sorts stable_argsort.
Proof.
  intro l. unfold stable_argsort. split; [apply Permutation_sym, sort_by_perm|].
  assert (T : forall a b : nat, fl_leb (nth a l None) (nth b l None) = true \/ fl_leb (nth b l None) (nth a l None) = true).
  { intros a b. destruct (nth a l None) as [p|], (nth b l None) as [q|]; cbn; try tauto. destruct (qleb p q) eqn:E; [left; reflexivity|right]. apply qleb_gt in E. apply qleb_le. apply Qclt_le_weak. assumption. }
  assert (R : forall a b c : nat, fl_leb (nth a l None) (nth b l None) = true -> fl_leb (nth b l None) (nth c l None) = true -> fl_leb (nth a l None) (nth c l None) = true).
  { intros a b c. destruct (nth a l None) as [p|], (nth b l None) as [q|], (nth c l None) as [r|]; cbn; try congruence. rewrite !qleb_le. apply Qcle_trans. }
  eapply StronglySorted_impl; [|eapply sort_by_sorted]; [intros a b H; apply fl_leb_le in H; exact H|exact T|exact R].
Qed.

(** ** C74 *)
(** the records the distance function gets are the rows of the table *)
Theorem C74_records : forall n df, rectangular n df -> df <> [] -> List.length (records df) = n /\ forall i z, nth_error (records df) i = Some z -> forall c, dget c z = value_at df c i.
Proof. intros n df R N. split; [rewrite records_length; apply frame_length_rect; assumption|]. intros i z Z c. exact (@records_value n df i z R Z c). Qed.
(** get_closest lists the min(k, n) nearest rows, nearest first *)
Theorem C74_closest : forall argsort distance n df x k ds, sorts argsort -> rectangular n df -> df <> [] -> List.length ds = n ->
  (forall i z, nth_error (records df) i = Some z -> distance x z = Ok (nth i ds None)) ->
  exists l, get_closest argsort distance df x k = Ok l /\ nearest_k ds (seq 0 n) k l.
Proof.
  intros argsort distance n df x k ds SO R N L D. assert (LR := records_length df). rewrite (frame_length_rect R N) in LR.
  assert (M : mapM (distance x) (records df) = Ok ds).
  { rewrite <- L in LR. clear - LR D. revert ds LR D. induction (records df) as [|z zs IH]; intros [|d ds] L D; try discriminate; [reflexivity|]. cbn [mapM]. rewrite (D 0%nat z eq_refl). cbn [bind nth]. rewrite (IH ds); [reflexivity|cbn in L; congruence|]. intros i z' Z'. exact (D (S i) z' Z'). }
  exists (firstn k (argsort ds)). split; [unfold get_closest; unfold fl in *; rewrite M; reflexivity|]. rewrite <- L. apply firstn_nearest. assumption.
Qed.
(** if the distance to some row raises, so does get_closest *)
Theorem C74_fails : forall argsort distance df x k z, In z (records df) -> (forall d, distance x z <> Ok d) -> forall l, get_closest argsort distance df x k <> Ok l.
Proof.
  intros argsort distance df x k z I F l H. unfold get_closest in H. destruct (mapM (distance x) (records df)) as [ds|] eqn:M; [|discriminate]. rewrite mapM_ok in M. clear H.
  induction M as [|z' d zs ds A M IH]; [contradiction|]. destruct I as [->|I]; [exact (F d A)|exact (IH I)].
Qed.
(** with mixed_distance and no discrete feature beside the class, the answer does not depend on the record asked about *)
Theorem C74_continuous_only : forall argsort df x x' discrete continuous cls ddist cdist k, (forall a, In a discrete -> a = cls) -> has_fields x continuous -> has_fields x' continuous ->
  let distance := fun a b => mixed_distance a b discrete continuous cls ddist cdist in
  get_closest argsort distance df x k = get_closest argsort distance df x' k /\
  get_closest argsort distance df x k = Ok (firstn k (argsort (map (fun _ => Some 0) (records df)))).
Proof.
  intros argsort df x x' discrete continuous cls ddist cdist k D F F' distance. assert (M : forall y, has_fields y continuous -> mapM (distance y) (records df) = Ok (map (fun _ => Some 0) (records df))).
  { intros y Y. induction (records df) as [|z zs IH]; [reflexivity|]. cbn [mapM map]. unfold distance at 1. rewrite C70_continuous_only by assumption. cbn [bind]. rewrite IH. reflexivity. }
  unfold get_closest. rewrite !M by assumption. split; reflexivity.
Qed.
Definition ex_frame : frame := [("colour", [CStr "red"; CStr "blue"; CStr "red"]); ("w", [CNum (qz 9); CNum (qz 1); CNum (qz 2)]); ("h", [CNum (qz 1); CNum (qz 7); CNum (qz 5)])].
Example C74_ex : rectangular 3 ex_frame /\ ex_frame <> [] /\
  get_closest stable_argsort (fun a b => mixed_distance a b ["colour"] ["w"; "h"] "class" simple_match (on_numbers normalized_euclidean)) ex_frame [("colour", CStr "red"); ("w", CNum 1); ("h", CNum (qz 3))] 2 = Ok [2; 1]%nat.
Proof.
  splits; [|discriminate|vm_compute; reflexivity]. split; [repeat constructor; cbn; intuition discriminate|]. intros c col I. cbn in I. repeat destruct I as [I|I]; try contradiction; injection I as <- <-; reflexivity.
Qed.
Print Assumptions C74_records. Print Assumptions C74_closest. Print Assumptions C74_fails. Print Assumptions C74_continuous_only.

(** ** C85 *)
(** the three nearest-neighbour lists and the answer composed from them; [m] = int(k * ratio) *)
Theorem C85_answer : forall argsort distance predict n df x discrete cls encs k ratio dfe ds, sorts argsort -> rectangular n df -> df <> [] ->
  0 < ratio -> ratio <= 1 ->
  label_encode df discrete (Some encs) = Ok (dfe, encs) -> List.length ds = n ->
  (forall i z, nth_error (records df) i = Some z -> distance x z = Ok (nth i ds None)) ->
  let zero := fun i => Z.eqb (predict (nth i (matrix_without cls dfe) [])) 0 in
  exists all zeros others m,
    nearest_k ds (seq 0 n) k all /\ nearest_k ds (filter zero (seq 0 n)) k zeros /\ nearest_k ds (filter (fun i => negb (zero i)) (seq 0 n)) k others /\
    (qn m <= qn k * ratio /\ qn k * ratio < qn m + 1) /\
    let answer := get_closest_diffoutcome argsort distance predict df x discrete cls encs k ratio in
    (all = [] -> answer = Err ZeroDivisionError) /\
    (all <> [] -> qn (shared all zeros) < ratio * qn (List.length all) -> answer = Ok (firstn (k - m) all ++ firstn m zeros)) /\
    (all <> [] -> ratio * qn (List.length all) <= qn (shared all zeros) -> shared all others = 0%nat -> answer = Ok (firstn (k - m) all ++ firstn m others)) /\
    (all <> [] -> ratio * qn (List.length all) <= qn (shared all zeros) -> shared all others <> 0%nat -> answer = Ok all).
Proof.
  intros argsort distance predict n df x discrete cls encs k ratio dfe ds SO R N P Q LE LD D zero. assert (FL := frame_length_rect R N). rewrite <- FL in LD.
  destruct (@diffoutcome_spec argsort distance predict df x discrete cls encs k ratio dfe ds SO LE LD D) as (all & zeros & ones & A & B & C & E). rewrite FL in *.
  exists all, zeros, ones, (int_share k ratio). split; [assumption|]. split; [assumption|]. split; [assumption|]. split; [apply int_share_spec; apply Qclt_le_weak; assumption|]. cbv zeta. rewrite E, small_count by assumption.
  assert (LP : all <> [] -> Nat.eqb (List.length all) 0 = false /\ 0 < qn (List.length all)) by (intro NE; destruct all as [|a l]; [contradiction|]; split; [reflexivity|apply qn_pos; cbn; lia]).
  split; [|split; [|split]].
  - intros ->. reflexivity.
  - intros NE S. destruct (LP NE) as (L0 & L1). rewrite L0. replace (qltb (qn (shared all zeros) / qn (List.length all)) ratio) with true; [reflexivity|]. symmetry. apply qltb_lt. apply Qcdiv_lt; assumption.
  - intros NE S O. destruct (LP NE) as (L0 & L1). rewrite L0. replace (qltb (qn (shared all zeros) / qn (List.length all)) ratio) with false; [|symmetry; apply qltb_ge; apply Qcle_div; assumption]. rewrite O. reflexivity.
  - intros NE S O. destruct (LP NE) as (L0 & L1). rewrite L0. replace (qltb (qn (shared all zeros) / qn (List.length all)) ratio) with false; [|symmetry; apply qltb_ge; apply Qcle_div; assumption]. apply Nat.eqb_neq in O. rewrite O. reflexivity.
Qed.
(** when no two rows are equally far, [shared] counts the rows of that outcome among the k nearest *)
Theorem C85_shared : forall (ds : list fl) n k p all part, (forall i j, (i < n)%nat -> (j < n)%nat -> nth i ds None = nth j ds None -> i = j) ->
  nearest_k ds (seq 0 n) k all -> nearest_k ds (filter p (seq 0 n)) k part -> shared all part = List.length (filter p all).
Proof.
  intros ds n k p all part INJ (N1 & I1 & L1 & S1 & O1) (N2 & I2 & L2 & S2 & O2). unfold shared. f_equal. apply filter_ext_in. intros i I. assert (Ii := I1 i I).
  destruct (p i) eqn:P.
  - destruct (in_dec Nat.eq_dec i part) as [J|J]; [apply existsb_exists; exists i; split; [assumption|apply Nat.eqb_refl]|]. exfalso.
    assert (CI : In i (filter p (seq 0 n))) by (apply filter_In; split; assumption).
    assert (SUB : incl part all).
    { intros j Jp. destruct (in_dec Nat.eq_dec j all) as [A|A]; [assumption|]. exfalso. assert (Jc := I2 j Jp). apply filter_In in Jc. destruct Jc as (Js & Jpp).
      assert (X1 := O2 j i Jp CI J). assert (X2 := O1 i j I Js A). apply J. replace i with j; [assumption|]. apply in_seq in Ii, Js. apply INJ; [lia|lia|].
      unfold fl in *. destruct (nth j ds None) as [a|], (nth i ds None) as [b|]; unfold fl_le in X1, X2; try contradiction; [assert (a = b) by (apply Qcle_antisym; assumption); congruence|reflexivity]. }
    assert (LE : (S (List.length part) <= List.length all)%nat).
    { change (S (List.length part)) with (List.length (i :: part)). apply NoDup_incl_length; [constructor; assumption|]. intros j [<-|Jp]; [assumption|apply SUB; assumption]. }
    destruct (Nat.le_ge_cases k (List.length (filter p (seq 0 n)))) as [K|K].
    + rewrite Nat.min_l in L2 by assumption. lia.
    + rewrite Nat.min_r in L2 by assumption. apply J. assert (LL : (List.length (filter p (seq 0 n)) <= List.length part)%nat) by lia. exact (NoDup_length_incl N2 LL I2 i CI).
  - destruct (existsb (Nat.eqb i) part) eqn:E; [|reflexivity]. apply existsb_exists in E. destruct E as (j & J & Q). apply Nat.eqb_eq in Q. subst j. apply I2 in J. apply filter_In in J. destruct J. congruence.
Qed.
(** a table of distances and classes to look at concrete answers *)
Definition dist_frame (rows : list (Z * Z)) : frame := [("d", map (fun r => CNum (qz (fst r))) rows); ("c", map (fun r => CNum (qz (snd r))) rows)].
Definition read_d (x z : record) : res fl := match dget "d" z with Some (CNum q) => Ok (Some q) | _ => Err KeyError end.
Definition read_c (row : list cell) : Z := match row with _ :: CNum q :: _ => Qround.Qfloor (this q) | _ => 0%Z end.
Definition ex_answer (rows : list (Z * Z)) (k : nat) (ratio : Qc) := get_closest_diffoutcome stable_argsort read_d read_c (dist_frame rows) [] [] "class" [] k ratio.
(** the promised share is not enforced for the rows of outcome other than 0, and the answer can list a row twice *)
Theorem C85_share_refuted : exists rows k ratio l, ex_answer rows k ratio = Ok l /\ 0 < ratio /\ ratio <= 1 /\
  qn (List.length (filter (fun i => negb (Z.eqb (snd (nth i rows (0, 0)%Z)) 0)) l)) < ratio * qn (List.length l) /\ (k <= List.length (filter (fun r => negb (Z.eqb (snd r) 0)) rows))%nat.
Proof.
  exists [(0, 0); (1, 0); (2, 1); (3, 0); (4, 1); (5, 1); (6, 1)]%Z, 4%nat, (qc 1 2), [0; 1; 2; 3]%nat. split; [vm_compute; reflexivity|]. split; [reflexivity|]. split; [discriminate|]. split; [reflexivity|]. cbn. lia.
Qed.
Theorem C85_duplicates_refuted : exists rows k ratio l, ex_answer rows k ratio = Ok l /\ 0 < ratio /\ ratio <= 1 /\ ~ NoDup l.
Proof.
  exists [(0, 0); (1, 1)]%Z, 2%nat, (qc 3 5), [0; 0]%nat. split; [vm_compute; reflexivity|]. split; [reflexivity|]. split; [discriminate|]. intro N. inversion N as [|? ? NI _]. apply NI. left. reflexivity.
Qed.
Example C85_ex : ex_answer [(0, 1); (1, 1); (2, 1); (3, 0); (4, 0)]%Z 2 (qc 1 2) = Ok [0; 3]%nat /\ ex_answer [(0, 0); (1, 0); (2, 0); (3, 1); (4, 1)]%Z 2 (qc 1 2) = Ok [0; 3]%nat /\ ex_answer [(0, 0)]%Z 0 (qc 1 2) = Err ZeroDivisionError.
Proof. splits; vm_compute; reflexivity. Qed.
Print Assumptions C85_answer. Print Assumptions C85_shared. Print Assumptions C85_share_refuted. Print Assumptions C85_duplicates_refuted.
