(** * Proofs about the nearest records *)
From Verif Require Import Prelude M_Fuzzy M_Discretize M_Rule M_FDT M_ID3 M_Neighborhood M_Sampling M_Genetic M_Utils S_Utils P_FuzzyVar P_Metrics P_Counterfactual P_Neighborhood2 P_Explainer P_Sampling P_Genetic P_ID3b P_Utils P_Utils2.
Set Implicit Arguments.
Open Scope Qc_scope.

Lemma In_firstn A (x : A) k l : In x (firstn k l) -> In x l.
Proof. revert k. induction l as [|a l IH]; intros [|k]; cbn; try tauto. intros [->|I]; [left; reflexivity|right; eauto]. Qed.
Lemma SS_firstn A (R : A -> A -> Prop) k l : StronglySorted R l -> StronglySorted R (firstn k l).
Proof.
  revert k. induction l as [|a l IH]; intros [|k] S; cbn; try constructor; inversion S as [|? ? S' F]; subst.
  - apply IH. assumption.
  - rewrite Forall_forall in *. intros b B. apply F. eapply In_firstn. eassumption.
Qed.
Lemma NoDup_firstn A k (l : list A) : NoDup l -> NoDup (firstn k l).
Proof.
  revert k. induction l as [|a l IH]; intros [|k] N; cbn; try constructor; inversion N as [|? ? NI N']; subst; [intro I; apply NI; eapply In_firstn; eassumption|apply IH; assumption].
Qed.
Lemma SS_split A (R : A -> A -> Prop) k l : StronglySorted R l -> forall x y, In x (firstn k l) -> In y (skipn k l) -> R x y.
Proof.
  revert k. induction l as [|a l IH]; intros [|k] S x y X Y; cbn in X, Y; try contradiction. inversion S as [|? ? S' F]; subst. destruct X as [->|X]; [|exact (IH k S' x y X Y)].
  rewrite Forall_forall in F. apply F. rewrite <- (firstn_skipn k l). apply in_or_app. right. assumption.
Qed.
Lemma firstn_nearest argsort ds k : sorts argsort -> nearest_k ds (seq 0 (List.length ds)) k (firstn k (argsort ds)).
Proof.
  intro H. destruct (H ds) as (P & S). unfold nearest_k. splits.
  - apply NoDup_firstn. apply (Permutation_NoDup (Permutation_sym P)). apply seq_NoDup.
  - intros i I. apply In_firstn in I. apply (Permutation_in _ P). assumption.
  - rewrite firstn_length, (Permutation_length P). reflexivity.
  - apply SS_firstn. assumption.
  - intros i j I J N. assert (J' : In j (argsort ds)) by (apply (Permutation_in _ (Permutation_sym P)); assumption). rewrite <- (firstn_skipn k (argsort ds)) in J'. apply in_app_or in J'. destruct J' as [J'|J']; [contradiction|].
    exact (SS_split k S i j I J').
Qed.
Lemma nearest_map ds ds' m k js (f : nat -> nat) : (forall i j, (i < m)%nat -> (j < m)%nat -> f i = f j -> i = j) -> (forall j, (j < m)%nat -> nth (f j) ds None = nth j ds' None) ->
  nearest_k ds' (seq 0 m) k js -> nearest_k ds (map f (seq 0 m)) k (map f js).
Proof.
  intros INJ V (N & I & L & S & O). assert (B : forall j, In j js -> (j < m)%nat) by (intros j J; apply I in J; apply in_seq in J; lia). unfold nearest_k. splits.
  - clear - N B INJ. induction js as [|j js IH]; [constructor|]. inversion N as [|? ? NI N']; subst. cbn. constructor; [|apply IH; [assumption|intros; apply B; right; assumption]].
    intro A. apply in_map_iff in A. destruct A as (i & E & Ii). assert (i = j) by (apply INJ; [apply B; right; assumption|apply B; left; reflexivity|assumption]). subst. contradiction.
  - intros x X. apply in_map_iff in X. destruct X as (j & <- & J). apply in_map. apply I. assumption.
  - rewrite !map_length. assumption.
  - clear - S B V. induction S as [|j js S IH F]; [constructor|]. cbn. constructor; [apply IH; intros; apply B; right; assumption|]. rewrite Forall_forall in *. intros x X. apply in_map_iff in X. destruct X as (i & <- & Ii).
    rewrite !V by (apply B; [right; assumption] || apply B; left; reflexivity). apply F. assumption.
  - intros x y X Y NY. apply in_map_iff in X, Y. destruct X as (i & <- & Ii), Y as (j & <- & J). rewrite !V by (apply in_seq in J; lia || apply B; assumption). apply O; [assumption|assumption|]. intro C. apply NY. apply in_map. assumption.
Qed.
Lemma closest_nearest argsort ds (dis : list (nat * fl)) k : sorts argsort -> NoDup (map fst dis) -> (forall i d, In (i, d) dis -> nth i ds None = d) ->
  exists l, closest_of argsort dis k = Ok l /\ nearest_k ds (map fst dis) k l.
Proof.
  intros SO N V. assert (Q := firstn_nearest (map snd dis) k SO). rewrite map_length in Q. remember (firstn k (argsort (map snd dis))) as js eqn:Ej.
  pose (f := fun j => nth j (map fst dis) 0%nat). assert (C : map f (seq 0 (List.length dis)) = map fst dis).
  { unfold f. clear. apply (nth_ext _ _ 0%nat 0%nat); [rewrite !map_length, seq_length; reflexivity|]. intros n H. rewrite map_length, seq_length in H. rewrite (nth_indep _ 0%nat (nth 0%nat (map fst dis) 0%nat)) by (rewrite map_length, seq_length; assumption). rewrite (map_nth (fun j => nth j (map fst dis) 0%nat) (seq 0 (List.length dis)) 0%nat n). rewrite seq_nth by assumption. reflexivity. }
  exists (map f js). split.
  - unfold closest_of. rewrite <- Ej. assert (B : forall j, In j js -> (j < List.length dis)%nat) by (intros j J; apply Q in J; apply in_seq in J; lia). clear - B. induction js as [|j js IH]; [reflexivity|].
    cbn [mapM map]. unfold lget at 1. assert (E : nth_error (map fst dis) j = Some (f j)). { apply nth_error_nth'. rewrite map_length. apply B. left; reflexivity. } rewrite E. cbn [ret_opt bind]. rewrite IH; [reflexivity|]. intros; apply B; right; assumption.
  - rewrite <- C. apply nearest_map with (ds' := map snd dis); [| |assumption].
    + intros i j I J E. unfold f in E. apply (proj1 (NoDup_nth (map fst dis) 0%nat) N); [rewrite map_length; assumption|rewrite map_length; assumption|assumption].
    + intros j J. unfold f. destruct (nth_error dis j) as [[i d]|] eqn:E; [|apply nth_error_None in E; lia].
      rewrite (nth_error_nth (map fst dis) j 0%nat (map_nth_error fst j dis E)). cbn [fst]. transitivity d; [apply V; apply nth_error_In in E; assumption|]. symmetry. apply nth_error_nth. exact (map_nth_error snd j dis E).
Qed.

(** rows of a frame *)
Lemma records_length df : List.length (records df) = frame_length df.
Proof. unfold records. rewrite map_length, seq_length. reflexivity. Qed.
Lemma matrix_length c df : List.length (matrix_without c df) = frame_length df.
Proof. unfold matrix_without. rewrite map_length, seq_length. reflexivity. Qed.
Lemma frame_length_rect n df : rectangular n df -> df <> [] -> frame_length df = n.
Proof. intros (_ & R) N. destruct df as [|[c col] df]; [contradiction|]. cbn. apply (R c). left. reflexivity. Qed.
Lemma records_value n df i z : rectangular n df -> nth_error (records df) i = Some z -> forall c, dget c z = value_at df c i.
Proof.
  intros R H c. assert (LT : (i < frame_length df)%nat) by (rewrite <- records_length; apply nth_error_Some; congruence). unfold records in H.
  destruct (nth_error (seq 0 (frame_length df)) i) as [j|] eqn:E; [|rewrite nth_error_None, seq_length in E; lia].
  rewrite (map_nth_error _ _ _ E) in H. assert (Z : z = map (fun cc : string * list cell => (fst cc, nth j (snd cc) (CNum 0))) df) by congruence. subst z.
  assert (J : j = i /\ (i < frame_length df)%nat). { assert (B : (i < List.length (seq 0 (frame_length df)))%nat) by (apply nth_error_Some; congruence). rewrite seq_length in B. split; [|assumption]. apply (nth_error_nth _ _ 0%nat) in E. rewrite seq_nth in E by assumption. lia. }
  destruct J as (-> & B). unfold value_at. destruct df as [|p df0]; [cbn in B; lia|]. rewrite (frame_length_rect R) in B by discriminate. clear H E.
  destruct R as (_ & R). revert R. generalize (p :: df0) as d. induction d as [|[k col] d IH]; intro R; [reflexivity|]. cbn [map dget fst snd]. destruct (eqb c k) eqn:E.
  - symmetry. apply nth_error_nth'. rewrite (R k col (or_introl eq_refl)). assumption.
  - apply IH. intros. apply (R c0). right. assumption.
Qed.

(** encoding keeps the number of rows *)
Lemma dset_rows c (codes col : list cell) df : dget c df = Some col -> List.length codes = List.length col -> frame_length (dset c codes df) = frame_length df.
Proof.
  destruct df as [|[k v] df]; [discriminate|]. cbn [dget dset]. destruct (eqb c k); cbn [frame_length]; [intro H; injection H as ->; auto|reflexivity].
Qed.
Lemma encode_rows df columns le df' e : label_encode df columns le = Ok (df', e) -> frame_length df' = frame_length df.
Proof.
  unfold label_encode. destruct le as [encs|]; intro H.
  - match type of H with bind ?r _ = _ => destruct r as [d|] eqn:E; [|discriminate] end. cbn [bind] in H. injection H as <- <-.
    refine (@foldM_inv _ _ (fun d : frame => frame_length d = frame_length df) _ columns df d _ eq_refl E). intros s c s' _ P F. destruct (dget c encs) as [u|]; [|discriminate]. cbn [ret_opt bind] in F. unfold fcolumn in F. destruct (dget c s) as [col|] eqn:C; [|discriminate]. cbn [ret_opt bind] in F.
    destruct (transform u col) as [codes|] eqn:T; [|discriminate]. cbn [bind] in F. injection F as <-. rewrite (@dset_rows _ codes col _ C) by (eapply transform_length; eassumption). assumption.
  - refine (@foldM_inv _ _ (fun d : frame * encoders => frame_length (fst d) = frame_length df) _ columns (df, []) (df', e) _ eq_refl H). intros s c s' _ P F. unfold fcolumn in F. destruct (dget c (fst s)) as [col|] eqn:C; [|discriminate]. cbn [ret_opt bind] in F.
    destruct (np_unique col) as [u|]; [|discriminate]. cbn [bind] in F. destruct (transform u col) as [codes|] eqn:T; [|discriminate]. cbn [bind] in F. injection F as <-. cbn [fst]. rewrite (@dset_rows _ codes col _ C) by (eapply transform_length; eassumption). assumption.
Qed.
Lemma common_shared a b : NoDup a -> common a b = shared a b.
Proof. intro N. unfold common, shared. rewrite nodup_fixed_point by assumption. f_equal. apply filter_ext. intro i. destruct (existsb (Nat.eqb i) b) eqn:E.
  - apply memb_In. apply existsb_exists in E. destruct E as (j & J & Q). apply Nat.eqb_eq in Q. subst. assumption.
  - destruct (memb i b) eqn:M; [|reflexivity]. apply memb_In in M. rewrite (proj2 (existsb_exists (Nat.eqb i) b)) in E; [discriminate|]. exists i. split; [assumption|apply Nat.eqb_refl].
Qed.
Lemma mapM_enum_zip A B C (f : nat * (A * B) -> res C) (g : nat -> C) (la : list A) : forall (lb : list B), List.length la = List.length lb ->
  (forall i a b, nth_error la i = Some a -> nth_error lb i = Some b -> f (i, (a, b)) = Ok (g i)) -> mapM f (enumerate (zip la lb)) = Ok (map g (seq 0 (List.length la))).
Proof.
  intros lb L H. unfold enumerate, zip. rewrite combine_length, <- L, Nat.min_id.
  assert (G : forall k (la : list A) (lb : list B), List.length la = List.length lb -> (forall i a b, nth_error la i = Some a -> nth_error lb i = Some b -> f ((k + i)%nat, (a, b)) = Ok (g (k + i)%nat)) ->
    mapM f (combine (seq k (List.length la)) (combine la lb)) = Ok (map g (seq k (List.length la)))).
  { clear. intros k la. revert k. induction la as [|a la IH]; intros k [|b lb] L H; try discriminate; [reflexivity|]. cbn [List.length seq combine mapM map].
    assert (H0 := H 0%nat a b eq_refl eq_refl). rewrite Nat.add_0_r in H0. rewrite H0. cbn [bind]. rewrite IH; [reflexivity|cbn in L; congruence|]. intros i a' b' A' B'. specialize (H (S i) a' b' A' B'). rewrite Nat.add_succ_r in H. exact H. }
  exact (G 0%nat la lb L H).
Qed.
Lemma filter_map_comm A B (f : A -> B) (p : B -> bool) l : filter p (map f l) = map f (filter (fun a => p (f a)) l).
Proof. induction l as [|a l IH]; [reflexivity|]. cbn. destruct (p (f a)); cbn; rewrite IH; reflexivity. Qed.
Lemma small_count c ratio : 0 < ratio -> ratio <= 1 -> qltb (qn c) ratio = Nat.eqb c 0.
Proof.
  intros P Q. destruct c as [|c]; [rewrite qn_0; cbn; apply qltb_lt; assumption|]. cbn. apply qltb_ge. rewrite qn_S. assert (N := qn_nonneg c). qlra.
Qed.
Lemma int_share_spec k ratio : 0 <= ratio -> qn (int_share k ratio) <= qn k * ratio /\ qn k * ratio < qn (int_share k ratio) + 1.
Proof.
  intro P. unfold int_share. assert (N := Qcmult_nonneg (qn_nonneg k) P). remember (qn k * ratio) as v eqn:Ev. clear Ev.
  assert (F1 := Qround.Qfloor_le (this v)). assert (F2 := Qround.Qlt_floor (this v)). assert (Z0 : (0 <= Qround.Qfloor (this v))%Z).
  { rewrite <- (Qround.Qfloor_Z 0). apply Qround.Qfloor_resp_le. unfold Qcle in N. exact N. }
  unfold qn. rewrite Z2Nat.id by assumption. split.
  - unfold Qcle, qz. rewrite this_Q2Qc. assumption.
  - unfold Qclt. rewrite this_plus. unfold qz. rewrite this_Q2Qc. rewrite inject_Z_plus in F2. exact F2.
Qed.
Lemma diffoutcome_spec argsort distance predict df x discrete cls encs k ratio dfe ds : sorts argsort ->
  label_encode df discrete (Some encs) = Ok (dfe, encs) -> List.length ds = frame_length df ->
  (forall i z, nth_error (records df) i = Some z -> distance x z = Ok (nth i ds None)) ->
  let zero := fun i => Z.eqb (predict (nth i (matrix_without cls dfe) [])) 0 in
  let rows := seq 0 (frame_length df) in
  exists all zeros ones,
    nearest_k ds rows k all /\ nearest_k ds (filter zero rows) k zeros /\ nearest_k ds (filter (fun i => negb (zero i)) rows) k ones /\
    get_closest_diffoutcome argsort distance predict df x discrete cls encs k ratio =
      if Nat.eqb (List.length all) 0 then Err ZeroDivisionError
      else if qltb (qn (shared all zeros) / qn (List.length all)) ratio then Ok (firstn (k - int_share k ratio) all ++ firstn (int_share k ratio) zeros)
      else if qltb (qn (shared all ones)) ratio then Ok (firstn (k - int_share k ratio) all ++ firstn (int_share k ratio) ones)
      else Ok all.
Proof.
  intros SO LE LD DV zero rows.
  assert (M : mapM (fun izz : nat * (record * list cell) => let '(idx, (z, z1)) := izz in do d <- distance x z; Ok ((idx, d), Z.eqb (predict z1) 0)) (enumerate (zip (records df) (matrix_without cls dfe))) =
    Ok (map (fun i => ((i, nth i ds None), zero i)) rows)).
  { unfold rows. rewrite <- records_length. apply mapM_enum_zip; [rewrite records_length, matrix_length; symmetry; exact (encode_rows _ _ _ LE)|].
    intros i z z1 Z Z1. rewrite (DV i z Z). cbn [bind]. unfold zero. rewrite (nth_error_nth _ _ [] Z1). reflexivity. }
  assert (A1 : nearest_k ds rows k (firstn k (argsort ds))). { unfold rows. rewrite <- LD. apply firstn_nearest. assumption. }
  pose (part := fun p : nat -> bool => map (fun i => (i, nth i ds None)) (filter p rows)).
  assert (PF : forall p, map fst (part p) = filter p rows) by (intro p; unfold part; rewrite map_map; cbn [fst]; apply map_id).
  assert (PN : forall p, exists l, closest_of argsort (part p) k = Ok l /\ nearest_k ds (filter p rows) k l).
  { intro p. rewrite <- (PF p). apply closest_nearest; [assumption|rewrite PF; apply NoDup_filter, seq_NoDup|]. intros i d I. unfold part in I. apply in_map_iff in I. destruct I as (j & E & _). congruence. }
  destruct (PN zero) as (zeros & CZ & NZ). destruct (PN (fun i => negb (zero i))) as (ones & CO & NO).
  exists (firstn k (argsort ds)), zeros, ones. split; [assumption|]. split; [assumption|]. split; [assumption|].
  unfold get_closest_diffoutcome. rewrite LE. cbn [bind fst]. match goal with |- bind ?r _ = _ => replace r with (@Ok (list (nat * fl * bool)) (map (fun i => ((i, nth i ds None), zero i)) rows)) by (symmetry; exact M) end. cbn [bind].
  assert (E0 : map fst (filter (fun r : nat * fl * bool => snd r) (map (fun i => ((i, nth i ds None), zero i)) rows)) = part zero).
  { rewrite filter_map_comm, map_map. cbn [fst snd]. reflexivity. }
  assert (E1 : map fst (filter (fun r : nat * fl * bool => negb (snd r)) (map (fun i => ((i, nth i ds None), zero i)) rows)) = part (fun i => negb (zero i))).
  { rewrite filter_map_comm, map_map. cbn [fst snd]. reflexivity. }
  assert (E2 : map (fun r : nat * fl * bool => snd (fst r)) (map (fun i => ((i, nth i ds None), zero i)) rows) = ds).
  { rewrite map_map. cbn [fst snd]. unfold rows. rewrite <- LD. exact (@map_seq_nth (option Qc) None ds). }
  unfold fl in *. rewrite E0, E1, E2, CZ. cbn [bind]. rewrite CO. cbn [bind]. rewrite !common_shared by apply A1. reflexivity.
Qed.
