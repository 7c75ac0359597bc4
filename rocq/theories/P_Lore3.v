(** * Proofs about the smoothed LORE neighborhood *)
From Verif Require Import Prelude M_Fuzzy M_Discretize M_Rule M_FDT M_ID3 M_Neighborhood M_Sampling M_Genetic M_Utils M_Lore.
From Verif Require Import P_FuzzyVar P_Metrics P_Factual P_Counterfactual P_Neighborhood2 P_Sampling P_Genetic P_Genetic2 P_Utils P_Utils2 P_Utils3 P_Utils4 P_Lore P_Lore2.
From Verif Require Import S_Utils S_Genetic S_Lore S_Lore2.
Unset Implicit Arguments.
Open Scope Qc_scope.

Lemma Qc_cancel c a b : c <> 0 -> c * a = c * b -> a = b.
Proof. intros N E. assert (F : (c * a) / c = (c * b) / c) by congruence. replace a with (c * a / c) by (field; assumption). replace b with (c * b / c) by (field; assumption). assumption. Qed.
Lemma range_spec l lo hi : qminimum l = Ok lo -> qmaximum l = Ok hi -> range_of l lo hi.
Proof. intros A B. apply qminimum_spec in A. apply qmaximum_spec in B. destruct A as (A1 & A2), B as (B1 & B2). split; [assumption|]. split; [assumption|]. intros x I. split; auto. Qed.
Lemma clamped_spec lo hi v : lo <= hi -> clamped lo hi v (let w := if qltb hi v then hi else v in if qltb w lo then lo else w).
Proof.
  intro L. cbn zeta. unfold clamped. destruct (qltb hi v) eqn:A.
  - apply qltb_lt in A. destruct (qltb hi lo) eqn:B; [apply qltb_lt in B; exfalso; qlra|]. splits; intros; qlra.
  - apply qltb_ge in A. destruct (qltb v lo) eqn:B; [apply qltb_lt in B; splits; intros; qlra|apply qltb_ge in B]. splits; intros; qlra.
Qed.
Lemma clip_spec X2E feat_idx continuous : forall df df', NoDup continuous -> clip_columns df continuous X2E feat_idx = Ok df' -> clamped_frame X2E feat_idx continuous df df'.
Proof.
  unfold clip_columns. induction continuous as [|c continuous IH]; intros df df' N H.
  - cbn in H. injection H as <-. split; [reflexivity|]. split; [reflexivity|intros c []].
  - inversion N as [|? ? NI N']; subst. cbn [foldM] in H.
    destruct (dget c feat_idx) as [i|] eqn:F; [|discriminate]. cbn [ret_opt bind] in H.
    destruct (qcolumn X2E i) as [observed|] eqn:Q; [|discriminate]. cbn [bind] in H.
    destruct (qminimum observed) as [lo|] eqn:LO; [|discriminate]. cbn [bind] in H.
    destruct (qmaximum observed) as [hi|] eqn:HI; [|discriminate]. cbn [bind] in H.
    unfold fcolumn at 1 in H. destruct (dget c df) as [cells|] eqn:C; [|discriminate]. cbn [ret_opt bind] in H.
    destruct (numbers cells) as [vs|] eqn:V; [|discriminate]. cbn [bind] in H. apply numbers_spec in V. subst cells.
    assert (R := range_spec _ _ _ LO HI). assert (LH : lo <= hi). { destruct R as (A & B & D). apply (D lo A). }
    assert (K : In c (dkeys df)) by (eapply dget_Some_key; eassumption).
    apply IH in H; [|assumption]. destruct H as (A & B & D).
    split; [rewrite A; apply dkeys_dset; assumption|]. split.
    + intros d M. rewrite B by (intro; apply M; right; assumption). apply dset_other. intro; subst; apply M; left; reflexivity.
    + intros d I. destruct (string_dec d c) as [->|Ne].
      * exists i, observed, lo, hi, vs. eexists. rewrite (B c NI), dset_same. split; [assumption|]. split; [apply qcolumn_spec; assumption|]. split; [assumption|]. split; [assumption|]. split; [reflexivity|].
        clear - LH. induction vs as [|v vs IH]; cbn [map]; constructor; [|assumption]. apply (clamped_spec lo hi v LH).
      * destruct I as [I|I]; [congruence|]. destruct (D d I) as (i' & o' & lo' & hi' & vs' & ws' & D1 & D2 & D3 & D4 & D5). rewrite dset_other in D4 by assumption. exists i', o', lo', hi', vs', ws'. tauto.
Qed.

Lemma z_below_spec l x : z_below_3 l x = true <-> within_3 l x.
Proof.
  unfold z_below_3, within_3. destruct l as [|a l].
  { cbn. split; [discriminate|]. intros (m & v & (E & _) & _). congruence. }
  remember (a :: l) as u eqn:U. assert (NE : u <> []) by (subst; discriminate). clear U. assert (P := len_pos NE). assert (Z : qn (List.length u) <> 0) by (intro Z; rewrite Z in P; qlra).
  destruct (variance u) as [v|] eqn:V; [|apply variance_none in V; contradiction]. destruct (variance_dev _ V) as (m & M & _ & EV & EM). rewrite M.
  assert (A : mean_of u m). { split; [assumption|]. rewrite EM. rewrite Qcmult_comm. apply Qcdiv_mult. assumption. }
  assert (B : variance_of u m v). { unfold variance_of. rewrite EV. rewrite Qcmult_comm. apply Qcdiv_mult. assumption. }
  rewrite andb_true_iff, !qltb_lt. split; [intros (V0 & S); exists m, v; tauto|].
  intros (m' & v' & A' & B' & V0 & S). assert (m' = m). { destruct A as (_ & A), A' as (_ & A'). apply (Qc_cancel (qn (List.length u))); [assumption|congruence]. } subst m'.
  assert (v' = v) by (apply (Qc_cancel (qn (List.length u))); [assumption|]; unfold variance_of in *; congruence). subst v'. tauto.
Qed.

(** selecting by a mask *)
Lemma mask_rows A (d : A) (f : nat -> bool) (col : list A) : forall k,
  map snd (filter fst (zip (map f (seq k (List.length col))) col)) = map (fun r => nth (r - k) col d) (filter f (seq k (List.length col))).
Proof.
  induction col as [|x col IH]; intro k; [reflexivity|]. cbn [List.length seq map zip filter fst].
  assert (E : map (fun r => nth (r - S k) col d) (filter f (seq (S k) (List.length col))) = map (fun r => nth (r - k) (x :: col) d) (filter f (seq (S k) (List.length col)))).
  { apply map_ext_in. intros r I. apply filter_In in I. destruct I as (I & _). apply in_seq in I. replace (r - k)%nat with (S (r - S k)) by lia. reflexivity. }
  specialize (IH (S k)). unfold zip in *. cbn [map2 filter fst]. destruct (f k); cbn [map snd]; rewrite <- E, <- IH; [rewrite Nat.sub_diag; reflexivity|reflexivity].
Qed.
Lemma seq_sorted k n : StronglySorted lt (seq k n).
Proof. revert k. induction n as [|n IH]; intro k; constructor; [apply IH|]. apply Forall_forall. intros r I. apply in_seq in I. lia. Qed.
Lemma SS_filter A (R : A -> A -> Prop) f l : StronglySorted R l -> StronglySorted R (filter f l).
Proof.
  induction 1 as [|x l S IH F]; [constructor|]. cbn. destruct (f x); [|assumption]. constructor; [assumption|]. apply Forall_forall. intros y I. apply filter_In in I. rewrite Forall_forall in F. apply F. tauto.
Qed.
Lemma drop_spec n df continuous df' : rectangular n df -> df <> [] -> drop_outliers df continuous = Ok df' -> exists rows, StronglySorted lt rows /\
  (forall r, In r rows <-> (r < n)%nat /\ inlying df continuous r) /\ df' = map (fun cc => (fst cc, pick rows (snd cc))) df.
Proof.
  intros R NE H. unfold drop_outliers in H. rewrite (frame_length_rect R NE) in H. destruct R as (ND & R).
  match type of H with bind ?r _ = _ => destruct r as [cols|] eqn:E; [|discriminate] end. cbn [bind] in H. rewrite mapM_ok in E.
  assert (C : forall c, In c continuous -> exists vs, In vs cols /\ dget c df = Some (map CNum vs) /\ List.length vs = n).
  { clear H. induction E as [|c vs l vss Ec E IH]; intros d I; [destruct I|].
    destruct I as [<-|I]; [|destruct (IH d I) as (ws & A & B); exists ws; split; [right; assumption|assumption]].
    unfold fcolumn in Ec. destruct (dget c df) as [cells|] eqn:C; [|discriminate]. cbn [ret_opt bind] in Ec. apply numbers_spec in Ec. subst cells. exists vs. split; [left; reflexivity|]. split; [reflexivity|].
    apply dget_In in C. apply R in C. rewrite map_length in C. assumption. }
  assert (C' : forall vs, In vs cols -> exists c, In c continuous /\ dget c df = Some (map CNum vs)).
  { clear H C. induction E as [|c vs l vss Ec E IH]; intros ws I; [destruct I|].
    destruct I as [<-|I]; [|destruct (IH ws I) as (d & A & B); exists d; split; [right; assumption|assumption]].
    unfold fcolumn in Ec. destruct (dget c df) as [cells|] eqn:C; [|discriminate]. cbn [ret_opt bind] in Ec. apply numbers_spec in Ec. subst cells. exists c. split; [left; reflexivity|exact C]. }
  set (f := fun i => forallb (fun values => z_below_3 values (nth i values 0)) cols) in *.
  exists (filter f (seq 0 n)). split; [apply SS_filter, seq_sorted|]. split.
  - intro r. rewrite filter_In, in_seq. unfold f. rewrite forallb_forall. unfold inlying. split.
    + intros (I & F). split; [lia|]. intros c Ic. destruct (C c Ic) as (vs & A & B & L). exists vs, (nth r vs 0). split; [assumption|]. split; [apply nth_error_nth'; lia|]. apply z_below_spec. apply F. assumption.
    + intros (L & F). split; [lia|]. intros vs I. destruct (C' vs I) as (c & Ic & D). destruct (F c Ic) as (ws & w & D' & Nw & W). assert (ws = vs). { rewrite D in D'. injection D' as D'. assert (T := f_equal numbers D'). rewrite !numbers_map in T. congruence. }
      subst ws. apply z_below_spec. rewrite (nth_error_nth _ _ 0 Nw). assumption.
  - injection H as <-. apply map_ext_in. intros (c & col) I. cbn [fst snd]. f_equal. unfold pick. rewrite <- (R c col I). rewrite (mask_rows _ (CNum 0) f col 0). apply map_ext. intro r. rewrite Nat.sub_0_r. reflexivity.
Qed.

(** the encoders applied to every column but the class *)
Lemma encoders_fold cls encs : forall df df', NoDup (dkeys encs) ->
  foldM (fun edf (le : string * list cell) => if eqb (fst le) cls then Ok edf else do col <- fcolumn edf (fst le); do codes <- transform (snd le) col; Ok (dset (fst le) codes edf)) df encs = Ok df' ->
  dkeys df' = dkeys df /\ (forall c, c = cls \/ ~ In c (dkeys encs) -> dget c df' = dget c df) /\
  forall c u, c <> cls -> In (c, u) encs -> exists col codes, dget c df = Some col /\ transform u col = Ok codes /\ dget c df' = Some codes.
Proof.
  induction encs as [|(c & u) encs IH]; intros df df' N H.
  - cbn in H. injection H as <-. split; [reflexivity|]. split; [reflexivity|intros c u _ []].
  - cbn [dkeys map fst] in N. inversion N as [|? ? NI N']; subst. cbn [foldM fst snd] in H. destruct (eqb c cls) eqn:EC.
    + apply (proj1 (@eqb_eq _ _ c cls)) in EC. subst c. cbn [bind] in H. apply IH in H; [|assumption]. destruct H as (A & B & D). split; [assumption|]. split.
      * intros d [->|M]; [apply B; left; reflexivity|apply B; right; intro; apply M; right; assumption].
      * intros d u' Nd [I|I]; [congruence|apply D; assumption].
    + unfold fcolumn at 1 in H. destruct (dget c df) as [col|] eqn:C; [|discriminate]. cbn [ret_opt bind] in H. destruct (transform u col) as [codes|] eqn:T; [|discriminate]. cbn [bind] in H.
      assert (K : In c (dkeys df)) by (eapply dget_Some_key; eassumption). apply IH in H; [|assumption]. destruct H as (A & B & D).
      assert (NC : c <> cls) by (intro; subst; rewrite eqb_refl in EC; discriminate).
      split; [rewrite A; apply dkeys_dset; assumption|]. split.
      * intros d M. rewrite B by (destruct M as [M|M]; [left; assumption|right; intro; apply M; right; assumption]). apply dset_other. intro; subst. destruct M as [M|M]; [congruence|apply M; left; reflexivity].
      * intros d u' Nd I. destruct (string_dec d c) as [->|Ne].
        -- destruct I as [I|I]; [|exfalso; apply NI; apply (in_map fst) in I; exact I]. injection I as <-. exists col, codes. rewrite B by (right; assumption). rewrite dset_same. tauto.
        -- destruct I as [I|I]; [congruence|]. destruct (D d u' Nd I) as (col' & codes' & D1 & D2 & D3). rewrite dset_other in D1 by assumption. exists col', codes'. tauto.
Qed.
Lemma clamped_rect X2E feat_idx continuous n df df' : rectangular n df -> clamped_frame X2E feat_idx continuous df df' -> rectangular n df'.
Proof.
  intros (ND & R) (K & O & C). split; [rewrite K; assumption|]. intros c col I. assert (D : dget c df' = Some col) by (apply dget_nodup; [rewrite K; assumption|assumption]).
  destruct (in_dec string_dec c continuous) as [J|J].
  - destruct (C c J) as (i & o & lo & hi & vs & ws & _ & _ & _ & D1 & D2 & F). rewrite D2 in D. injection D as <-. rewrite map_length. rewrite <- (Forall2_len F). apply dget_In, R in D1. rewrite map_length in D1. assumption.
  - rewrite (O c J) in D. apply (R c). apply dget_In. assumption.
Qed.
Lemma zip_nth A B (l : list A) (m : list B) i : nth_error (zip l m) i = match nth_error l i, nth_error m i with Some a, Some b => Some (a, b) | _, _ => None end.
Proof.
  revert m i. induction l as [|a l IH]; intros m i; [destruct i; reflexivity|]. destruct m as [|b m]; [destruct i; cbn; [reflexivity|destruct (nth_error l i); reflexivity]|].
  destruct i; [reflexivity|]. exact (IH m i).
Qed.
Lemma nth_key A (d : dict string A) i c v : NoDup (dkeys d) -> nth_error (dkeys d) i = Some c -> dget c d = Some v -> nth_error d i = Some (c, v).
Proof.
  intros N I D. unfold dkeys in I. rewrite nth_error_map in I. destruct (nth_error d i) as [(k & w)|] eqn:E; [|discriminate]. cbn in I. injection I as ->. f_equal. f_equal. apply nth_error_In in E. apply dget_nodup in E; [|assumption]. congruence.
Qed.
Definition append_row (kept : frame) (row : list Qc) : frame := map (fun ccv : (string * list cell) * Qc => (fst (fst ccv), snd (fst ccv) ++ [CNum (snd ccv)])) (zip kept row).
Lemma append_keys kept row : List.length row = List.length kept -> dkeys (append_row kept row) = dkeys kept.
Proof. intro L. unfold append_row, dkeys. rewrite map_map. cbn [fst]. revert row L. induction kept as [|k kept IH]; intros [|v row] L; try discriminate; [reflexivity|]. cbn. f_equal. apply IH. cbn in L. lia. Qed.
Lemma append_get kept row i c col v : List.length row = List.length kept -> NoDup (dkeys kept) -> nth_error (dkeys kept) i = Some c -> dget c kept = Some col -> nth_error row i = Some v ->
  dget c (append_row kept row) = Some (col ++ [CNum v]).
Proof.
  intros L N I D V. apply dget_nodup; [rewrite append_keys; assumption|]. apply (nth_error_In _ i). unfold append_row. rewrite nth_error_map, zip_nth, (nth_key _ _ _ _ _ N I D), V. reflexivity.
Qed.
Lemma pick_keys rows df : dkeys (map (fun cc : string * list cell => (fst cc, pick rows (snd cc))) df) = dkeys df.
Proof. unfold dkeys. rewrite map_map. reflexivity. Qed.
Lemma pick_get rows df c col : NoDup (dkeys df) -> dget c df = Some col -> dget c (map (fun cc : string * list cell => (fst cc, pick rows (snd cc))) df) = Some (pick rows col).
Proof. intros N D. apply dget_nodup; [rewrite pick_keys; assumption|]. apply dget_In in D. apply (in_map (fun cc : string * list cell => (fst cc, pick rows (snd cc)))) in D. exact D. Qed.
Lemma dget_filter cls c (df : frame) : c <> cls -> dget c (filter (fun cc : string * list cell => negb (eqb (fst cc) cls)) df) = dget c df.
Proof.
  intro N. induction df as [|(k & v) df IH]; [reflexivity|]. cbn [filter fst dget]. destruct (eqb k cls) eqn:E; cbn [negb].
  - apply (proj1 (@eqb_eq _ _ k cls)) in E. subst k. rewrite (proj2 (@eqb_neq _ _ c cls) N). exact IH.
  - cbn [dget]. destruct (eqb c k); [reflexivity|exact IH].
Qed.
Lemma keys_filter cls (df : frame) : dkeys (filter (fun cc : string * list cell => negb (eqb (fst cc) cls)) df) = filter (fun c => negb (eqb c cls)) (dkeys df).
Proof. unfold dkeys. induction df as [|(k & v) df IH]; [reflexivity|]. cbn [filter map fst]. destruct (negb (eqb k cls)); cbn [map fst]; rewrite IH; reflexivity. Qed.
Lemma filter_noop A (f : A -> bool) l : (forall x, In x l -> f x = true) -> filter f l = l.
Proof. induction l as [|x l IH]; intro H; [reflexivity|]. cbn. rewrite (H x (or_introl eq_refl)). f_equal. apply IH. intros y I. apply H. right. assumption. Qed.
Lemma matrix_plain cls df : (forall c, In c (dkeys df) -> c <> cls) -> matrix_without cls df = map (fun i => map (fun cc : string * list cell => nth i (snd cc) (CNum 0)) df) (seq 0 (frame_length df)).
Proof.
  intro H. unfold matrix_without. rewrite (filter_noop _ _ df); [reflexivity|]. intros (k & v) I. cbn [fst]. apply (in_map fst) in I. apply H in I. cbn in I. rewrite (proj2 (@eqb_neq _ _ k cls) I). reflexivity.
Qed.

Section Smooth.
  Variables (bb : list Qc -> Z) (cls : string) (instance : list Qc) (df : frame) (continuous : list string) (X2E : list (list Qc)) (feat_idx : dict string nat) (encs : encoders).
  Variable n : nat.
  Hypothesis R : rectangular n df.
  Hypothesis NC : NoDup continuous.
  Hypothesis NK : NoDup (dkeys encs).
  Variables (ndf : frame) (M : list (list cell)).
  Hypothesis H : smooth_neighborhood bb cls instance df continuous X2E feat_idx encs = Ok (ndf, M).
  Lemma smooth_spec : In cls (dkeys df) /\ List.length df = S (List.length instance) /\ dkeys ndf = dkeys df /\
    exists middle rows, clamped_frame X2E feat_idx continuous df middle /\ StronglySorted lt rows /\ (forall r, In r rows <-> (r < n)%nat /\ inlying middle continuous r) /\
    (forall i c col v, nth_error (dkeys df) i = Some c -> dget c middle = Some col -> nth_error (qz (bb instance) :: instance) i = Some v -> dget c ndf = Some (pick rows col ++ [CNum v])) /\
    (instance <> [] -> List.length M = S (List.length rows)) /\
    forall r row j c, nth_error M r = Some row -> nth_error (filter (fun c => negb (eqb c cls)) (dkeys df)) j = Some c ->
      exists v w, value_at ndf c r = Some v /\ nth_error row j = Some w /\ code_of encs c v w.
  Proof.
    pose proof H as H0. unfold smooth_neighborhood in H0. destruct (clip_columns df continuous X2E feat_idx) as [middle|] eqn:CL; [|discriminate]. cbn [bind] in H0.
    apply clip_spec in CL; [|assumption]. assert (RM := clamped_rect _ _ _ _ _ _ R CL).
    assert (NDM : NoDup (dkeys middle)) by apply RM. assert (KM : dkeys middle = dkeys df) by apply CL.
    destruct (drop_outliers middle continuous) as [kept|] eqn:DR; [|discriminate]. cbn [bind] in H0. cbn zeta in H0.
    destruct (negb (Nat.eqb (List.length (qz (bb instance) :: instance)) (List.length kept))) eqn:LE; [discriminate|]. apply negb_false_iff, Nat.eqb_eq in LE.
    assert (NE : middle <> []). { intro; subst middle. cbn in DR. unfold drop_outliers in DR. match type of DR with bind ?r _ = _ => destruct r as [cols|] eqn:E; [|discriminate] end. cbn in DR. injection DR as <-. discriminate. }
    apply (drop_spec n) in DR; [|assumption|assumption]. destruct DR as (rows & SS & IR & ->).
    set (kept := map (fun cc : string * list cell => (fst cc, pick rows (snd cc))) middle) in *.
    assert (KK : dkeys kept = dkeys df) by (unfold kept; rewrite pick_keys; assumption).
    fold (append_row kept (qz (bb instance) :: instance)) in H0. set (nf := append_row kept (qz (bb instance) :: instance)) in *.
    assert (KN : dkeys nf = dkeys df) by (unfold nf; rewrite append_keys by assumption; assumption).
    rewrite KN in H0. destruct (memb cls (dkeys df)) eqn:MC; [|discriminate]. apply (proj1 (@memb_In _ _ cls (dkeys df))) in MC.
    match type of H0 with bind ?r _ = _ => destruct r as [edf|] eqn:E; [|discriminate] end. cbn [bind] in H0. assert (ndf = nf /\ M = matrix_without cls edf) as (-> & EM) by (split; congruence). clear H0.
    apply encoders_fold in E; [|assumption]. destruct E as (EK & EO & EC). rewrite keys_filter, KN in EK.
    assert (G : forall i c col v, nth_error (dkeys df) i = Some c -> dget c middle = Some col -> nth_error (qz (bb instance) :: instance) i = Some v -> dget c nf = Some (pick rows col ++ [CNum v])).
    { intros i c col v I D V. unfold nf. apply (append_get kept _ i); [assumption|rewrite KK; rewrite <- KM; assumption|rewrite KK; assumption|unfold kept; apply pick_get; assumption|assumption]. }
    assert (NDN : NoDup (dkeys nf)) by (rewrite KN, <- KM; assumption).
    (* every column of the result has as many cells *)
    assert (LN : forall c col, dget c nf = Some col -> List.length col = S (List.length rows)).
    { intros c col D. assert (I := dget_Some_key _ _ D). rewrite KN in I. apply In_nth_error in I. destruct I as (i & I).
      assert (Lf : List.length (qz (bb instance) :: instance) = List.length (dkeys df)). { rewrite LE. rewrite <- KK. unfold dkeys. rewrite map_length. reflexivity. }
      assert (B : (i < List.length (dkeys df))%nat) by (apply nth_error_Some; congruence). rewrite <- Lf in B. apply nth_error_Some in B. destruct (nth_error (qz (bb instance) :: instance) i) as [v|] eqn:V; [|congruence].
      destruct (dget c middle) as [mc|] eqn:DM; [|apply dget_None in DM; rewrite KM in DM; apply nth_error_In in I; contradiction].
      rewrite (G i c mc v I DM V) in D. injection D as <-. rewrite app_length. unfold pick. rewrite map_length. cbn. lia. }
    assert (NF : forall c, In c (filter (fun c => negb (eqb c cls)) (dkeys df)) -> c <> cls) by (intros c I; apply not_class in I; tauto).
    assert (EL : forall c col, dget c edf = Some col -> List.length col = S (List.length rows)).
    { intros c col D. assert (I := dget_Some_key _ _ D). rewrite EK in I. assert (Nc := NF c I). destruct (dget c encs) as [u|] eqn:U.
      - apply dget_In in U. destruct (EC c u Nc U) as (col0 & codes & D0 & T & D1). rewrite D1 in D. injection D as <-. rewrite (transform_length _ _ T). rewrite dget_filter in D0 by assumption. apply (LN c). assumption.
      - apply dget_None in U. rewrite (EO c (or_intror U)), dget_filter in D by assumption. apply (LN c). assumption. }
    assert (LD : List.length df = S (List.length instance)). { assert (T : List.length (dkeys df) = List.length kept) by (rewrite <- KK; unfold dkeys; apply map_length). unfold dkeys in T. rewrite map_length in T. rewrite T, <- LE. reflexivity. }
    split; [assumption|]. split; [assumption|]. split; [assumption|]. exists middle, rows. split; [assumption|]. split; [assumption|]. split; [assumption|]. split; [assumption|].
    assert (NDE : NoDup (dkeys edf)). { rewrite EK. apply NoDup_filter. apply R. }
    assert (MP : M = map (fun i => map (fun cc : string * list cell => nth i (snd cc) (CNum 0)) edf) (seq 0 (frame_length edf))). { rewrite EM. apply matrix_plain. intros c I. rewrite EK in I. apply NF. assumption. }
    split.
    - intro NI. rewrite MP, map_length, seq_length. destruct edf as [|(c & col) edf']; [|cbn [frame_length]; apply (EL c); cbn; rewrite eqb_refl; reflexivity].
      exfalso. cbn in EK. destruct instance as [|q qs]; [congruence|]. destruct R as (ND & _). clear - EK LD ND. destruct df as [|(a & ca) [|(b & cb) d]]; try discriminate. cbn in EK, ND. inversion ND as [|? ? Nab _]; subst. cbn in Nab.
      destruct (eqb a cls) eqn:A; cbn in EK; [|discriminate]. destruct (eqb b cls) eqn:B; cbn in EK; [|discriminate]. apply (proj1 (@eqb_eq _ _ _ _)) in A. apply (proj1 (@eqb_eq _ _ _ _)) in B. subst. tauto.
    - intros r row j c Nr Nj. rewrite MP, nth_error_map in Nr. destruct (nth_error (seq 0 (frame_length edf)) r) as [r'|] eqn:SR; [|discriminate]. cbn in Nr. injection Nr as <-.
      assert (Br : (r < frame_length edf)%nat) by (rewrite <- (seq_length (frame_length edf) 0); apply nth_error_Some; congruence). rewrite nth_error_nth' with (d := 0%nat) in SR by (rewrite seq_length; assumption). rewrite seq_nth in SR by assumption. injection SR as <-. cbn [plus].
      assert (Ic := nth_error_In _ _ Nj). assert (Nc := NF c Ic). rewrite <- EK in Nj, Ic. apply dget_ex in Ic. destruct Ic as (col & D). assert (Lc := EL c col D).
      assert (FL : frame_length edf = S (List.length rows)). { destruct edf as [|(k & kc) e]; [destruct j; discriminate|]. cbn [frame_length]. apply (EL k). cbn. rewrite eqb_refl. reflexivity. }
      rewrite FL in Br. assert (W : nth_error (map (fun cc : string * list cell => nth r (snd cc) (CNum 0)) edf) j = Some (nth r col (CNum 0))) by (rewrite nth_error_map, (nth_key _ _ _ _ _ NDE Nj D); reflexivity).
      unfold code_of, value_at. destruct (dget c encs) as [u|] eqn:U.
      + apply dget_In in U. destruct (EC c u Nc U) as (col0 & codes & D0 & T & D1). rewrite D1 in D. injection D as <-. rewrite dget_filter in D0 by assumption. rewrite D0. assert (L0 := LN c col0 D0).
        exists (nth r col0 (CNum 0)), (nth r codes (CNum 0)). assert (Q : nth_error col0 r = Some (nth r col0 (CNum 0))) by (apply nth_error_nth'; lia). split; [assumption|]. split; [assumption|].
        destruct (transform_nth _ _ T _ Q) as (k & P & Nk). exists k. split; [|rewrite (nth_error_nth _ _ (CNum 0) Nk); reflexivity]. clear - P. revert k P. induction u as [|y u IH]; intros k P; [discriminate|]. cbn in P. destruct (eqb (nth r col0 (CNum 0)) y) eqn:Eq; [injection P as <-; apply (proj1 (@eqb_eq _ _ _ _)) in Eq; cbn; congruence|].
        destruct (position (nth r col0 (CNum 0)) u) as [k'|] eqn:Pk; [|discriminate]. cbn in P. injection P as <-. cbn. apply IH. reflexivity.
      + apply dget_None in U. rewrite (EO c (or_intror U)), dget_filter in D by assumption. rewrite D. exists (nth r col (CNum 0)), (nth r col (CNum 0)). split; [apply nth_error_nth'; lia|]. split; [assumption|reflexivity].
  Qed.
End Smooth.

(** Chebyshev: at most a ninth of the values lies 3 deviations away *)
Lemma chebyshev m t l : 0 <= t -> qn (List.length (filter (fun x => negb (qltb ((x - m) * (x - m)) t)) l)) * t <= qsum (map (fun x => (x - m) * (x - m)) l).
Proof.
  intro T. induction l as [|x l IH]; [cbn; rewrite Qcmult_0_l; apply Qcle_refl|]. cbn [filter map]. rewrite qsum_cons. destruct (qltb ((x - m) * (x - m)) t) eqn:E; cbn [negb List.length].
  - assert (S := sq_nonneg (x - m)). generalize dependent ((x - m) * (x - m)). intros. qlra.
  - apply qltb_ge in E. rewrite qn_S, Qcmult_plus_distr_l, Qcmult_1_l. generalize dependent ((x - m) * (x - m)). intros. generalize dependent (qn (Datatypes.length (filter (fun x => negb (qltb ((x - m) * (x - m)) t)) l)) * t). intros. qlra.
Qed.
Lemma filter_seq_nth A (d : A) (f : A -> bool) (l : list A) : forall k, List.length (filter (fun r => f (nth (r - k) l d)) (seq k (List.length l))) = List.length (filter f l).
Proof.
  induction l as [|x l IH]; intro k; [reflexivity|]. cbn [List.length seq filter]. rewrite Nat.sub_diag. change (nth 0 (x :: l) d) with x.
  assert (E : filter (fun r => f (nth (r - k) (x :: l) d)) (seq (S k) (List.length l)) = filter (fun r => f (nth (r - S k) l d)) (seq (S k) (List.length l))).
  { apply filter_ext_in. intros r I. apply in_seq in I. replace (r - k)%nat with (S (r - S k)) by lia. reflexivity. }
  rewrite E. specialize (IH (S k)). destruct (f x); cbn [List.length]; lia.
Qed.
Lemma outliers_few vs : ~ constant vs -> (9 * List.length (filter (fun r => negb (z_below_3 vs (nth r vs 0%Qc))) (seq 0 (List.length vs))) <= List.length vs)%nat.
Proof.
  intro NCst. assert (NE : vs <> []) by (intro; subst; apply NCst; intros a b []).
  rewrite (filter_ext _ (fun r => negb (z_below_3 vs (nth (r - 0) vs 0)))) by (intro r; rewrite Nat.sub_0_r; reflexivity). rewrite (filter_seq_nth _ 0 (fun x => negb (z_below_3 vs x)) vs 0).
  unfold z_below_3. destruct (variance vs) as [v|] eqn:V; [|apply variance_none in V; contradiction]. destruct (variance_dev _ V) as (m & M & _ & EV & EM). rewrite M.
  assert (P := len_pos NE). assert (Z : qn (List.length vs) <> 0) by (intro Z; rewrite Z in P; qlra).
  assert (V0 : 0 < v). { destruct (Qcle_lt_or_eq 0 v) as [L|L]; [|assumption|exfalso; apply NCst; apply (variance_zero vs V); congruence]. exact (variance_nonneg _ V). }
  rewrite (proj2 (qltb_lt 0 v) V0). cbn [andb]. assert (C := chebyshev m (qz 9 * v) vs). fold (dev2 m vs) in C.
  assert (EV' : dev2 m vs = qn (List.length vs) * v) by (rewrite EV, Qcmult_comm; symmetry; apply Qcdiv_mult; assumption). rewrite EV' in C.
  assert (P9 : 0 < qz 9) by reflexivity.
  assert (C' := C (Qclt_le_weak _ _ (Qcmult_pos P9 V0))). set (k := List.length (filter _ vs)) in *.
  assert (Q : qn k * qz 9 <= qn (List.length vs)). { apply Qcmult_lt_0_le_reg_r with (z := v); [assumption|]. rewrite <- Qcmult_assoc. assumption. }
  assert (Q' : qn (9 * k) <= qn (List.length vs)). { replace (qn (9 * k)) with (qn k * qz 9); [assumption|]. clear. generalize k. intro j. induction j as [|j IH]; [reflexivity|]. rewrite qn_S, Qcmult_plus_distr_l, IH, Qcmult_1_l. replace (9 * S j)%nat with (9 * j + 9)%nat by lia. rewrite qn_plus. assert (N9 : qn 9 = qz 9) by (apply Qc_is_canon; reflexivity). rewrite N9. ring. }
  apply qn_le in Q'. exact Q'.
Qed.
Lemma concat_length_le {A B} (f : A -> list B) (l : list A) (b : nat) : (forall a, In a l -> (9 * List.length (f a) <= b)%nat) -> (9 * List.length (List.concat (map f l)) <= List.length l * b)%nat.
Proof. induction l as [|a l IH]; intro H; [cbn; lia|]. cbn [map List.concat List.length]. rewrite app_length. assert (A1 := H a (or_introl eq_refl)). assert (A2 := IH (fun x I => H x (or_intror I))). lia. Qed.
Lemma sorted_lt_NoDup rows : StronglySorted lt rows -> NoDup rows.
Proof. induction 1 as [|x l S IH F]; constructor; [|assumption]. intro I. rewrite Forall_forall in F. specialize (F x I). lia. Qed.
Lemma partition_length A (f : A -> bool) l : (List.length (filter f l) + List.length (filter (fun x => negb (f x)) l) = List.length l)%nat.
Proof. induction l as [|x l IH]; [reflexivity|]. cbn. destruct (f x); cbn; lia. Qed.
Lemma few_dropped n middle continuous rows : rectangular n middle -> StronglySorted lt rows -> (forall r, In r rows <-> (r < n)%nat /\ inlying middle continuous r) ->
  (forall c, In c continuous -> exists vs, dget c middle = Some (map CNum vs) /\ ~ constant vs) -> (9 * (n - List.length rows) <= List.length continuous * n)%nat.
Proof.
  intros (ND & R) SS IR C.
  pose (g := fun c => match dget c middle with Some cells => match numbers cells with Ok vs => filter (fun r => negb (z_below_3 vs (nth r vs 0))) (seq 0 n) | Err _ => [] end | None => [] end).
  assert (L : (9 * List.length (List.concat (map g continuous)) <= List.length continuous * n)%nat).
  { apply concat_length_le. intros c I. destruct (C c I) as (vs & D & K). unfold g. rewrite D, numbers_map. assert (Ln := R c _ (dget_In _ _ D)). rewrite map_length in Ln. rewrite <- Ln. apply outliers_few. assumption. }
  assert (I : incl (filter (fun r => negb (memb r rows)) (seq 0 n)) (List.concat (map g continuous))).
  { intros r I. apply filter_In in I. destruct I as (I & F). apply in_seq in I. apply negb_true_iff in F. apply (proj1 (@memb_not_In _ _ r rows)) in F. apply in_concat.
    destruct (existsb (fun c => memb r (g c)) continuous) eqn:E.
    - apply existsb_exists in E. destruct E as (c & Ic & Mg). apply (proj1 (@memb_In _ _ r (g c))) in Mg. exists (g c). split; [apply in_map; assumption|assumption].
    - exfalso. apply F. apply IR. split; [lia|]. intros c Ic. destruct (C c Ic) as (vs & D & K). exists vs, (nth r vs 0). assert (Ln := R c _ (dget_In _ _ D)). rewrite map_length in Ln. split; [assumption|]. split; [apply nth_error_nth'; lia|].
      apply z_below_spec. destruct (z_below_3 vs (nth r vs 0)) eqn:Z; [reflexivity|]. exfalso. assert (X : existsb (fun c => memb r (g c)) continuous = true); [|congruence]. apply existsb_exists. exists c. split; [assumption|]. apply (proj2 (@memb_In _ _ r (g c))). unfold g. rewrite D, numbers_map. apply filter_In. split; [apply in_seq; lia|rewrite Z; reflexivity]. }
  apply NoDup_incl_length in I; [|apply NoDup_filter, seq_NoDup].
  assert (P := partition_length _ (fun r => memb r rows) (seq 0 n)). rewrite seq_length in P.
  assert (Q : (List.length (filter (fun r => memb r rows) (seq 0 n)) <= List.length rows)%nat). { apply NoDup_incl_length; [apply NoDup_filter, seq_NoDup|]. intros r J. apply filter_In in J. destruct J as (_ & J). apply (proj1 (@memb_In _ _ r rows)) in J. exact J. }
  lia.
Qed.
Lemma constant_outlying vs x : constant vs -> ~ within_3 vs x.
Proof.
  intros C W. apply z_below_spec in W. unfold z_below_3 in W. destruct (qmean vs) as [m|] eqn:M; [|discriminate]. destruct (variance vs) as [v|] eqn:V; [|discriminate]. apply (variance_zero _ V) in C. subst v. discriminate.
Qed.
