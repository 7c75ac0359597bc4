(** * Proofs about mixed_distance, the column lists and label encoding *)
From Verif Require Import Prelude M_Fuzzy M_Discretize M_Rule M_FDT M_ID3 M_Neighborhood M_Sampling M_Genetic M_Utils S_Utils P_Metrics P_Counterfactual P_Neighborhood2 P_Explainer P_Sampling P_Genetic P_ID3b P_Utils.
From Coq Require Import OrderedTypeEx.
Set Implicit Arguments.
Open Scope Qc_scope.

Lemma fields_total x atts : has_fields x atts -> exists l, fields x atts = Ok l /\ List.length l = List.length atts.
Proof.
  intro H. induction atts as [|a atts IH]; [exists []; split; reflexivity|]. destruct (H a (or_introl eq_refl)) as (v & V). destruct IH as (l & L & E); [intros b B; apply H; right; assumption|].
  exists (v :: l). unfold fields in *. cbn [mapM]. rewrite V. cbn [ret_opt bind]. rewrite L. cbn [bind List.length]. split; [reflexivity|congruence].
Qed.
Lemma fields_length x atts l : fields x atts = Ok l -> List.length l = List.length atts.
Proof. apply mapM_length. Qed.
Lemma fields_ok_has x atts l : fields x atts = Ok l -> has_fields x atts.
Proof.
  intros H a A. unfold fields in H. apply mapM_ok in H. induction H as [|b w atts l B H IH]; [destruct A|]. destruct A as [->|A]; [|auto].
  destruct (dget a x) as [v|]; [eauto|discriminate].
Qed.
Lemma numbers_map qs : numbers (map CNum qs) = Ok qs.
Proof. induction qs as [|q qs IH]; [reflexivity|]. unfold numbers in *. cbn [map mapM bind]. rewrite IH. reflexivity. Qed.
Lemma fields_numbers x atts : has_numbers x atts -> exists qs, fields x atts = Ok (map CNum qs) /\ List.length qs = List.length atts.
Proof.
  intro H. induction atts as [|a atts IH]; [exists []; split; reflexivity|]. destruct (H a (or_introl eq_refl)) as (v & V). destruct IH as (l & L & E); [intros b B; apply H; right; assumption|].
  exists (v :: l). unfold fields in *. cbn [mapM]. rewrite V. cbn [ret_opt bind]. rewrite L. cbn [bind List.length map]. split; [reflexivity|congruence].
Qed.

(** set_discrete_continuous *)
Lemma setlist_In sl l x : set_listing sl -> (In x (sl l) <-> In x l).
Proof. intro H. rewrite <- (nodup_In string_dec l x). split; apply Permutation_in; [|apply Permutation_sym]; apply H. Qed.
Lemma setlist_NoDup sl l : set_listing sl -> NoDup (sl l).
Proof. intro H. apply (Permutation_NoDup (Permutation_sym (H l))). apply NoDup_nodup. Qed.
Lemma not_class l (c x : string) : In x (filter (fun f => negb (eqb f c)) l) <-> In x l /\ x <> c.
Proof. rewrite filter_In, Bool.negb_true_iff. unfold eqb. destruct (eq_dec x c); intuition congruence. Qed.

(** label encoding *)
Lemma position_nth x l i : NoDup l -> (position x l = Some i <-> nth_error l i = Some x).
Proof.
  intro N. revert i. induction l as [|y l IH]; intro i; cbn [position].
  - split; [discriminate|]. destruct i; discriminate.
  - inversion N as [|? ? NI N']; subst. specialize (IH N'). destruct (eqb x y) eqn:E.
    + rewrite eqb_eq in E. subst y. split; [intro H; injection H as <-; reflexivity|]. destruct i as [|i]; [reflexivity|]. cbn. intro H. exfalso. apply NI. apply nth_error_In in H. assumption.
    + apply eqb_neq in E. destruct i as [|i]; cbn.
      * split; [destruct (position x l); discriminate|intro H; injection H; congruence].
      * rewrite <- IH. destruct (position x l); cbn; split; congruence.
Qed.
Lemma position_None x l : position x l = None <-> ~ In x l.
Proof.
  induction l as [|y l IH]; cbn [position]; [split; [intros _ []|reflexivity]|]. destruct (eqb x y) eqn:E.
  - rewrite eqb_eq in E. split; [discriminate|]. intro H. exfalso. apply H. left. congruence.
  - apply eqb_neq in E. cbn [In]. destruct (position x l); cbn; [split; [discriminate|intro H; assert (B : ~ In x l) by tauto; apply IH in B; discriminate]|]. split; [|reflexivity]. intros _ [A|A]; [congruence|]. apply IH; [reflexivity|assumption].
Qed.
Lemma position_In x l : In x l -> exists i, position x l = Some i /\ nth_error l i = Some x.
Proof.
  induction l as [|y l IH]; [intros []|]. cbn [position]. intro I. destruct (eqb x y) eqn:E.
  - rewrite eqb_eq in E. subst. exists 0%nat. split; reflexivity.
  - apply eqb_neq in E. destruct I as [->|I]; [congruence|]. destruct (IH I) as (i & P & Q). exists (S i). rewrite P. split; [reflexivity|assumption].
Qed.
Lemma Qfloor_nat n : Qround.Qfloor (this (qn n)) = Z.of_nat n.
Proof. unfold qn, qz. rewrite (Qround.Qfloor_comp _ _ (this_Q2Qc _)). apply Qround.Qfloor_Z. Qed.
Lemma as_index_nat n : as_index (CNum (qn n)) = Some n.
Proof.
  unfold as_index. rewrite Qfloor_nat. rewrite (proj2 (qeqb_eq (qn n) (qz (Z.of_nat n))) eq_refl), (proj2 (qleb_le 0 (qn n)) (qn_nonneg n)). cbn [andb]. rewrite Nat2Z.id. reflexivity.
Qed.
Lemma transform_total classes col : (forall x, In x col -> In x classes) -> exists codes, transform classes col = Ok codes.
Proof.
  induction col as [|x col IH]; intro H; [exists []; reflexivity|]. destruct (position_In x classes) as (i & P & _); [apply H; left; reflexivity|].
  destruct IH as (cs & E); [intros; apply H; right; assumption|]. exists (CNum (qn i) :: cs). unfold transform in *. cbn [mapM]. rewrite P. cbn [ret_opt bind]. rewrite E. reflexivity.
Qed.
Lemma transform_inverse classes col codes : transform classes col = Ok codes -> inverse_transform classes codes = Ok col.
Proof.
  revert codes. induction col as [|x col IH]; intros codes H; [injection H as <-; reflexivity|]. unfold transform in H. cbn [mapM] in H. destruct (position x classes) as [i|] eqn:P; [|discriminate]. cbn [ret_opt bind] in H.
  match type of H with bind ?r _ = _ => destruct r as [cs|] eqn:E; [|discriminate] end. cbn [bind] in H. injection H as <-. unfold inverse_transform. cbn [mapM]. rewrite as_index_nat. cbn [ret_opt bind].
  assert (N : nth_error classes i = Some x). { destruct (position_In x classes) as (j & Pj & Nj); [destruct (in_dec eq_dec x classes) as [I|I]; [assumption|apply position_None in I; congruence]|]. rewrite P in Pj. injection Pj as ->. assumption. }
  rewrite N. cbn [ret_opt bind]. specialize (IH cs E). unfold inverse_transform in IH. rewrite IH. reflexivity.
Qed.
Lemma transform_length classes col codes : transform classes col = Ok codes -> List.length codes = List.length col.
Proof. apply mapM_length. Qed.
Lemma transform_unseen classes col : (exists x, In x col /\ ~ In x classes) -> transform classes col = Err ValueError.
Proof.
  intros (x & I & N). induction col as [|y col IH]; [destruct I|]. unfold transform in *. cbn [mapM]. destruct (position y classes) as [i|] eqn:P; [|reflexivity]. cbn [ret_opt bind].
  destruct I as [->|I]; [apply position_None in N; congruence|]. rewrite (IH I). reflexivity.
Qed.
Lemma transform_nth classes col codes : transform classes col = Ok codes -> forall i x, nth_error col i = Some x -> exists k, position x classes = Some k /\ nth_error codes i = Some (CNum (qn k)).
Proof.
  intros H. apply mapM_ok in H. induction H as [|y c col codes Y H IH]; intros i x E; [destruct i; discriminate|]. destruct i as [|i]; cbn in E.
  - injection E as ->. destruct (position x classes) as [k|]; [|discriminate]. cbn in Y. injection Y as <-. exists k. split; reflexivity.
  - cbn. apply IH. assumption.
Qed.

Lemma string_ltb_trans a b c : String.ltb a b = true -> String.ltb b c = true -> String.ltb a c = true.
Proof.
  intros A B. unfold String.ltb in *. destruct (String.compare a b) eqn:E1; try discriminate. destruct (String.compare b c) eqn:E2; try discriminate.
  apply String_as_OT.cmp_lt in E1. apply String_as_OT.cmp_lt in E2. assert (E3 := String_as_OT.lt_trans _ _ _ E1 E2). apply String_as_OT.cmp_lt in E3. unfold String_as_OT.cmp in E3. rewrite E3. reflexivity.
Qed.
Lemma string_ltb_irrefl a : String.ltb a a = false.
Proof. unfold String.ltb. assert (E : String.compare a a = Eq) by (apply (proj2 (String_as_OT.cmp_eq a a)); reflexivity). rewrite E. reflexivity. Qed.
Lemma string_ltb_total a b : String.ltb a b = false -> String.ltb b a = false -> a = b.
Proof.
  intros A B. unfold String.ltb in *. assert (AS := String_as_OT.cmp_antisym a b). unfold String_as_OT.cmp in AS.
  destruct (String.compare a b) eqn:E1; [apply (proj1 (String_as_OT.cmp_eq a b)); assumption|discriminate|]. destruct (String.compare b a); cbn in AS; discriminate.
Qed.
Lemma SS_map A B (f : A -> B) (R : A -> A -> Prop) (T : B -> B -> Prop) l : (forall a b, R a b -> T (f a) (f b)) -> StronglySorted R l -> StronglySorted T (map f l).
Proof.
  intros H. induction 1 as [|a l S IH F]; cbn; constructor; [assumption|]. rewrite Forall_forall in *. intros b I. apply in_map_iff in I. destruct I as (c & <- & C). auto.
Qed.
Lemma np_unique_sorted col u : np_unique col = Ok u -> StronglySorted cell_lt u.
Proof.
  unfold np_unique. destruct (flat_map cnum col) as [|q qs] eqn:N, (flat_map cstr col) as [|s ss] eqn:S; intro H; try discriminate; cbv beta iota zeta in H.
  - assert (E : u = map CNum (qunique [])) by congruence. subst u. constructor.
  - assert (E : u = map CStr (unique_by String.ltb (s :: ss))) by congruence. subst u. apply (SS_map CStr (R := fun a b => String.ltb a b = true)); [intros a b H0; exact H0|].
    rewrite <- S. exact (unique_by_sorted _ string_ltb_trans string_ltb_total (flat_map cstr col)).
  - assert (E : u = map CNum (qunique (q :: qs))) by congruence. subst u. apply (SS_map CNum (R := Qclt)); [intros a b H0; exact H0|]. apply qunique_sorted.
Qed.
Lemma cell_lt_trans a b c : cell_lt a b -> cell_lt b c -> cell_lt a c.
Proof. destruct a, b, c; cbn; try contradiction; [apply Qclt_trans|apply string_ltb_trans]. Qed.
Lemma cell_lt_irrefl a : ~ cell_lt a a.
Proof. destruct a; cbn; [intro H; qlra|]. rewrite string_ltb_irrefl. discriminate. Qed.
Lemma SS_nth A (R : A -> A -> Prop) l : StronglySorted R l -> forall i j x y, (i < j)%nat -> nth_error l i = Some x -> nth_error l j = Some y -> R x y.
Proof.
  induction 1 as [|a l S IH F]; intros i j x y L X Y; [destruct i; discriminate|]. destruct j as [|j]; [lia|]. cbn in Y. destruct i as [|i]; cbn in X.
  - injection X as <-. rewrite Forall_forall in F. apply F. apply nth_error_In in Y. assumption.
  - apply (IH i j); [lia|assumption|assumption].
Qed.
Lemma sorted_nth_iff l : StronglySorted cell_lt l -> forall i j x y, nth_error l i = Some x -> nth_error l j = Some y -> ((i < j)%nat <-> cell_lt x y).
Proof.
  intros S i j x y X Y. split; [intro L; exact (SS_nth S L X Y)|]. intro C. destruct (Nat.lt_trichotomy i j) as [L|[L|L]]; [assumption| |].
  - subst. rewrite X in Y. injection Y as ->. destruct (cell_lt_irrefl _ C).
  - exfalso. exact (cell_lt_irrefl _ (cell_lt_trans _ _ _ C (SS_nth S L Y X))).
Qed.
Lemma uniform_unique col : uniform col -> exists u, np_unique col = Ok u /\ NoDup u /\ (forall c, In c u <-> In c col) /\ StronglySorted cell_lt u.
Proof. intro H. destruct (np_unique_spec col H) as (u & U & N & I). exists u. split; [assumption|]. split; [assumption|]. split; [assumption|]. exact (np_unique_sorted _ U). Qed.
Lemma not_uniform col : ~ uniform col -> np_unique col = Err TypeError.
Proof.
  intro H. unfold np_unique. destruct (flat_map cnum col) as [|q qs] eqn:N, (flat_map cstr col) as [|s ss] eqn:S; [exfalso|exfalso|exfalso|reflexivity]; apply H.
  - right. intros c I. destruct c as [q|s]; [|eauto]. exfalso. assert (A : In q (flat_map cnum col)) by (apply in_flat_map; exists (CNum q); split; [assumption|left; reflexivity]). rewrite N in A. destruct A.
  - right. intros c I. destruct c as [q|s']; [|eauto]. exfalso. assert (A : In q (flat_map cnum col)) by (apply in_flat_map; exists (CNum q); split; [assumption|left; reflexivity]). rewrite N in A. destruct A.
  - left. intros c I. destruct c as [q'|s]; [eauto|]. exfalso. assert (A : In s (flat_map cstr col)) by (apply in_flat_map; exists (CStr s); split; [assumption|left; reflexivity]). rewrite S in A. destruct A.
Qed.

Lemma dset_dset A c (v w : A) (df : dict string A) : dset c v (dset c w df) = dset c v df.
Proof.
  induction df as [|[k u] df IH]; cbn.
  - rewrite eqb_refl. reflexivity.
  - destruct (eqb c k) eqn:E; cbn; rewrite E; [reflexivity|]. rewrite IH. reflexivity.
Qed.
Lemma dset_id A c (v : A) (df : dict string A) : dget c df = Some v -> dset c v df = df.
Proof.
  induction df as [|[k u] df IH]; cbn; [discriminate|]. destruct (eqb c k) eqn:E; intro H; [injection H as ->; reflexivity|]. rewrite IH by assumption. reflexivity.
Qed.
Lemma dset_comm A c d (v w : A) (df : dict string A) : c <> d -> In c (dkeys df) -> In d (dkeys df) -> dset c v (dset d w df) = dset d w (dset c v df).
Proof.
  intros N. induction df as [|[k u] df IH]; cbn [dkeys map In fst]; [intros []|]. intros C D. cbn [dset].
  destruct (eqb d k) eqn:E, (eqb c k) eqn:F; cbn [dset]; rewrite ?E, ?F; try reflexivity.
  - rewrite eqb_eq in E, F. congruence.
  - apply eqb_neq in E, F. rewrite IH; [reflexivity| |]; [destruct C as [C|C]; [congruence|assumption]|destruct D as [D|D]; [congruence|assumption]].
Qed.
Lemma dkeys_dset A c (v : A) (df : dict string A) : In c (dkeys df) -> dkeys (dset c v df) = dkeys df.
Proof. intro I. rewrite dset_keys. rewrite (proj2 (@memb_In _ _ c (dkeys df)) I). reflexivity. Qed.

(** the encoding of all columns *)
Definition good_columns (df : frame) (columns : list string) : Prop := NoDup columns /\ forall c, In c columns -> exists col, dget c df = Some col /\ uniform col.
Lemma encode_fold columns : forall df encs df' encs', good_columns df columns ->
  foldM (fun (st : frame * encoders) c =>
        do col <- fcolumn (fst st) c;
        do classes <- np_unique col;
        do codes <- transform classes col;
        Ok (dset c codes (fst st), dset c classes (snd st))) (df, encs) columns = Ok (df', encs') ->
  dkeys df' = dkeys df /\ (forall c, ~ In c columns -> dget c df' = dget c df /\ dget c encs' = dget c encs) /\
  forall c col, In c columns -> dget c df = Some col -> exists u codes, np_unique col = Ok u /\ transform u col = Ok codes /\ dget c df' = Some codes /\ dget c encs' = Some u.
Proof.
  induction columns as [|c columns IH]; intros df encs df' encs' G H.
  - cbn in H. injection H as <- <-. split; [reflexivity|]. split; [intros; split; reflexivity|intros c col []].
  - destruct G as (N & G). inversion N as [|? ? NI N']; subst. cbn [foldM] in H. destruct (G c (or_introl eq_refl)) as (col & C & U). unfold fcolumn at 1 in H. cbn [fst snd] in H. rewrite C in H. cbn [ret_opt bind] in H.
    destruct (uniform_unique U) as (u & Eu & Nu & Iu & Su). rewrite Eu in H. cbn [bind] in H. destruct (@transform_total u col) as (codes & T); [intros x I; apply Iu; assumption|]. rewrite T in H. cbn [bind] in H.
    assert (K : In c (dkeys df)) by (eapply dget_Some_key; eassumption).
    apply IH in H.
    + destruct H as (A & B & D). split; [rewrite A; apply dkeys_dset; assumption|]. split.
      * intros d M. destruct (B d) as (B1 & B2); [intro; apply M; right; assumption|]. rewrite B1, B2. rewrite !dset_other by (intro; subst; apply M; left; reflexivity). split; reflexivity.
      * intros d dcol I Dg. destruct (string_dec d c) as [->|Ne].
        -- rewrite C in Dg. injection Dg as <-. exists u, codes. destruct (B c NI) as (B1 & B2). rewrite B1, B2, !dset_same. tauto.
        -- destruct I as [I|I]; [congruence|]. apply D; [assumption|]. rewrite dset_other by assumption. assumption.
    + split; [assumption|]. intros d I. destruct (G d (or_intror I)) as (dcol & Dg & Du). exists dcol. split; [|assumption]. rewrite dset_other by (intro; subst; contradiction). assumption.
Qed.
Lemma encode_total columns df : good_columns df columns -> exists df' encs, label_encode df columns None = Ok (df', encs).
Proof.
  unfold label_encode. generalize (@nil (string * list cell)) as encs0. revert df. induction columns as [|c columns IH]; intros df encs0 G.
  - exists df, encs0. reflexivity.
  - destruct G as (N & G). inversion N as [|? ? NI N']; subst. cbn [foldM]. destruct (G c (or_introl eq_refl)) as (col & C & U). unfold fcolumn at 1. cbn [fst snd]. rewrite C. cbn [ret_opt bind].
    destruct (uniform_unique U) as (u & Eu & Nu & Iu & Su). rewrite Eu. cbn [bind]. destruct (@transform_total u col) as (codes & T); [intros x I; apply Iu; assumption|]. rewrite T. cbn [bind].
    apply IH. split; [assumption|]. intros d I. destruct (G d (or_intror I)) as (dcol & Dg & Du). exists dcol. split; [|assumption]. rewrite dset_other by (intro; subst; contradiction). assumption.
Qed.
(** two dictionaries with the same keys and the same values *)
Lemma dict_ext A (d e : dict string A) : NoDup (dkeys d) -> dkeys d = dkeys e -> (forall c, In c (dkeys d) -> dget c d = dget c e) -> d = e.
Proof.
  revert e. induction d as [|[k v] d IH]; intros [|[k' v'] e] N K H; try discriminate; [reflexivity|]. cbn [dkeys map fst] in *. injection K as <- K. inversion N as [|? ? NI N']; subst.
  assert (E : v = v'). { specialize (H k (or_introl eq_refl)). cbn in H. rewrite eqb_refl in H. congruence. } subst. f_equal. apply IH; [assumption|assumption|].
  intros c C. specialize (H c (or_intror C)). cbn in H. destruct (eqb c k) eqn:E; [rewrite eqb_eq in E; subst; contradiction|]. assumption.
Qed.
(** decoding: the columns with an encoder are replaced *)
Lemma decode_fold encs columns : forall df df', NoDup columns -> label_decode df columns encs = Ok df' ->
  dkeys df' = dkeys df /\ (forall c, ~ In c columns -> dget c df' = dget c df) /\
  forall c, In c columns -> exists u col vals, dget c encs = Some u /\ dget c df = Some col /\ inverse_transform u col = Ok vals /\ dget c df' = Some vals.
Proof.
  unfold label_decode. induction columns as [|c columns IH]; intros df df' N H.
  - cbn in H. injection H as <-. split; [reflexivity|]. split; [reflexivity|intros c []].
  - inversion N as [|? ? NI N']; subst. cbn [foldM] in H. destruct (dget c encs) as [u|] eqn:E; [|discriminate]. cbn [ret_opt bind] in H. unfold fcolumn at 1 in H. destruct (dget c df) as [col|] eqn:C; [|discriminate]. cbn [ret_opt bind] in H.
    destruct (inverse_transform u col) as [vals|] eqn:V; [|discriminate]. cbn [bind] in H. assert (K : In c (dkeys df)) by (eapply dget_Some_key; eassumption).
    apply IH in H; [|assumption]. destruct H as (A & B & D). split; [rewrite A; apply dkeys_dset; assumption|]. split.
    + intros d M. rewrite B by (intro; apply M; right; assumption). apply dset_other. intro; subst; apply M; left; reflexivity.
    + intros d I. destruct (string_dec d c) as [->|Ne].
      * exists u, col, vals. rewrite (B c NI), dset_same. tauto.
      * destruct I as [I|I]; [congruence|]. destruct (D d I) as (u' & col' & vals' & D1 & D2 & D3 & D4). rewrite dset_other in D2 by assumption. exists u', col', vals'. tauto.
Qed.
Lemma decode_total encs columns : forall df, NoDup columns ->
  (forall c, In c columns -> exists u col vals, dget c encs = Some u /\ dget c df = Some col /\ inverse_transform u col = Ok vals) -> exists df', label_decode df columns encs = Ok df'.
Proof.
  unfold label_decode. induction columns as [|c columns IH]; intros df N H; [exists df; reflexivity|]. inversion N as [|? ? NI N']; subst. cbn [foldM].
  destruct (H c (or_introl eq_refl)) as (u & col & vals & E & C & V). rewrite E. cbn [ret_opt bind]. unfold fcolumn at 1. rewrite C. cbn [ret_opt bind]. rewrite V. cbn [bind]. apply IH; [assumption|].
  intros d I. destruct (H d (or_intror I)) as (u' & col' & vals' & D1 & D2 & D3). exists u', col', vals'. rewrite dset_other by (intro; subst; contradiction). tauto.
Qed.
Lemma round_trip columns df df' encs : good_columns df columns -> NoDup (dkeys df) -> label_encode df columns None = Ok (df', encs) -> label_decode df' columns encs = Ok df.
Proof.
  intros G ND H. apply encode_fold in H; [|assumption]. destruct H as (K & O & E). destruct G as (N & G).
  assert (T : forall c, In c columns -> exists u col vals, dget c encs = Some u /\ dget c df' = Some col /\ inverse_transform u col = Ok vals /\ dget c df = Some vals).
  { intros c I. destruct (G c I) as (col & C & U). destruct (E c col I C) as (u & codes & _ & T & D1 & D2). exists u, codes, col. split; [assumption|]. split; [assumption|]. split; [apply transform_inverse; assumption|assumption]. }
  destruct (@decode_total encs columns df' N) as (df2 & D). { intros c I. destruct (T c I) as (u & col & vals & A & B & C & _). exists u, col, vals. tauto. }
  rewrite D. apply (f_equal (@Ok _)). apply decode_fold in D; [|assumption]. destruct D as (K2 & O2 & E2). symmetry. apply dict_ext; [assumption|congruence|].
  intros c I. destruct (in_dec string_dec c columns) as [J|J].
  - destruct (E2 c J) as (u & col & vals & A & B & C & F). destruct (T c J) as (u' & col' & vals' & A' & B' & C' & F'). rewrite F, F'. congruence.
  - rewrite (O2 c J). symmetry. apply O. assumption.
Qed.
(** re-encoding with existing encoders *)
Lemma reencode_fold encs columns : forall df, NoDup columns ->
  (forall c, In c columns -> exists u col codes, dget c encs = Some u /\ dget c df = Some col /\ transform u col = Ok codes) ->
  exists df', label_encode df columns (Some encs) = Ok (df', encs) /\ dkeys df' = dkeys df /\ (forall c, ~ In c columns -> dget c df' = dget c df) /\
  forall c, In c columns -> exists u col codes, dget c encs = Some u /\ dget c df = Some col /\ transform u col = Ok codes /\ dget c df' = Some codes.
Proof.
  unfold label_encode. induction columns as [|c columns IH]; intros df N H.
  - exists df. split; [reflexivity|]. split; [reflexivity|]. split; [reflexivity|intros c []].
  - inversion N as [|? ? NI N']; subst. cbn [foldM]. destruct (H c (or_introl eq_refl)) as (u & col & codes & E & C & V). rewrite E. cbn [ret_opt bind]. unfold fcolumn at 1. rewrite C. cbn [ret_opt bind]. rewrite V. cbn [bind].
    assert (K : In c (dkeys df)) by (eapply dget_Some_key; eassumption).
    destruct (IH (dset c codes df) N') as (df' & A & B & D & F).
    { intros d I. destruct (H d (or_intror I)) as (u' & col' & vals' & D1 & D2 & D3). exists u', col', vals'. rewrite dset_other by (intro; subst; contradiction). tauto. }
    exists df'. split; [exact A|]. split; [rewrite B; apply dkeys_dset; assumption|]. split.
    + intros d M. rewrite D by (intro; apply M; right; assumption). apply dset_other. intro; subst; apply M; left; reflexivity.
    + intros d I. destruct (string_dec d c) as [->|Ne].
      * exists u, col, codes. rewrite (D c NI), dset_same. tauto.
      * destruct I as [I|I]; [congruence|]. destruct (F d I) as (u' & col' & codes' & F1 & F2 & F3 & F4). rewrite dset_other in F2 by assumption. exists u', col', codes'. tauto.
Qed.
