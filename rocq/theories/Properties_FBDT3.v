(** * Properties C88 and C89: how binary fuzzy decision trees choose splits and when they stop *)
From Verif Require Import Prelude M_Fuzzy M_Discretize M_Rule M_FDT M_FBDT S_Rule S_FDT S_FBDT S_FBDT2 S_FBDTPrivate P_FuzzySet P_FuzzyVar P_Entropy P_Rule P_FDT P_FDT2 P_FDT3 P_FDT4 P_FBDT P_FBDT2 P_FBDT3 P_FBDT4 P_FBDT5 P_FBDT6 P_Counterfactual Properties_FDT Properties_FBDT Properties_FBDT2.
From Coq Require Import Reals Lra.
Open Scope string_scope.
Open Scope list_scope.
Open Scope Qc_scope.

Lemma masked_in mu y c : List.length mu = List.length y -> In c (masked mu y) <-> exists j, nth_error y j = Some c /\ 0 < nth j mu 0.
Proof.
  unfold masked, zip. revert y. induction mu as [|m mu IH]; intros [|k y] L; try discriminate.
  - cbn. split; [intros []|intros (j & E & _); destruct j; discriminate].
  - cbn [combine filter fst]. cbn [List.length] in L. injection L as L. specialize (IH y L). split.
    + intro H. destruct (qltb 0 m) eqn:Q.
      * cbn [map In snd] in H. destruct H as [->|H]; [exists 0%nat; split; [reflexivity|]; apply qltb_lt; exact Q|]. apply IH in H. destruct H as (j & E & P). exists (S j). auto.
      * apply IH in H. destruct H as (j & E & P). exists (S j). auto.
    + intros ([|j] & E & P).
      * cbn in E, P. injection E as ->. rewrite (proj2 (qltb_lt 0 m) P). left. reflexivity.
      * assert (H : In c (map snd (filter (fun p => qltb 0 (fst p)) (combine mu y)))) by (apply IH; exists j; auto). destruct (qltb 0 m); [right; exact H|exact H].
Qed.
Lemma masked_count mu y : List.length mu = List.length y -> List.length (masked mu y) = countb (fun x => qltb 0 x) mu.
Proof.
  unfold masked, zip, countb. revert y. induction mu as [|m mu IH]; intros [|k y] L; try discriminate; [reflexivity|]. cbn [List.length] in L. injection L as L. specialize (IH y L). rewrite map_length in *. cbn [combine filter fst]. destruct (qltb 0 m); cbn [List.length]; rewrite IH; reflexivity.
Qed.
Lemma stop_exhausted cfg g mu y p : List.length mu = List.length y -> stop_met cfg g (masked mu y) (bplen p) = true <-> exhausted cfg y mu p \/ (g < f_threshold cfg)%R.
Proof.
  intro L. unfold stop_met, exhausted. rewrite !orb_true_iff, zunique_lt2, Z.ltb_lt, Z.leb_le, Rltb_lt, (masked_count _ _ L). unfold bplen.
  assert (Q : (forall c c', In c (masked mu y) -> In c' (masked mu y) -> c = c') <-> (forall j j' c c', nth_error y j = Some c -> nth_error y j' = Some c' -> 0 < nth j mu 0 -> 0 < nth j' mu 0 -> c = c')).
  { split.
    - intros H j j' c c' E E' P P'. apply H; apply (masked_in _ _ _ L); [exists j|exists j']; auto.
    - intros H c c' I I'. apply (masked_in _ _ _ L) in I. apply (masked_in _ _ _ L) in I'. destruct I as (j & E & P), I' as (j' & E' & P'). exact (H j j' c c' E E' P P'). }
  rewrite Q. tauto.
Qed.
Lemma weighted_value mu y cv : get_class_value mu y = Ok cv -> weighted_by y mu cv.
Proof.
  unfold get_class_value. destruct (qeqb (qsum mu) 0); [discriminate|]. intro H. assert (E : cv = map (fun c => (c, class_card mu y c / qsum mu)) (zunique y)) by congruence. subst cv. split; [rewrite map_map; apply map_id|].
  intros c w I. apply in_map_iff in I. destruct I as (c' & Q & _). injection Q as <- <-. rewrite class_card_sum. reflexivity.
Qed.

(** every inner node: its split gains at least the threshold and more than nothing, no candidate gains more, and its rows
    allowed a split *)
Theorem C88_chosen_split_is_best : forall cfg psort X y t p n, btrained cfg psort X y t -> sorts psort -> bnode_at t p n -> b_leaf n = false ->
  exists a g1 g2 c1 c2, b_children n = [c1; c2] /\ b_value c1 = Some (a, g1) /\ b_value c2 = Some (a, g2) /\
    divided (f_vars cfg) X p (b_mu n) a g1 g2 (b_mu c1) (b_mu c2) /\
    let gain := bgain y (b_mu n) (b_mu c1) (b_mu c2) in
    (0 < gain)%R /\ (f_threshold cfg <= gain)%R /\ ~ exhausted cfg y (b_mu n) p /\
    forall b h1 h2, candidate cfg X y p b h1 h2 -> exists lmu rmu, divided (f_vars cfg) X p (b_mu n) b h1 h2 lmu rmu /\ (bgain y (b_mu n) lmu rmu <= gain)%R.
Proof.
  intros cfg psort X y t p n T SO N Lf. destruct (trained_vfitted T) as (cats & HC & F). assert (Lm' : b_leaf (erase n) = false) by (rewrite erase_leaf; assumption).
  destruct (@vnodes cfg psort X y cats HC (erase t) p (erase n) (erase_node N) [] (broot y) [] F eq_refl Lm') as (A & B & a & v & g1 & g2 & c1 & c2 & SP & Ch & V1 & V2 & SH & ps & EP & PI & SC & GP & ST). cbn [app] in *.
  destruct (erase_fields n) as (EM & EC & _). rewrite EM in *. rewrite EC in Ch. destruct (b_children n) as [|d1 [|d2 [|d3 ds]]]; try discriminate. cbn [map] in Ch. injection Ch as <- <-.
  destruct (erase_fields d1) as (M1 & _ & _ & W1 & _). destruct (erase_fields d2) as (M2 & _ & _ & W2 & _). rewrite M1, M2 in *. rewrite W1 in V1. rewrite W2 in V2.
  exists a, g1, g2, d1, d2. split; [reflexivity|]. split; [assumption|]. split; [assumption|]. split; [apply (@shares_divided cfg psort X y cats HC); assumption|]. cbv zeta. split; [assumption|].
  assert (NS : ~ (exhausted cfg y (b_mu n) p \/ (bgain y (b_mu n) (b_mu d1) (b_mu d2) < f_threshold cfg)%R)) by (rewrite <- (stop_exhausted cfg _ _ _ p B); congruence).
  split; [apply Rnot_lt_le; tauto|]. split; [tauto|]. intros b h1 h2 C. exact (@scored_candidate cfg psort X y cats HC p (b_mu n) ps _ b h1 h2 SO EP SC C).
Qed.
Print Assumptions C88_chosen_split_is_best.

(** every leaf reached by some weight carries the class weights of its rows, and was not split for one of the stated reasons *)
Theorem C88_leaf_reason_and_weights : forall cfg psort X y t p n, btrained cfg psort X y t -> sorts psort -> bnode_at t p n -> b_leaf n = true -> qsum (b_mu n) <> 0 ->
  (exists cv, b_class n = Some cv /\ weighted_by y (b_mu n) cv) /\
  (exhausted cfg y (b_mu n) p \/
   (0 < f_threshold cfg)%R /\ forall b h1 h2, candidate cfg X y p b h1 h2 ->
     exists lmu rmu, divided (f_vars cfg) X p (b_mu n) b h1 h2 lmu rmu /\ (bgain y (b_mu n) lmu rmu < f_threshold cfg)%R).
Proof.
  intros cfg psort X y t p n T SO N Lf NZ. destruct (trained_vfitted T) as (cats & HC & F). assert (Lm' : b_leaf (erase n) = true) by (rewrite erase_leaf; assumption).
  destruct (erase_fields n) as (EM & _ & ECl & _).
  destruct (@vleaves cfg psort X y cats HC (erase t) p (erase n) (erase_node N) [] (broot y) [] F eq_refl Lm') as [(P & MO & (cv & GV & CV) & ps & g & EP & GE & SC & ST)|(Z & _)]; [|rewrite EM in Z; contradiction].
  rewrite EM, ECl in *. cbn [app] in *. split; [exists cv; split; [assumption|apply weighted_value; assumption]|].
  apply (stop_exhausted cfg _ _ _ p (proj1 MO)) in ST. destruct ST as [ST|ST]; [left; assumption|right]. split; [lra|]. intros b h1 h2 C.
  destruct (@scored_candidate cfg psort X y cats HC p (b_mu n) ps g b h1 h2 SO EP SC C) as (lmu & rmu & D & G). exists lmu, rmu. split; [assumption|lra].
Qed.
Print Assumptions C88_leaf_reason_and_weights.

(** a leaf that no weight reaches carries the class weights of its parent *)
Theorem C88_unreached_leaf_takes_parents_weights : forall cfg psort X y t p n, btrained cfg psort X y t -> bnode_at t p n -> b_leaf n = true -> qsum (b_mu n) = 0 ->
  exists q l m cv, p = q ++ [l] /\ bnode_at t q m /\ In n (b_children m) /\ b_value n = Some l /\ b_class n = Some cv /\ weighted_by y (b_mu m) cv.
Proof.
  intros cfg psort X y t p n T N Lf Z. destruct (trained_vfitted T) as (cats & HC & F). assert (HB := btrained_node _ _ _ _ _ _ _ T N). destruct (btrained_fitted T) as (cats' & HC' & _ & _ & F').
  assert (V : exists q l m cv, p = q ++ [l] /\ bnode_at t q m /\ In n (b_children m) /\ b_value n = Some l /\ b_class n = Some cv /\ get_class_value (b_mu m) y = Ok cv).
  { clear HB F' HC' cats'.
    assert (K : forall t q m, bnode_at t q m -> forall p node vign, vfitted cfg psort X y cats p node vign (erase t) -> b_children node = [] -> b_leaf m = true -> qsum (b_mu m) = 0 ->
       exists q' l par cv, q = q' ++ [l] /\ bnode_at t q' par /\ In m (b_children par) /\ b_value m = Some l /\ b_class m = Some cv /\ get_class_value (b_mu par) y = Ok cv).
    { clear - HC. intros t q m N. induction N as [t|t c l q m Lf Ic Vc N IH]; intros p node vign F HCh Lm Z.
      - exfalso. destruct F as (_ & P & _ & _ & fuel & H). destruct (@vfit_mu cfg psort X y cats fuel _ _ _ _ H) as (M & _). destruct (erase_fields t) as (EM & _). rewrite EM in M. rewrite <- M, Z in P. qlra.
      - destruct (@vfitted_cases cfg psort X y cats HC p node vign (erase t) F HCh) as (Mu & ps & g & EP & GE & SC & [(K & _)|(_ & ST & a & v & g1 & g2 & c1 & c2 & lmu & rmu & SO & Ch & S1 & S2 & SH & _)]); [rewrite erase_leaf in K; congruence|].
        destruct (erase_fields t) as (EM & EC & _). destruct (erase_fields c) as (EMc & _ & EClc & EVc & _). rewrite EM in Mu. rewrite EC in Ch.
        assert (ST' : forall g cmu, vside cfg psort X y cats p (b_mu node) a v g cmu (erase c) -> (exists vg nd, vfitted cfg psort X y cats (p ++ [l]) nd vg (erase c) /\ b_children nd = []) \/ (b_leaf c = true /\ qsum (b_mu c) = 0 /\ exists cv, get_class_value (b_mu t) y = Ok cv /\ b_class c = Some cv)).
        { clear - Vc Mu EMc EClc EVc. intros g cmu (M1 & V1 & K1). rewrite EVc, Vc in V1. injection V1 as ->. rewrite EMc in M1. rewrite M1, Mu. destruct K1 as [(vg & F1)|(K0 & K1 & K2)]; [left; eexists; eexists; split; [exact F1|reflexivity]|right]. rewrite erase_leaf in K0. rewrite EClc in K2. auto. }
        assert (D : (exists vg nd, vfitted cfg psort X y cats (p ++ [l]) nd vg (erase c) /\ b_children nd = []) \/ (b_leaf c = true /\ qsum (b_mu c) = 0 /\ exists cv, get_class_value (b_mu t) y = Ok cv /\ b_class c = Some cv)).
        { assert (Ic' := in_map erase _ _ Ic). rewrite Ch in Ic'. destruct Ic' as [Q|[Q|[]]]; subst; [exact (ST' _ _ S1)|exact (ST' _ _ S2)]. }
        destruct D as [(vg & nd & F1 & CN)|(L1 & Z1 & cv & G1 & C1)].
        + destruct (IH _ _ _ F1 CN Lm Z) as (q' & l' & par & cv & -> & NP & IP & VP & CP & GP). exists (l :: q'), l', par, cv. split; [reflexivity|]. split; [eapply bat_child; eassumption|auto].
        + inversion N; subst; [|congruence]. exists [], l, t, cv. split; [reflexivity|]. split; [constructor|auto]. }
    exact (K t p n N [] (broot y) [] F eq_refl Lf Z). }
  destruct V as (q & l & m & cv & -> & NM & IM & VM & CM & GM). exists q, l, m, cv. split; [reflexivity|]. split; [assumption|]. split; [assumption|]. split; [assumption|]. split; [assumption|]. apply weighted_value. assumption.
Qed.
Print Assumptions C88_unreached_leaf_takes_parents_weights.

(** a split on a categorical feature separates the sets with smaller shares of the least class from those with larger ones *)
Theorem C89_categories_split_by_share : forall cfg psort X y t p n c1 c2 a v g1 g2 c, btrained cfg psort X y t -> sorts psort -> bnode_at t p n -> b_leaf n = false ->
  b_children n = [c1; c2] -> b_value c1 = Some (a, g1) -> b_value c2 = Some (a, g2) -> nth_error (f_vars cfg) a = Some v -> ~ continuous v ->
  (forall i, In i (available (f_vars cfg) p a) -> set_mass (f_vars cfg) X a i <> 0) -> least y c ->
  forall i j, In i g1 -> In j g2 -> share (f_vars cfg) X y a i c <= share (f_vars cfg) X y a j c.
Proof.
  intros cfg psort X y t p n c1 c2 a v g1 g2 c T SO N Lf Ch W1 W2 Hv NC MS Lc. destruct (trained_vfitted T) as (cats & HC & F). assert (Lm' : b_leaf (erase n) = false) by (rewrite erase_leaf; assumption).
  destruct (@vnodes cfg psort X y cats HC (erase t) p (erase n) (erase_node N) [] (broot y) [] F eq_refl Lm') as (_ & _ & b & w & k1 & k2 & d1 & d2 & (Hw & _ & _ & Pm & _) & Ch' & V1 & V2 & _ & ps & EP & PI & _). cbn [app] in *.
  destruct (erase_fields n) as (_ & EC & _). rewrite EC, Ch in Ch'. cbn [map] in Ch'. injection Ch' as <- <-.
  destruct (erase_fields c1) as (_ & _ & _ & Q1 & _). destruct (erase_fields c2) as (_ & _ & _ & Q2 & _). rewrite Q1, W1 in V1. rewrite Q2, W2 in V2. injection V1 as <- <-. injection V2 as <-.
  assert (w = v) by congruence. subst w.
  apply (@chosen_sorted cfg psort X y cats HC p ps a v g1 g2 c); try assumption; intros x Hx; apply (Permutation_in _ Pm); apply in_or_app; auto.
Qed.
Print Assumptions C89_categories_split_by_share.

(** ** A sort, and a tree over categories "a", "b", "c" that puts "b" first *)
Definition key_leb (k k' : string * option Qc) : bool := match snd k, snd k' with None, _ => true | Some _, None => false | Some s, Some s' => qleb s s' end.
Definition share_sort : list (string * option Qc) -> list (string * option Qc) := sort_by key_leb.
Lemma share_sort_perm : forall l, Permutation (share_sort l) l.
Proof. intro l. apply Permutation_sym, sort_by_perm. Qed.
Lemma share_sort_sorts : sorts share_sort.
Proof.
  intros l F. assert (S : StronglySorted (fun a b => key_leb a b = true) (share_sort l)).
  { apply sort_by_sorted.
    - intros [x [s|]] [z [s'|]]; unfold key_leb; cbn [snd]; auto. rewrite !qleb_le. destruct (Qclt_le_dec s s') as [H|H]; [left; apply Qclt_le_weak; assumption|right; assumption].
    - intros [x [s|]] [z [s'|]] [u [s2|]]; unfold key_leb; cbn [snd]; auto; try discriminate. rewrite !qleb_le. apply Qcle_trans. }
  assert (F' : Forall (fun k => snd k <> None) (share_sort l)) by (apply (Permutation_Forall (Permutation_sym (share_sort_perm l))); assumption). clear F.
  induction S as [|k u S IH G]; [constructor|]. inversion F' as [|? ? K1 K2]; subst. constructor; [exact (IH K2)|]. rewrite Forall_forall in *. intros k' I. specialize (G k' I). specialize (K2 k' I). unfold key_leb in G. destruct (snd k), (snd k'); try congruence. apply qleb_le. assumption.
Qed.
Definition ex4_v : fvar := mkV "x" [FD "a" (CStr "a"); FD "b" (CStr "b"); FD "c" (CStr "c")].
Definition ex4_cfg : fdt_cfg := mkFDT [ex4_v] (1 / 10)%R 2 1 qmin AggVote.
Definition ex4_X : list (list cell) := [[CStr "a"]; [CStr "b"]; [CStr "c"]; [CStr "b"]].
Definition ex4_tree : btree :=
  BTree false
    [BTree true [] (Some [(0%Z, 0); (1%Z, 1)]) 1 (Some (0, [1])%nat) (Some ex4_v) [0; 1; 0; 1] [];
     BTree true [] (Some [(0%Z, 1); (1%Z, 0)]) 1 (Some (0, [0; 2])%nat) (Some ex4_v) [1; 0; 1; 0] []]
    None 0 None None [1; 1; 1; 1] [].
Definition ex4_XM : xmem := [("x", [("a", [1; 0; 0; 0]); ("b", [0; 1; 0; 1]); ("c", [0; 0; 1; 0])])].
Lemma e4 : fuzzy_entropy [0; 1; 0; 1] ex3_y = 0%R /\ fuzzy_entropy [1; 0; 1; 0] ex3_y = 0%R /\ fuzzy_entropy [1; 1; 0; 1] ex3_y = (l3 - 2 / 3)%R /\ fuzzy_entropy [0; 0; 1; 0] ex3_y = 0%R.
Proof.
  split; [|split; [|split]]; rewrite ent_two.
  - rewrite (@term_at _ ex3_y 1%Z 1 1%R); [|qex|reflexivity|apply qr_1]. rewrite (@term_zero _ ex3_y 0%Z) by reflexivity. rewrite log2_1. lra.
  - rewrite (@term_at _ ex3_y 0%Z 1 1%R); [|qex|reflexivity|apply qr_1]. rewrite (@term_zero _ ex3_y 1%Z) by reflexivity. rewrite log2_1. lra.
  - rewrite (@term_at _ ex3_y 0%Z (qc 1 3) (1 / 3)%R); [|qex|reflexivity|rewrite qr_qc; reflexivity]. rewrite (@term_at _ ex3_y 1%Z (qc 2 3) (2 / 3)%R); [|qex|reflexivity|rewrite qr_qc; reflexivity].
    rewrite !log2_div, log2_1, log2_2 by lra. unfold l3. lra.
  - rewrite (@term_at _ ex3_y 0%Z 1 1%R); [|qex|reflexivity|apply qr_1]. rewrite (@term_zero _ ex3_y 1%Z) by reflexivity. rewrite log2_1. lra.
Qed.
Definition g4 : R := (1 - (2 * 0 + 2 * 0) / 4)%R.
Lemma split4 : exists lm rm, vmax_split share_sort ["x"] [1; 1; 1; 1] [] [("x", ["a"; "b"; "c"])] ex4_XM ex3_y =
  Ok ([], Some (mkVS "x" g4 [0; 1; 0; 1] [1; 0; 1; 0] ["b"] ["a"; "c"] lm rm)).
Proof.
  exists [0; 0; 0; 0], [0; 0; 0; 0]. unfold vmax_split. assert (B : binary_partitions share_sort ["x"] [("x", ["a"; "b"; "c"])] ex4_XM ex3_y = Ok [("x", ["b"], ["a"; "c"]); ("x", ["b"; "a"], ["c"])]) by reflexivity.
  rewrite B. cbn [bind foldM]. unfold vscore_partition. cbn [fst snd]. change (List.length ex3_y) with 4%nat.
  assert (S1 : vscore_side [1; 1; 1; 1] [] ex4_XM 4 "x" ["b"] = Ok ([], [0; 1; 0; 1], [0; 0; 0; 0])) by qex.
  assert (S2 : vscore_side [1; 1; 1; 1] [] ex4_XM 4 "x" ["a"; "c"] = Ok ([], [1; 0; 1; 0], [0; 0; 0; 0])) by qex.
  assert (S3 : vscore_side [1; 1; 1; 1] [] ex4_XM 4 "x" ["b"; "a"] = Ok ([], [1; 1; 0; 1], [0; 0; 0; 0])) by qex.
  assert (S4 : vscore_side [1; 1; 1; 1] [] ex4_XM 4 "x" ["c"] = Ok ([], [0; 0; 1; 0], [0; 0; 0; 0])) by qex.
  rewrite S1. cbn [bind]. rewrite S2. cbn [bind]. destruct e4 as (E1 & E2 & E3 & E5).
  assert (GA : split_gain [1; 1; 1; 1] [0; 1; 0; 1] [1; 0; 1; 0] ex3_y = Ok g4).
  { apply gain_val; [reflexivity|sum_val 4%Z 1%positive|sum_val 2%Z 1%positive|sum_val 2%Z 1%positive|exact e_root|exact E1|exact E2]. }
  rewrite GA. cbn [bind]. cbn [vbest_gain snd]. assert (L : Rltb 0 g4 = true) by (apply Rltb_lt; unfold g4; lra). rewrite L. cbn [fst snd].
  rewrite S3. cbn [bind]. rewrite S4. cbn [bind].
  rewrite (@gain_val [1; 1; 1; 1] [1; 1; 0; 1] [0; 0; 1; 0] 1%R (l3 - 2 / 3)%R 0%R 4%R 3%R 1%R);
    [|reflexivity|sum_val 4%Z 1%positive|sum_val 3%Z 1%positive|sum_val 1%Z 1%positive|exact e_root|exact E3|exact E5].
  cbn [bind vbest_gain v_gain snd]. match goal with |- context [Rltb g4 ?g] => assert (L2 : Rltb g4 g = false) by (apply Rltb_ge; assert (U := l3_lower); unfold g4; lra) end. rewrite L2. reflexivity.
Qed.
Lemma ex4_private : vt_fit ex4_cfg share_sort ex4_X ex3_y = Ok ex4_tree.
Proof.
  unfold vt_fit. assert (C : categorical_features (f_vars ex4_cfg) = Ok ["x"]) by reflexivity. rewrite C. cbn [bind]. change (negb (Nat.eqb (List.length ex4_X) (List.length ex3_y)) || Nat.eqb (List.length ex3_y) 0) with false. cbv iota.
  assert (D : dataset_membership ex4_X (f_vars ex4_cfg) = Ok ex4_XM) by qex. rewrite D. cbn [bind].
  change (fuel_for (initial_sets (f_vars ex4_cfg))) with 4%nat. change (initial_sets (f_vars ex4_cfg)) with [("x", ["a"; "b"; "c"])]. change (repeat 1 (List.length ex3_y)) with [1; 1; 1; 1].
  assert (ST0 : stop_met ex4_cfg g4 (masked [1; 1; 1; 1] ex3_y) 0 = false).
  { unfold stop_met. assert (L : Rltb g4 (f_threshold ex4_cfg) = false) by (apply Rltb_ge; cbn [f_threshold ex4_cfg]; unfold g4; lra). rewrite L. reflexivity. }
  assert (T1 : forall g, stop_met ex4_cfg g (masked [0; 1; 0; 1] ex3_y) 1 = true) by reflexivity.
  assert (T2 : forall g, stop_met ex4_cfg g (masked [1; 0; 1; 0] ex3_y) 1 = true) by reflexivity.
  assert (K1 : get_class_value [0; 1; 0; 1] ex3_y = Ok [(0%Z, 0); (1%Z, 1)]) by qex.
  assert (K2 : get_class_value [1; 0; 1; 0] ex3_y = Ok [(0%Z, 1); (1%Z, 0)]) by qex.
  assert (P1 : forall ign, exists i w, vmax_split share_sort ["x"] [0; 1; 0; 1] ign [("x", ["b"])] ex4_XM ex3_y = Ok (i, w)) by (intro ign; exists ign, None; reflexivity).
  assert (P2 : exists i w, vmax_split share_sort ["x"] [1; 0; 1; 0] [("x", [0; 0; 0; 0])] [("x", ["a"; "c"])] ex4_XM ex3_y = Ok (i, w)).
  { unfold vmax_split. assert (B : binary_partitions share_sort ["x"] [("x", ["a"; "c"])] ex4_XM ex3_y = Ok [("x", ["a"], ["c"])]) by reflexivity.
    rewrite B. cbn [bind foldM]. unfold vscore_partition. cbn [fst snd]. change (List.length ex3_y) with 4%nat.
    assert (S1 : vscore_side [1; 0; 1; 0] [("x", [0; 0; 0; 0])] ex4_XM 4 "x" ["a"] = Ok ([("x", [0; 0; 0; 0])], [1; 0; 0; 0], [0; 0; 0; 0])) by qex.
    assert (S2 : vscore_side [1; 0; 1; 0] [("x", [0; 0; 0; 0])] ex4_XM 4 "x" ["c"] = Ok ([("x", [0; 0; 0; 0])], [0; 0; 1; 0], [0; 0; 0; 0])) by qex.
    rewrite S1. cbn [bind]. rewrite S2. cbn [bind]. unfold split_gain. change (qeqb (qsum [1; 0; 1; 0]) 0) with false. cbv iota. cbn [bind]. eexists. eexists. reflexivity. }
  destruct split4 as (lm & rm & RS). assert (ML : lm = [0; 0; 0; 0] /\ rm = [0; 0; 0; 0]).
  { assert (RS' := RS). unfold vmax_split in RS'. assert (B : binary_partitions share_sort ["x"] [("x", ["a"; "b"; "c"])] ex4_XM ex3_y = Ok [("x", ["b"], ["a"; "c"]); ("x", ["b"; "a"], ["c"])]) by reflexivity.
    rewrite B in RS'. cbn [bind foldM] in RS'. unfold vscore_partition in RS'. cbn [fst snd] in RS'. change (List.length ex3_y) with 4%nat in RS'.
    assert (S1 : vscore_side [1; 1; 1; 1] [] ex4_XM 4 "x" ["b"] = Ok ([], [0; 1; 0; 1], [0; 0; 0; 0])) by qex.
    assert (S2 : vscore_side [1; 1; 1; 1] [] ex4_XM 4 "x" ["a"; "c"] = Ok ([], [1; 0; 1; 0], [0; 0; 0; 0])) by qex.
    assert (S3 : vscore_side [1; 1; 1; 1] [] ex4_XM 4 "x" ["b"; "a"] = Ok ([], [1; 1; 0; 1], [0; 0; 0; 0])) by qex.
    assert (S4 : vscore_side [1; 1; 1; 1] [] ex4_XM 4 "x" ["c"] = Ok ([], [0; 0; 1; 0], [0; 0; 0; 0])) by qex.
    rewrite S1 in RS'. cbn [bind] in RS'. rewrite S2 in RS'. cbn [bind] in RS'. unfold split_gain in RS'. change (qeqb (qsum [1; 1; 1; 1]) 0) with false in RS'. cbv iota in RS'. cbn [bind] in RS'.
    destruct (Rltb (vbest_gain None) _); cbn [fst snd] in RS'; rewrite S3 in RS'; cbn [bind] in RS'; rewrite S4 in RS'; cbn [bind] in RS'; match type of RS' with context [Rltb ?x ?z] => destruct (Rltb x z) end; try discriminate; injection RS'; intros; subst; auto. }
  destruct ML as (-> & ->).
  remember ex4_XM as XM eqn:EX. change 4%nat with (S 3). cbn [vfit b_mu b_children b_class b_value b_var]. rewrite RS. cbn [bind vbest_gain v_gain v_att v_left v_right v_lmu v_rmu v_lmarks v_rmarks]. rewrite ST0.
  change (dget "x" (f_positions (f_vars ex4_cfg))) with (Some 0%nat). cbn [ret_opt bind].
  change (nth_error (f_vars ex4_cfg) 0) with (Some ex4_v). cbn [ret_opt bind]. cbv zeta.
  change (dict_of (map (fun js => (fs_name (snd js), fst js)) (enumerate (fv_sets ex4_v)))) with [("a", 0%nat); ("b", 1%nat); ("c", 2%nat)].
  change (mapM (fun n => ret_opt KeyError (dget n [("a", 0%nat); ("b", 1%nat); ("c", 2%nat)])) ["b"]) with (@Ok (list nat) [1%nat]).
  change (mapM (fun n => ret_opt KeyError (dget n [("a", 0%nat); ("b", 1%nat); ("c", 2%nat)])) ["a"; "c"]) with (@Ok (list nat) [0; 2]%nat).
  cbn [bind]. change (dget "x" [("x", ["a"; "b"; "c"])]) with (Some ["a"; "b"; "c"]). cbn [ret_opt bind].
  change (qltb 0 (qsum [0; 1; 0; 1])) with true. change (qltb 0 (qsum [1; 0; 1; 0])) with true. cbv iota.
  change (dset "x" (filter (fun x => memb x ["b"]) ["a"; "b"; "c"]) [("x", ["a"; "b"; "c"])]) with [("x", ["b"])].
  change (dset "x" (filter (fun x => memb x ["a"; "c"]) ["a"; "b"; "c"]) [("x", ["a"; "b"; "c"])]) with [("x", ["a"; "c"])].
  change (inherit [] "x" [0; 0; 0; 0]) with [("x", [0; 0; 0; 0])]. change (0 + 1)%Z with 1%Z.
  destruct (P1 [("x", [0; 0; 0; 0])]) as (i1 & w1 & P1'). rewrite P1'. cbn [bind]. rewrite T1. rewrite K1. cbn [bind].
  destruct P2 as (i2 & w2 & P2'). rewrite P2'. cbn [bind]. rewrite T2, K2. cbn [bind app]. reflexivity.
Qed.
Lemma ex4_names : distinct_names (f_vars ex4_cfg).
Proof.
  assert (N : NoDup (map fs_name (fv_sets ex4_v))) by (repeat constructor; cbn; [intros [H|[H|[]]]; discriminate|intros [H|[]]; discriminate|intros []]).
  split; [repeat constructor; intros []|intros v [<-|[]]; assumption].
Qed.
Example C89_instance : exists t, btrained ex4_cfg share_sort ex4_X ex3_y t /\ sorts share_sort /\ bnode_at t [] t /\ b_leaf t = false /\
  (exists c1 c2, b_children t = [c1; c2] /\ b_value c1 = Some (0, [1])%nat /\ b_value c2 = Some (0, [0; 2])%nat /\ bnode_at t [(0, [1])%nat] c1 /\ b_leaf c1 = true /\ qsum (b_mu c1) <> 0) /\
  nth_error (f_vars ex4_cfg) 0 = Some ex4_v /\ ~ continuous ex4_v /\ least ex3_y 0 /\
  (forall i, In i (available (f_vars ex4_cfg) [] 0) -> set_mass (f_vars ex4_cfg) ex4_X 0 i <> 0) /\
  share (f_vars ex4_cfg) ex4_X ex3_y 0 1 0 = 0 /\ share (f_vars ex4_cfg) ex4_X ex3_y 0 0 0 = 1 /\ candidate ex4_cfg ex4_X ex3_y [] 0 [1]%nat [0; 2]%nat.
Proof.
  assert (F := C34_sharing_is_not_observable ex4_cfg share_sort ex4_X ex3_y share_sort_perm ex4_names). rewrite ex4_private in F. destruct F as (h & t & Ft & ET). exists t.
  split; [split; [exact share_sort_perm|split; [exact ex4_names|exists h; assumption]]|]. split; [exact share_sort_sorts|]. split; [constructor|].
  destruct t as [lf cs cv lv va vr mu ig]. unfold ex4_tree in ET. cbn [erase] in ET. injection ET as -> ECs _ _ _ _ _. destruct cs as [|d1 [|d2 [|d3 ds]]]; try discriminate. cbn [map] in ECs. injection ECs as E1 E2.
  assert (MS : forall i, In i (available (f_vars ex4_cfg) [] 0) -> set_mass (f_vars ex4_cfg) ex4_X 0 i <> 0).
  { intros i I. change (available (f_vars ex4_cfg) [] 0) with [0; 1; 2]%nat in I. destruct I as [<-|[<-|[<-|[]]]]; intro Q; apply (f_equal (fun q => qeqb q 0)) in Q; vm_compute in Q; discriminate. }
  assert (LS : least ex3_y 0) by (split; [left; reflexivity|intros c [<-|[<-|[<-|[<-|[]]]]]; lia]).
  assert (NC : ~ continuous ex4_v) by (intros (c & l & Q); discriminate).
  split; [reflexivity|]. split.
  { exists d1, d2. destruct d1 as [l1 c1 v1 e1 va1 r1 m1 i1], d2 as [l2 c2 v2 e2 va2 r2 m2 i2]. cbn [erase] in E1, E2. injection E1 as -> _ _ _ -> _ ->. injection E2 as -> _ _ _ -> _ ->. cbn [b_value b_leaf b_mu]. split; [reflexivity|]. split; [reflexivity|]. split; [reflexivity|]. split.
    - eapply bat_child; [reflexivity|left; reflexivity|reflexivity|constructor].
    - split; [reflexivity|]. intro Q. apply (f_equal (fun q => qeqb q 0)) in Q. vm_compute in Q. discriminate. }
  split; [reflexivity|]. split; [assumption|]. split; [assumption|]. split; [assumption|]. split; [qex|]. split; [qex|].
  exists ex4_v. split; [reflexivity|]. split; [discriminate|]. split; [discriminate|]. split; [contradiction|]. intros _.
  assert (PM : Permutation [1; 0; 2]%nat [0; 1; 2]%nat) by constructor. split; [exact PM|]. split; [intros i I; apply MS; exact (Permutation_in _ PM I)|].
  intros c i j Lc Hi Hj. assert (c = 0%Z) by (destruct Lc as (I & L), LS as (I' & L'); specialize (L 0%Z I'); specialize (L' c I); lia). subst c. destruct Hi as [<-|[]]. destruct Hj as [<-|[<-|[]]]; reflexivity.
Qed.
