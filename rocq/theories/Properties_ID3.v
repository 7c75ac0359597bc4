(** * Properties C35-C40 (ID3) and C77-C79 *)
From Verif Require Import Prelude M_Fuzzy M_Discretize M_Rule M_ID3 S_ID3 P_Entropy P_FuzzySet P_FuzzyVar P_Rule P_FDT P_ID3 P_ID3b P_ID3c.
From Coq Require Import Reals Lra.
Open Scope string_scope.
Open Scope list_scope.
Open Scope Qc_scope.

(** ** C36 *)
Theorem C36_only_training_labels : forall cfg cls fts root X y t x c,
  id3_trained cfg cls fts root X y t -> id3_tree_predict t x = Ok (Some c) -> In c y.
Proof.
  intros cfg cls fts root X y t x c HT H. destruct (root_trained HT) as (SP & C & F). destruct HT as (TB & SO & _).
  rewrite <- (cx_snd C). eapply (@predict_label cfg cls fts SP (zunique y) SO (cx_nodup C) (cx_some C) (cx_sp C)); [apply (cx_fine C)|apply (cx_rows C)|exact F|exact H].
Qed.
Print Assumptions C36_only_training_labels.
Theorem C36_known_rows_classified : forall cfg cls fts root X y t x,
  id3_trained cfg cls fts root X y t -> i_prunning cfg = true -> 0 < i_th cfg -> known cfg X x ->
  exists c, id3_tree_predict t x = Ok (Some c) /\ In c y.
Proof.
  intros cfg cls fts root X y t x HT PR TH K. destruct (root_trained HT) as (SP & C & F). assert (HT' := HT). destruct HT as (TB & SO & _).
  destruct (@predict_known cfg cls fts SP (zunique y) SO (cx_nodup C) (cx_some C) (cx_sp C) _ _ _ _ _ _ PR TH (cx_fine C) (cx_rows C) F) with (x := x) as [c H].
  - right. apply (fts_root SO (cx_some C)).
  - intros i spl L S. destruct (K i L) as [v [V O]]. exists v. split; [assumption|]. apply (cx_occurs C i v S). assumption.
  - exists c. split; [assumption|]. eapply C36_only_training_labels; eassumption.
Qed.
Print Assumptions C36_known_rows_classified.
(** the same for a whole test set *)
Theorem C36_predict_known : forall cfg cls fts root X y t X',
  id3_trained cfg cls fts root X y t -> i_prunning cfg = true -> 0 < i_th cfg -> X' <> [] -> (forall x, In x X' -> known cfg X x) ->
  exists ps, id3_predict t X' = Ok (map Some ps) /\ List.length ps = List.length X' /\ incl ps y.
Proof.
  intros cfg cls fts root X y t X' HT PR TH NE K. unfold id3_predict.
  assert (G : exists ps, mapM (id3_tree_predict t) X' = Ok (map Some ps) /\ List.length ps = List.length X' /\ incl ps y).
  { clear NE. induction X' as [|x X' IH]; [exists []; split; [reflexivity|]; split; [reflexivity|intros ? []]|].
    destruct IH as (ps & E & L & I); [intros; apply K; right; assumption|].
    destruct (@C36_known_rows_classified cfg cls fts root X y t x HT PR TH (K x (or_introl eq_refl))) as [c [P Q]].
    exists (c :: ps). cbn [mapM map]. rewrite P. cbn [bind]. rewrite E. cbn [bind List.length]. split; [reflexivity|]. split; [congruence|].
    intros z [<-|Hz]; [assumption|apply I; assumption]. }
  destruct X'; [congruence|exact G].
Qed.
Print Assumptions C36_predict_known.
(** an inner node whose column has a value not seen in training gives None, and (with pruning)
    that is the only reason *)
Theorem C36_unseen_value : forall cfg cls fts root X y t p n i v x,
  id3_trained cfg cls fts root X y t -> inode_at t p n -> i_leaf n = false -> i_var n = Some i ->
  on_path p x = true -> nth_error x i = Some v -> ~ occurs X i v -> id3_tree_predict t x = Ok None.
Proof.
  intros cfg cls fts root X y t p n i v x HT H L V O N U. rewrite (predict_path HT x H O). destruct (inner_var HT H L V) as (_ & _ & _ & OC & _).
  rewrite (@predict_inner n i x v L V N). apply walk_miss. rewrite OC. assumption.
Qed.
Print Assumptions C36_unseen_value.
Theorem C36_none_iff_unseen : forall cfg cls fts root X y t x,
  id3_trained cfg cls fts root X y t -> i_prunning cfg = true -> 0 < i_th cfg -> (List.length (i_features cfg) <= List.length x)%nat ->
  (id3_tree_predict t x = Ok None <-> exists p n i v, inode_at t p n /\ i_leaf n = false /\ i_var n = Some i /\
     on_path p x = true /\ nth_error x i = Some v /\ ~ occurs X i v).
Proof.
  intros cfg cls fts root X y t x HT PR TH W. split.
  - intro H.
    assert (G : forall m p n, inode_at t p n -> on_path p x = true -> id3_tree_predict n x = Ok None -> (m + List.length p = List.length (i_features cfg))%nat ->
      exists p n i v, inode_at t p n /\ i_leaf n = false /\ i_var n = Some i /\ on_path p x = true /\ nth_error x i = Some v /\ ~ occurs X i v).
    { intro m. induction m as [m IH] using lt_wf_ind. intros p n N O P LM. destruct (i_leaf n) eqn:L; [rewrite (predict_leaf _ _ L) in P; discriminate|].
      destruct (inner_trained HT N L) as (SP & c & k & fuel & t' & best & children & C & R & F & M & T1 & T2 & St & PK & G & V' & S & Ch & Er & NL & Pr).
      destruct (best_form best) as [[i E]|[E E']].
      - assert (V : i_var n = Some i) by (rewrite V', E; reflexivity). destruct (inner_var HT N L V) as (LI & ND & LE & OC & NP).
        destruct (nth_error x i) as [v|] eqn:X0; [|apply nth_error_None in X0; lia].
        destruct (in_dec eq_dec v (i_splits n)) as [I|I].
        + destruct (In_nth_error _ _ I) as [j J]. destruct (nth_error (i_children n) j) as [ch|] eqn:CJ.
          2: { apply nth_error_None in CJ. assert (j < List.length (i_splits n))%nat by (apply nth_error_Some; congruence). lia. }
          assert (N' : inode_at t (p ++ [(i, v)]) ch) by (eapply inode_app; [exact N|]; eapply iat_child; try eassumption; constructor).
          assert (DP : (List.length p < List.length (i_features cfg))%nat).
          { assert (Q : (List.length (map fst p ++ [i]) <= List.length (seq 0 (List.length (i_features cfg))))%nat).
            - assert (IN : forall q, (exists m', inode_at t q m') -> NoDup (map fst q) /\ incl (map fst q) (seq 0 (List.length (i_features cfg)))).
              { intro q. induction q as [|iv q IHq] using rev_ind; intros [m' Hm].
                - split; [constructor|intros ? []].
                - destruct (inode_split _ _ Hm) as [par [A B]]. inversion B as [|? i' s' j' c' p' n' L1 L2 L3 L4 L5]; subst. inversion L5; subst.
                  destruct (IHq (ex_intro _ par A)) as [Q1 Q2]. destruct (inner_var HT A L1 L2) as (LI' & _ & _ & _ & NI). rewrite map_app. cbn [map fst]. split.
                  + apply NoDup_snoc; assumption.
                  + intros z Hz. apply in_app_iff in Hz. destruct Hz as [Hz|[<-|[]]]; [apply Q2; assumption|apply in_seq; lia]. }
              destruct (IN p (ex_intro _ n N)) as [Q1 Q2]. apply NoDup_incl_length.
              + apply NoDup_snoc; assumption.
              + intros z Hz. apply in_app_iff in Hz. destruct Hz as [Hz|[<-|[]]]; [apply Q2; assumption|apply in_seq; lia].
            - rewrite app_length, map_length, seq_length in Q. cbn in Q. lia. }
          apply (IH (m - 1)%nat ltac:(lia) (p ++ [(i, v)]) ch N').
          * unfold on_path. rewrite forallb_app. apply andb_true_intro. split; [exact O|]. cbn. unfold has_value. rewrite X0, eqb_refl. reflexivity.
          * rewrite (@predict_inner n i x v L V X0) in P. rewrite (@walk_hit x v (i_children n) (i_splits n) j ch ND J CJ) in P. exact P.
          * rewrite app_length. cbn. lia.
        + exists p, n, i, v. rewrite OC in I. auto 10.
      - exfalso. assert (PRR := Pr PR). destruct PRR as [_ T]. unfold picked in PK. rewrite E in PK. destruct PK as [PK _].
        destruct HT as (TB & SO & _). destruct p as [|iv p]; [apply (proj1 (fts_root SO (cx_some C))); exact PK|].
        rewrite (T1 ltac:(discriminate)) in NL. rewrite NL, E' in T. unfold grown in G. rewrite E in G. subst children. rewrite Er in T.
        assert (N0 : 0 <= node_error k (List.length (reaching X y (iv :: p)))).
        { unfold node_error. destruct M as (M1 & -> & M3). unfold times.
          assert (LD : (0 < List.length (reaching X y (iv :: p)))%nat) by (destruct (reaching X y (iv :: p)); [congruence|cbn; lia]).
          destruct (@Qcdiv_01 (qn (List.length (filter (fun xy : list cell * Z => Z.eqb (snd xy) c) (reaching X y (iv :: p))))) (qn (List.length (reaching X y (iv :: p))))) as [_ A].
          - apply qn_nonneg.
          - apply qn_le. apply (countb_le (fun xy : list cell * Z => Z.eqb (snd xy) c)).
          - apply qn_pos. assumption.
          - qlra. }
        cbn [List.length Nat.add i_numleaf new_itree] in T. change (Z.of_nat 0 - 1)%Z with (-1)%Z in T. change (sub_error [] (List.length (reaching X y (iv :: p)))) with 0%Qc in T.
        replace ((node_error k (List.length (reaching X y (iv :: p))) - 0) / qz (-1)) with (- node_error k (List.length (reaching X y (iv :: p)))) in T; [qlra|].
        change (qz (-1)) with (- (1))%Qc. field. discriminate. }
    apply (G (List.length (i_features cfg)) [] t); [constructor|reflexivity|assumption|cbn; lia].
  - intros (p & n & i & v & A & B & C & D & E & F). eapply C36_unseen_value; eassumption.
Qed.
Print Assumptions C36_none_iff_unseen.

(** ** C37 *)
Theorem C37_majority_class : forall cfg cls fts root X y t p n,
  id3_trained cfg cls fts root X y t -> inode_at t p n -> reaching X y p <> [] ->
  In (i_class n) (map snd (reaching X y p)) /\ (forall c, (times c (reaching X y p) <= times (i_class n) (reaching X y p))%nat) /\
  i_count n = Some (List.length (reaching X y p), times (i_class n) (reaching X y p)) /\
  (i_leaf n = true -> i_error n = 1 - qn (times (i_class n) (reaching X y p)) / qn (List.length (reaching X y p))).
Proof.
  intros cfg cls fts root X y t p n HT H R. destruct (node_trained HT H) as (SP & C & [(_ & F & fuel & t' & E & _)|(R' & _)]); [|congruence].
  destruct HT as (TB & SO & _).
  destruct (@step_ok cfg cls fts SP (zunique y) SO (cx_nodup C) (cx_some C) (cx_sp C) fuel _ _ _ _ _ F R E) as (c & k & (M1 & M2 & M3) & <- & Cc & Lv & Q).
  split; [assumption|]. split; [intro c; rewrite <- M2; apply M3|]. split; [congruence|]. intro L. destruct Q as [(_ & Q & _)|(Q & _)]; [|congruence].
  rewrite Q. unfold node_error. rewrite M2. reflexivity.
Qed.
Print Assumptions C37_majority_class.
(** a node no training row reaches is a leaf with the class of its parent *)
Theorem C37_unreached_node : forall cfg cls fts root X y t p n,
  id3_trained cfg cls fts root X y t -> inode_at t p n -> reaching X y p = [] ->
  exists q iv par, p = q ++ [iv] /\ inode_at t q par /\ i_leaf n = true /\ i_class n = i_class par /\ i_count n = Some (0, 0)%nat /\ i_error n = 0.
Proof.
  intros cfg cls fts root X y t p n HT H R. destruct (node_trained HT H) as (SP & C & [(R' & _)|(_ & q & iv & par & E1 & E2 & _ & ->)]); [congruence|].
  exists q, iv, par. auto 10.
Qed.
Print Assumptions C37_unreached_node.
(** the recorded error of a node is the share of the training rows reaching it that its subtree
    gives a wrong class *)
Theorem C37_error_is_training_error : forall cfg cls fts root X y t p n,
  id3_trained cfg cls fts root X y t -> inode_at t p n -> reaching X y p <> [] ->
  i_error n = qn (List.length (filter (fun xy => match id3_tree_predict n (fst xy) with Ok (Some c) => negb (Z.eqb c (snd xy)) | _ => false end) (reaching X y p)))
              / qn (List.length (reaching X y p)).
Proof.
  intros cfg cls fts root X y t p n HT H R. destruct (node_trained HT H) as (SP & C & [(_ & F & fuel & t' & E & _)|(R' & _)]); [|congruence].
  destruct HT as (TB & SO & _). exact (@error_rate cfg cls fts SP (zunique y) SO (cx_nodup C) (cx_some C) (cx_sp C) _ _ _ _ _ _ F R E).
Qed.
Print Assumptions C37_error_is_training_error.

(** ** C38 *)
Theorem C38_exactly_one_rule : forall cfg cls fts root X y t x,
  id3_trained cfg cls fts root X y t -> (List.length (i_features cfg) <= List.length x)%nat ->
  exists rs, id3_tree_rules (i_features cfg) t [] = Ok rs /\
    ((exists c rs1 r rs2, id3_tree_predict t x = Ok (Some c) /\ rs = rs1 ++ r :: rs2 /\ applies (i_features cfg) x r /\ r_cons r = c /\ r_weight r = 1 /\
        forall r', In r' (rs1 ++ rs2) -> ~ applies (i_features cfg) x r') \/
     (id3_tree_predict t x = Ok None /\ forall r, In r rs -> ~ applies (i_features cfg) x r)).
Proof.
  intros cfg cls fts root X y t x HT W. destruct (root_trained HT) as (SP & C & F). destruct HT as (TB & SO & _).
  destruct (@rules_exact cfg cls fts SP (zunique y) SO (cx_nodup C) (cx_some C) (cx_sp C) _ _ _ _ _ _ (cx_fine C) (cx_rows C) F) as (L & RL & XL).
  exists (rules_from [] L). split; [apply RL|].
  assert (A : forall sc, applies (i_features cfg) x (mkR ([] ++ fst sc) (snd sc) 1) <-> Forall (test_holds (i_features cfg) x) (fst sc)).
  { intro sc. unfold applies. cbn [r_ant app]. rewrite Forall_forall. reflexivity. }
  assert (NA : forall L', Forall (fun sc => ~ Forall (test_holds (i_features cfg) x) (fst sc)) L' -> forall r, In r (rules_from [] L') -> ~ applies (i_features cfg) x r).
  { intros L' N r I. unfold rules_from in I. apply in_map_iff in I. destruct I as [sc [<- I]]. rewrite A. rewrite Forall_forall in N. apply N. assumption. }
  destruct (XL x W) as [(c & P & L1 & sc & L2 & -> & Hc & Hs & N1 & N2)|[P N]].
  - left. exists c, (rules_from [] L1), (mkR ([] ++ fst sc) (snd sc) 1), (rules_from [] L2). split; [assumption|].
    split; [unfold rules_from; rewrite map_app; reflexivity|]. split; [apply A; assumption|]. split; [assumption|]. split; [reflexivity|].
    intros r' I. apply in_app_iff in I. destruct I as [I|I]; [exact (NA L1 N1 r' I)|exact (NA L2 N2 r' I)].
  - right. split; [assumption|]. apply NA. assumption.
Qed.
Print Assumptions C38_exactly_one_rule.

(** ** C39 *)
(** training on a table never raises anything but ZeroDivisionError *)
Theorem C39_only_zero_division : forall cfg cls fts root X y, table (i_features cfg) X y -> set_orders cfg cls fts ->
  (exists t, id3_fit cfg cls fts root X y = Ok t) \/ id3_fit cfg cls fts root X y = Err ZeroDivisionError.
Proof.
  intros cfg cls fts root X y TB SO. destruct (table_context _ TB) as [SP C]. rewrite (fit_fitn cls fts root C).
  apply (@fit_outcome cfg cls fts SP (zunique y) SO (cx_nodup C) (cx_some C) (cx_sp C)); [apply (cx_fine C)|apply (cx_rows C)|].
  assert (H := proj2 (fts_root SO (cx_some C))). lia.
Qed.
Print Assumptions C39_only_zero_division.
(** ... and succeeds without pruning, or when every column has two different values *)
Theorem C39_success : forall cfg cls fts root X y, table (i_features cfg) X y -> set_orders cfg cls fts ->
  (i_prunning cfg = true -> forall i, (i < List.length (i_features cfg))%nat -> exists v w, v <> w /\ occurs X i v /\ occurs X i w) ->
  exists t, id3_fit cfg cls fts root X y = Ok t.
Proof.
  intros cfg cls fts root X y TB SO H. destruct (table_context _ TB) as [SP C]. rewrite (fit_fitn cls fts root C). assert (FR := fts_root SO (cx_some C)).
  apply (@fit_succeeds cfg cls fts SP (zunique y) SO (cx_nodup C) (cx_some C) (cx_sp C)); [|apply (cx_fine C)|apply (cx_rows C)|destruct FR; lia|right; apply FR].
  intros PR i spl L S. destruct (H PR i L) as (v & w & D & Ov & Ow). apply (cx_occurs C i v S) in Ov. apply (cx_occurs C i w S) in Ow.
  destruct spl as [|a [|b spl]]; cbn [List.length]; [destruct Ov|exfalso; apply D; destruct Ov as [Ov|[]]; destruct Ow as [Ow|[]]; congruence|lia].
Qed.
Print Assumptions C39_success.
(** with pruning a constant column makes training fail whenever the depth limit lets every
    feature be used *)
Theorem C39_constant_column_fails : forall cfg cls fts X y i v, table (i_features cfg) X y -> set_orders cfg cls fts ->
  i_prunning cfg = true -> (i_min_examples cfg <= 1)%Z -> (Z.of_nat (List.length (i_features cfg)) <= i_max_depth cfg)%Z ->
  (i < List.length (i_features cfg))%nat -> (forall x, In x X -> nth_error x i = Some v) ->
  id3_fit cfg cls fts new_itree X y = Err ZeroDivisionError.
Proof.
  intros cfg cls fts X y i v TB SO PR MN MD L K. destruct (table_context _ TB) as [SP C]. rewrite (fit_fitn cls fts new_itree C). assert (FR := fts_root SO (cx_some C)).
  assert (S : nth_error SP i = Some [v]).
  { destruct (cx_sp C L) as (spl & S & N). rewrite S. f_equal.
    assert (I : forall w, In w spl <-> w = v).
    { intro w. rewrite (cx_occurs C i w S). split; [intros [x [Hx Hw]]; rewrite (K x Hx) in Hw; congruence|].
      intros ->. destruct TB as (_ & _ & _ & XE & _). destruct X as [|x X]; [congruence|]. exists x. split; [left; reflexivity|apply K; left; reflexivity]. }
    destruct spl as [|a [|b spl]].
    - exfalso. apply (proj2 (I v) eq_refl).
    - f_equal. apply I. left; reflexivity.
    - exfalso. assert (a = v) by (apply I; left; reflexivity). assert (b = v) by (apply I; right; left; reflexivity). subst.
      inversion N as [|? ? Na _]; subst. apply Na. left; reflexivity. }
  apply (@fit_constant cfg cls fts SP (zunique y) SO (cx_nodup C) (cx_some C) (cx_sp C) _ i v PR MN L S); [apply (cx_fine C)|apply (cx_rows C)|destruct FR; lia|destruct FR; lia|].
  intros f _ [].
Qed.
Print Assumptions C39_constant_column_fails.
(** without pruning, a depth limit above the number of features leaves every training row
    unclassified: the training score is 0 *)
Theorem C39_dead_ends : forall cfg cls fts root X y t, id3_trained cfg cls fts root X y t ->
  i_prunning cfg = false -> (i_min_examples cfg <= 1)%Z -> (Z.of_nat (List.length (i_features cfg)) < i_max_depth cfg)%Z ->
  (forall x, In x X -> id3_tree_predict t x = Ok None) /\ id3_score t X y = Ok 0.
Proof.
  intros cfg cls fts root X y t HT PR MN MD. destruct (root_trained HT) as (SP & C & F). destruct HT as (TB & SO & _).
  assert (P : forall x, In x X -> id3_tree_predict t x = Ok None).
  { intros x Hx. rewrite <- (cx_fst C) in Hx. apply in_map_iff in Hx. destruct Hx as [xy [<- Hxy]].
    eapply (@fit_dead_end cfg cls fts SP (zunique y) SO (cx_nodup C) (cx_some C) (cx_sp C)); [exact PR|exact MN|apply (cx_fine C)|apply (cx_rows C)|exact F| |exact Hxy].
    assert (FR := fts_root SO (cx_some C)). destruct FR. lia. }
  split; [exact P|]. destruct TB as (_ & _ & LE & XE & _). unfold id3_score. rewrite LE, Nat.eqb_refl. cbn [negb orb].
  assert (L0 : List.length y <> 0%nat) by (rewrite <- LE; destruct X; [congruence|discriminate]).
  destruct (Nat.eqb_spec (List.length y) 0) as [Z0|_]; [contradiction|].
  assert (E : id3_predict t X = Ok (map (fun _ => None) X)).
  { unfold id3_predict. assert (G : mapM (id3_tree_predict t) X = Ok (map (fun _ => None) X)).
    { clear - P. induction X as [|x X IH]; [reflexivity|]. cbn [mapM map]. rewrite (P x (or_introl eq_refl)). cbn [bind]. rewrite IH by (intros; apply P; right; assumption). reflexivity. }
    destruct X; [congruence|exact G]. }
  rewrite E. cbn [bind]. f_equal.
  assert (Z0 : countb (fun q : option Z * Z => eqb (fst q) (Some (snd q))) (zip (map (fun _ => None) X) y) = 0%nat).
  { unfold countb, zip. clear. revert y. induction X as [|x X IH]; intros [|c y]; try reflexivity. cbn [map combine filter fst snd].
    replace (eqb None (Some c)) with false by (symmetry; apply eqb_neq; discriminate). apply IH. }
  rewrite Z0. rewrite qn_0. field. intro Q. change 0 with (qn 0) in Q. apply qn_inj in Q. contradiction.
Qed.
Print Assumptions C39_dead_ends.

(** ** C35 *)
Theorem C35_id3_public_rules_fail : forall features t verbose simplify, id3_to_rule_based_system features t verbose simplify = Err TypeError.
Proof. reflexivity. Qed.
Print Assumptions C35_id3_public_rules_fail.

(** ** C40 *)
Theorem C40_id3_score : forall t X y s, id3_score t X y = Ok s ->
  exists ps, id3_predict t X = Ok ps /\ List.length ps = List.length y /\
    s = qn (List.length (filter (fun p => eqb (fst p) (Some (snd p))) (combine ps y))) / qn (List.length y) /\
    0 <= s /\ s <= 1 /\ (s = 1 <-> ps = map Some y) /\ (s = 0 <-> forall i c, nth_error y i = Some c -> nth_error ps i <> Some (Some c)).
Proof.
  intros t X y s H. unfold id3_score in H. destruct (Nat.eqb_spec (List.length X) (List.length y)) as [L|L]; cbn [negb orb] in H; [|discriminate].
  destruct (Nat.eqb_spec (List.length y) 0) as [L0|L0]; [discriminate|]. destruct (id3_predict t X) as [ps|] eqn:E; cbn [bind] in H; [|discriminate].
  injection H as <-. exists ps. split; [reflexivity|].
  assert (Lp : List.length ps = List.length y).
  { unfold id3_predict in E. destruct X; [discriminate|]. apply mapM_length in E. congruence. }
  split; [assumption|]. split; [reflexivity|].
  assert (P : 0 < qn (List.length y)) by (apply qn_pos; lia). unfold countb, zip.
  assert (LE : (List.length (filter (fun p : option Z * Z => eqb (fst p) (Some (snd p))) (combine ps y)) <= List.length y)%nat).
  { etransitivity; [apply (countb_le (fun p : option Z * Z => eqb (fst p) (Some (snd p))))|]. rewrite combine_length. lia. }
  destruct (@Qcdiv_01 (qn (List.length (filter (fun p : option Z * Z => eqb (fst p) (Some (snd p))) (combine ps y)))) (qn (List.length y))) as [A B];
    [apply qn_nonneg|apply qn_le; assumption|assumption|].
  split; [assumption|]. split; [assumption|].
  assert (ALL : List.length (filter (fun p : option Z * Z => eqb (fst p) (Some (snd p))) (combine ps y)) = List.length y <-> ps = map Some y).
  { clear - Lp. revert y Lp. induction ps as [|p ps IH]; intros [|c y] Lp; try discriminate; [split; reflexivity|]. injection Lp as Lp. cbn [combine filter fst snd map].
    destruct (eqb p (Some c)) eqn:Q.
    - rewrite eqb_eq in Q. subst p. cbn [List.length]. split; intro H; [injection H as H; apply (IH y Lp) in H; congruence|injection H as H; f_equal; apply (IH y Lp); assumption].
    - rewrite eqb_neq in Q. split; intro H; [|injection H as H1 H2; congruence]. exfalso. cbn [List.length] in H.
      assert (G : (List.length (filter (fun p : option Z * Z => eqb (fst p) (Some (snd p))) (combine ps y)) <= List.length y)%nat).
      { etransitivity; [apply (countb_le (fun p : option Z * Z => eqb (fst p) (Some (snd p))))|]. rewrite combine_length. lia. }
      lia. }
  assert (NONE : List.length (filter (fun p : option Z * Z => eqb (fst p) (Some (snd p))) (combine ps y)) = 0%nat <-> forall i c, nth_error y i = Some c -> nth_error ps i <> Some (Some c)).
  { clear - Lp. revert y Lp. induction ps as [|p ps IH]; intros [|c y] Lp; try discriminate.
    - split; [intros _ [|i] c H; discriminate|reflexivity].
    - injection Lp as Lp. cbn [combine filter fst snd]. destruct (eqb p (Some c)) eqn:Q.
      + rewrite eqb_eq in Q. subst p. split; [discriminate|]. intro H. exfalso. apply (H 0%nat c); reflexivity.
      + rewrite eqb_neq in Q. rewrite (IH y Lp). split; intro H.
        * intros [|i] c' A B; cbn in A, B; [congruence|]. apply (H i c'); assumption.
        * intros i c' A. apply (H (S i) c'). assumption. }
  split.
  - rewrite Qcdiv_eq by (intro Q; rewrite Q in P; discriminate P). rewrite Qcmult_1_l, qn_inj. exact ALL.
  - rewrite Qcdiv_eq by (intro Q; rewrite Q in P; discriminate P). rewrite Qcmult_0_l. change 0 with (qn 0). rewrite qn_inj. exact NONE.
Qed.
Print Assumptions C40_id3_score.
