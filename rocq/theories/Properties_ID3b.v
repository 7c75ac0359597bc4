(** * Properties C77-C79 (ID3: pruning, structure, choice of features) *)
From Verif Require Import Prelude M_Fuzzy M_Discretize M_Rule M_ID3 S_ID3 P_Entropy P_FuzzySet P_FuzzyVar P_Rule P_FDT P_ID3 P_ID3b P_ID3c Properties_ID3.
From Coq Require Import Reals Lra.
Open Scope string_scope.
Open Scope list_scope.
Open Scope Qc_scope.

(** ** C78 *)
Lemma path_columns cfg cls fts root X y t : id3_trained cfg cls fts root X y t -> forall q m, inode_at t q m ->
  NoDup (map fst q) /\ incl (map fst q) (seq 0 (List.length (i_features cfg))).
Proof.
  intros HT q. induction q as [|iv q IHq] using rev_ind; intros m' Hm.
  - split; [constructor|intros ? []].
  - destruct (inode_split _ _ Hm) as [par [A B]]. inversion B as [|? i' s' j' c' p' n' L1 L2 L3 L4 L5]; subst. inversion L5; subst.
    destruct (IHq par A) as [Q1 Q2]. destruct (inner_var HT A L1 L2) as (LI' & _ & _ & _ & NI). rewrite map_app. cbn [map fst]. split.
    + apply NoDup_snoc; assumption.
    + intros z Hz. apply in_app_iff in Hz. destruct Hz as [Hz|[<-|[]]]; [apply Q2; assumption|apply in_seq; lia].
Qed.
(** every column is tested at most once on the way to a node, whose level is the number of tests;
    no node lies deeper than there are features *)
Theorem C78_paths : forall cfg cls fts root X y t p n,
  id3_trained cfg cls fts root X y t -> inode_at t p n ->
  NoDup (map fst p) /\ (forall i v, In (i, v) p -> (i < List.length (i_features cfg))%nat /\ occurs X i v) /\
  i_level n = Z.of_nat (List.length p) /\ (List.length p <= List.length (i_features cfg))%nat.
Proof.
  intros cfg cls fts root X y t p n HT H. destruct (path_columns _ _ _ _ _ _ _ HT _ _ H) as [ND I]. split; [assumption|]. split; [|split].
  - intros i v Hiv. apply in_split in Hiv. destruct Hiv as (p1 & p2 & ->). destruct (inode_split _ _ H) as [par [A B]].
    inversion B as [|? i' s' j' c' p' n' L1 L2 L3 L4 L5]; subst. destruct (inner_var HT A L1 L2) as (LI & _ & _ & OC & _).
    split; [assumption|]. apply OC. eapply nth_error_In; eassumption.
  - destruct (node_trained HT H) as (SP & C & [(R & F & fuel & t' & E & _)|(_ & q & iv & par & -> & _ & _ & ->)]); [|reflexivity].
    destruct HT as (TB & SO & _).
    destruct (@step_ok cfg cls fts SP (zunique y) SO (cx_nodup C) (cx_some C) (cx_sp C) fuel _ _ _ _ _ F R E) as (c & k & _ & _ & _ & Lv & _). exact Lv.
  - assert (L := NoDup_incl_length ND I). rewrite map_length, seq_length in L. exact L.
Qed.
Print Assumptions C78_paths.
(** inner nodes lie above the depth limit, are reached by at least min_num_examples training rows,
    and have exactly one child for each value of their column in the whole training set; leaves have no
    descendants *)
Theorem C78_inner_nodes : forall cfg cls fts root X y t p n i,
  id3_trained cfg cls fts root X y t -> inode_at t p n -> i_leaf n = false -> i_var n = Some i ->
  (Z.of_nat (List.length p) < i_max_depth cfg)%Z /\ (i_min_examples cfg <= Z.of_nat (List.length (reaching X y p)))%Z /\
  (0 < List.length (reaching X y p))%nat /\
  NoDup (i_splits n) /\ (forall v, In v (i_splits n) <-> occurs X i v) /\ List.length (i_children n) = List.length (i_splits n) /\
  (forall v, occurs X i v <-> exists c, inode_at t (p ++ [(i, v)]) c) /\
  (forall v c c', inode_at t (p ++ [(i, v)]) c -> inode_at t (p ++ [(i, v)]) c' -> c = c').
Proof.
  intros cfg cls fts root X y t p n i HT H L V.
  destruct (inner_trained HT H L) as (SP & c & k & fuel & t' & best & children & C & R & F & M & T1 & T2 & St & PK & G & V' & S & Ch & Er & NL & Pr).
  destruct (inner_var HT H L V) as (LI & ND & LE & OC & _).
  unfold stops in St. apply orb_false_elim in St. destruct St as [S1 S2]. apply Z.leb_gt in S1. apply Z.ltb_ge in S2.
  split; [assumption|]. split; [assumption|]. split; [destruct (reaching X y p); [congruence|cbn; lia]|]. split; [assumption|]. split; [assumption|]. split; [assumption|].
  assert (DET : forall q a b, inode_at t q a -> inode_at t q b -> a = b).
  { intros q. induction q as [|iv q IHq] using rev_ind; intros a b Ha Hb.
    - inversion Ha; inversion Hb; subst; congruence.
    - destruct (inode_split _ _ Ha) as [par [A B]]. destruct (inode_split _ _ Hb) as [par' [A' B']].
      assert (par = par') by (apply (IHq par par' A A')). subst par'.
      inversion B as [|? i1 s1 j1 c1 p1 n1 L1 L2 L3 L4 L5]; subst. inversion L5; subst.
      inversion B' as [|? i2 s2 j2 c2 p2 n2 M1 M2 M3 M4 M5]; subst. inversion M5; subst.
      destruct (inner_var HT A L1 L2) as (_ & ND' & _). rewrite NoDup_nth_error in ND'.
      assert (j1 = j2) by (apply ND'; [apply nth_error_Some; congruence|congruence]). congruence. }
  split.
  - intro v. rewrite <- OC. split.
    + intro I. destruct (In_nth_error _ _ I) as [j J]. destruct (nth_error (i_children n) j) as [ch|] eqn:CJ.
      * exists ch. eapply inode_app; [exact H|]. eapply iat_child; try eassumption. constructor.
      * apply nth_error_None in CJ. assert (j < List.length (i_splits n))%nat by (apply nth_error_Some; congruence). lia.
    + intros [ch N]. destruct (inode_split _ _ N) as [par [A B]]. rewrite <- (DET _ _ _ H A) in B. inversion B; subst.
      eapply nth_error_In; eassumption.
  - intros v a b. apply DET.
Qed.
Print Assumptions C78_inner_nodes.

(** ** C79 *)
(** the column tested by an inner node has not been tested above it, and no other such column has a larger
    information gain on the training rows reaching the node; ties go to the column whose name comes first in
    the iteration order of the set of remaining names *)
Theorem C79_best_gain : forall cfg cls fts root X y t p n i,
  id3_trained cfg cls fts root X y t -> inode_at t p n -> i_leaf n = false -> i_var n = Some i ->
  ~ In i (map fst p) /\ (0 <= information_gain (reaching X y p) i)%R /\
  (forall j, (j < List.length (i_features cfg))%nat -> ~ In j (map fst p) -> (information_gain (reaching X y p) j <= information_gain (reaching X y p) i)%R) /\
  exists f before after, nth_error (i_features cfg) i = Some f /\
    fts (map (fun iv => nth (fst iv) (i_features cfg) "") p) = before ++ f :: after /\
    forall j g, nth_error (i_features cfg) j = Some g -> In g before -> (information_gain (reaching X y p) j < information_gain (reaching X y p) i)%R.
Proof.
  intros cfg cls fts root X y t p n i HT H L V.
  destruct (inner_trained HT H L) as (SP & c & k & fuel & t' & best & children & C & R & F & M & T1 & T2 & St & PK & G & V' & S & Ch & Er & NL & Pr).
  destruct (inner_var HT H L V) as (LI & ND & LE & OC & NP). split; [assumption|].
  assert (PC := path_columns _ _ _ _ _ _ _ HT _ _ H). destruct PC as [_ PC].
  destruct HT as (TB & SO & _).
  split; [eapply information_gain_nonneg; eauto using cx_sp; apply (cx_sp C)|].
  destruct (best_form best) as [[i' E]|[E _]]; [|rewrite E in V'; cbn in V'; congruence].
  assert (i' = i) by (rewrite E in V'; cbn in V'; congruence). subst i'.
  unfold picked in PK. rewrite E in PK. destruct PK as (f & l1 & l2 & Q1 & Q2 & Q3 & Q4 & Q5 & Q6). split.
  - intros j Lj Nj. destruct (nth_error (i_features cfg) j) as [g|] eqn:Gj; [|apply nth_error_None in Gj; lia].
    assert (IG : In g (fts (map (fun iv => nth (fst iv) (i_features cfg) "") p))).
    { destruct (@fts_props cfg cls fts SO (map (fun iv => nth (fst iv) (i_features cfg) "") p)) as [_ Q]. apply Q. split; [eapply nth_error_In; eassumption|].
      intro I. apply in_map_iff in I. destruct I as [iv [A B]]. apply Nj. apply in_map_iff. exists iv. split; [|assumption].
      assert (Lv : In (fst iv) (map fst p)) by (apply in_map; assumption). apply PC in Lv. apply in_seq in Lv.
      assert (N := cx_nodup C). rewrite NoDup_nth_error in N. apply N; [lia|]. rewrite Gj. rewrite (nth_error_nth' _ "") by lia. congruence. }
    rewrite Q1 in IG. apply in_app_iff in IG. destruct IG as [IG|[<-|IG]].
    + left. apply (Q5 g j IG Gj).
    + assert (N := cx_nodup C). rewrite NoDup_nth_error in N. assert (j = i) by (apply N; [lia|congruence]). subst. apply Rle_refl.
    + apply (Q6 g j IG Gj).
  - exists f, l1, l2. split; [assumption|]. split; [assumption|]. intros j g Gj Ig. apply (Q5 g j Ig Gj).
Qed.
Print Assumptions C79_best_gain.

(** ** C77 *)
Lemma error_01 D c k : D <> [] -> majority D c k -> 0 <= node_error k (List.length D).
Proof.
  intros NE (M1 & -> & M3). unfold node_error, times.
  assert (LD : (0 < List.length D)%nat) by (destruct D; [congruence|cbn; lia]).
  destruct (@Qcdiv_01 (qn (List.length (filter (fun xy : list cell * Z => Z.eqb (snd xy) c) D))) (qn (List.length D))) as [_ A].
  - apply qn_nonneg.
  - apply qn_le. apply (countb_le (fun xy : list cell * Z => Z.eqb (snd xy) c)).
  - apply qn_pos. assumption.
  - qlra.
Qed.
Lemma pruned_inner cfg cls fts root X y t p n : id3_trained cfg cls fts root X y t -> i_prunning cfg = true -> 0 < i_th cfg ->
  inode_at t p n -> i_leaf n = false -> exists i c k t', i_var n = Some i /\ (1 <= List.length (i_splits n))%nat /\
    i_class n = c /\ majority (reaching X y p) c k /\ reaching X y p <> [] /\ (p <> [] -> t' = new_itree) /\ (p = [] -> t' = root) /\
    i_numleaf n = (i_numleaf t' + List.length (i_splits n))%nat /\ (2 <= i_numleaf n)%nat /\
    i_error n + i_th cfg * qn (i_numleaf n - 1) <= node_error k (List.length (reaching X y p)).
Proof.
  intros HT PR TH H L.
  destruct (node_trained HT H) as (SP & C & [(R & F & fuel & t' & E & T1 & T2)|(_ & q & iv & par & _ & _ & _ & ->)]); [|discriminate].
  assert (HT' := HT). destruct HT as (TB & SO & _).
  destruct (@step_ok cfg cls fts SP (zunique y) SO (cx_nodup C) (cx_some C) (cx_sp C) fuel _ _ _ _ _ F R E)
    as (c & k & M & Cl & Cc & Lv & [(L1 & _)|(_ & St & best & children & P & G & V' & S & Ch & Er & NL & Pr)]); [congruence|].
  destruct (Pr PR) as [N1 T].
  assert (N0 := error_01 _ _ _ R M).
  destruct (best_form best) as [[i EB]|[EB EB']].
  - assert (V : i_var n = Some i) by (rewrite V', EB; reflexivity). destruct (inner_var HT' H L V) as (LI & ND & LE & OC & NP).
    assert (SL : (1 <= List.length (i_splits n))%nat).
    { destruct (reaching X y p) as [|[x z] l] eqn:RE; [congruence|]. assert (I : In (x, z) (combine X y)).
      { apply (proj1 (filter_In (fun xy : list cell * Z => on_path p (fst xy)) (x, z) (combine X y))). unfold reaching in RE. rewrite RE. left. reflexivity. }
      apply in_combine_l in I. destruct TB as (_ & _ & _ & _ & W & _). assert (Wx := W x I).
      destruct (nth_error x i) as [v|] eqn:Xi; [|apply nth_error_None in Xi; lia].
      assert (IS : In v (i_splits n)) by (apply OC; exists x; auto). destruct (i_splits n); [destruct IS|cbn; lia]. }
    exists i, c, k, t'. rewrite <- S in NL.
    assert (N2 : (2 <= i_numleaf n)%nat) by lia.
    split; [assumption|]. split; [assumption|]. split; [assumption|]. split; [assumption|]. split; [assumption|]. split; [assumption|]. split; [assumption|].
    split; [assumption|]. split; [assumption|].
    replace (Z.of_nat (i_numleaf n) - 1)%Z with (Z.of_nat (i_numleaf n - 1)) in T by lia. change (qz (Z.of_nat (i_numleaf n - 1))) with (qn (i_numleaf n - 1)) in T.
    assert (PS : 0 < qn (i_numleaf n - 1)) by (apply qn_pos; lia).
    remember (node_error k (List.length (reaching X y p))) as NE' eqn:X1. remember (qn (i_numleaf n - 1)) as d eqn:X2. remember (i_error n) as e eqn:X3.
    assert (Z1 : i_th cfg * d <= (NE' - e) / d * d) by (apply Qcmult_le_compat_r; [assumption|apply Qclt_le_weak; assumption]).
    replace ((NE' - e) / d * d) with (NE' - e) in Z1 by (field; intro Q; rewrite Q in PS; discriminate PS). qlra.
  - exfalso. unfold picked in P. rewrite EB in P. destruct P as [P _].
    destruct p as [|iv p]; [apply (proj1 (fts_root SO (cx_some C))); exact P|].
    rewrite (T1 ltac:(discriminate)) in NL. rewrite NL, EB' in T. unfold grown in G. rewrite EB in G. subst children. rewrite Er in T.
    cbn [List.length Nat.add i_numleaf new_itree] in T. change (Z.of_nat 0 - 1)%Z with (-1)%Z in T. change (sub_error [] (List.length (reaching X y (iv :: p)))) with 0%Qc in T.
    replace ((node_error k (List.length (reaching X y (iv :: p))) - 0) / qz (-1)) with (- node_error k (List.length (reaching X y (iv :: p)))) in T; [qlra|].
    change (qz (-1)) with (- (1))%Qc. field. discriminate.
Qed.
(** after a first fit with pruning, a node is kept as an inner node only if it has at least two children and
    splitting lowers the training error of its rows by at least the threshold per additional child *)
Theorem C77_kept_splits : forall cfg cls fts X y t p n,
  id3_trained cfg cls fts new_itree X y t -> i_prunning cfg = true -> 0 < i_th cfg -> inode_at t p n -> i_leaf n = false ->
  (2 <= List.length (i_children n))%nat /\
  i_error n + i_th cfg * qn (List.length (i_children n) - 1) <= 1 - qn (times (i_class n) (reaching X y p)) / qn (List.length (reaching X y p)).
Proof.
  intros cfg cls fts X y t p n HT PR TH H L.
  destruct (pruned_inner _ _ _ _ _ _ _ _ _ HT PR TH H L) as (i & c & k & t' & V & SL & Cl & M & R & T1 & T2 & NL & N2 & Q).
  destruct (inner_var HT H L V) as (_ & _ & LE & _). assert (t' = new_itree) by (destruct p; [apply T2; reflexivity|apply T1; discriminate]). subst t'.
  rewrite LE. cbn [i_numleaf new_itree Nat.add] in NL. rewrite <- NL. split; [assumption|]. rewrite Cl. destruct M as (_ & <- & _). exact Q.
Qed.
Print Assumptions C77_kept_splits.
(** so a pruned tree is at least as good on its training set as always answering the most frequent class *)
Theorem C77_beats_majority : forall cfg cls fts root X y t,
  id3_trained cfg cls fts root X y t -> i_prunning cfg = true -> 0 < i_th cfg ->
  exists s, id3_score t X y = Ok s /\ forall c, qn (count_occ Z.eq_dec y c) / qn (List.length y) <= s.
Proof.
  intros cfg cls fts root X y t HT PR TH. assert (HT' := HT). destruct HT' as (TB & SO & _). assert (TB' := TB). destruct TB' as (ND & NE & LE & XE & W & HC).
  destruct (C36_predict_known _ _ _ _ _ _ _ X HT PR TH XE) as (ps & PE & PL & PI).
  { intros x Hx i Li. destruct (nth_error x i) as [v|] eqn:Xi; [|apply nth_error_None in Xi; assert (Wx := W x Hx); lia]. exists v. split; [reflexivity|]. exists x. auto. }
  assert (L0 : List.length y <> 0%nat) by (rewrite <- LE; destruct X; [congruence|discriminate]).
  exists (qn (countb (fun q : option Z * Z => eqb (fst q) (Some (snd q))) (zip (map Some ps) y)) / qn (List.length y)). split.
  { unfold id3_score. rewrite LE, Nat.eqb_refl. cbn [negb orb]. destruct (Nat.eqb_spec (List.length y) 0) as [Z0|_]; [contradiction|]. rewrite PE. reflexivity. }
  assert (RT : reaching X y [] = combine X y).
  { unfold reaching. generalize (combine X y). intro D. induction D as [|d D IH]; [reflexivity|]. cbn. f_equal. exact IH. }
  assert (RN : reaching X y [] <> []) by (rewrite RT; destruct X; [congruence|]; destruct y; [discriminate|discriminate]).
  assert (ER := C37_error_is_training_error _ _ _ _ _ _ _ [] t HT (iat_self t) RN).
  assert (RL : List.length (reaching X y []) = List.length y) by (rewrite RT, combine_length; lia).
  (* correct + wrong = all *)
  assert (CW : (countb (fun q : option Z * Z => eqb (fst q) (Some (snd q))) (zip (map Some ps) y) +
    List.length (filter (fun xy => match id3_tree_predict t (fst xy) with Ok (Some c) => negb (Z.eqb c (snd xy)) | _ => false end) (reaching X y [])) = List.length y)%nat).
  { rewrite RT. assert (PM : mapM (id3_tree_predict t) X = Ok (map Some ps)) by (unfold id3_predict in PE; destruct X; [congruence|exact PE]).
    clear - PM LE. unfold countb, zip. revert y ps LE PM. induction X as [|x X IH]; intros [|c y] ps LE PM; try discriminate LE.
    - injection PM as PM. destruct ps; [reflexivity|discriminate].
    - cbn [mapM] in PM. destruct (id3_tree_predict t x) as [o|] eqn:P0; cbn [bind] in PM; [|discriminate].
      destruct (mapM (id3_tree_predict t) X) as [os|] eqn:P1; cbn [bind] in PM; [|discriminate]. injection PM as PM. destruct ps as [|a ps]; [discriminate|]. cbn [map] in PM. injection PM as -> ->.
      assert (A := IH y ps ltac:(injection LE; auto) eq_refl). cbn [map combine filter fst snd]. rewrite P0.
      destruct (Z.eqb_spec a c) as [->|N].
      + rewrite eqb_refl. cbn [negb List.length]. lia.
      + replace (eqb (Some a) (Some c)) with false by (symmetry; apply eqb_neq; congruence). cbn [negb List.length]. lia. }
  assert (TC : forall c, times c (reaching X y []) = count_occ Z.eq_dec y c).
  { intro c. rewrite RT. unfold times. clear - LE. revert y LE. induction X as [|x X IH]; intros [|z y] LE; try discriminate; [reflexivity|]. injection LE as LE.
    cbn [combine filter snd count_occ]. destruct (Z.eqb_spec z c) as [E|E]; destruct (Z.eq_dec z c); try contradiction; cbn [List.length]; rewrite IH by assumption; reflexivity. }
  intro c. destruct (C37_majority_class _ _ _ _ _ _ _ [] t HT (iat_self t) RN) as (_ & MX & _ & LF).
  assert (EL : i_error t <= 1 - qn (times (i_class t) (reaching X y [])) / qn (List.length (reaching X y []))).
  { destruct (i_leaf t) eqn:L; [rewrite (LF eq_refl); apply Qcle_refl|].
    destruct (pruned_inner _ _ _ _ _ _ _ _ _ HT PR TH (iat_self t) L) as (i & c' & k & t' & V & SL & Cl & M & R & T1 & T2 & NL & N2 & Q).
    rewrite Cl. destruct M as (_ & <- & _). unfold node_error in Q. assert (0 <= i_th cfg * qn (i_numleaf t - 1)); [|qlra].
    apply Qcmult_nonneg; [apply Qclt_le_weak; assumption|apply qn_nonneg]. }
  rewrite ER, RL in EL. assert (P : 0 < qn (List.length y)) by (apply qn_pos; lia).
  assert (MC := MX c). rewrite !TC in MC. rewrite TC in EL. apply qn_le in MC.
  apply (f_equal qn) in CW. rewrite qn_plus in CW.
  match type of CW with ?a + ?b = _ => remember a as good eqn:E1; remember b as bad eqn:E2 end. clear E1 E2.
  remember (qn (List.length y)) as N eqn:E3. remember (qn (count_occ Z.eq_dec y c)) as m eqn:E4. remember (qn (count_occ Z.eq_dec y (i_class t))) as M eqn:E5.
  assert (PN : N <> 0) by (intro Q; rewrite Q in P; discriminate P).
  apply Qcle_trans with (M / N).
  - apply Qcdiv_le; [assumption|]. replace (M / N * N) with M by (field; assumption). assumption.
  - replace (good / N) with (1 - bad / N); [qlra|]. rewrite <- CW. field. intro Q. apply PN. rewrite <- CW. assumption.
Qed.
Print Assumptions C77_beats_majority.

(** ** Instances: one column "a" with values 0, 0, 1, 2 and classes 0, 0, 1, 1 *)
Lemma best_one positions SP X y classes ft i col spl : dget ft positions = Some i -> column X i = Ok col -> nth_error SP i = Some spl ->
  List.length col = List.length y -> List.length X = List.length y -> NoDup classes -> incl y classes -> y <> [] -> NoDup spl -> incl col spl ->
  exists g, best_feature positions SP X y classes [ft] = Ok (Some (i, spl), g).
Proof.
  intros A B C D E F G H I J. unfold best_feature. cbn [foldM]. rewrite A. cbn [ret_opt bind]. rewrite B. cbn [bind]. rewrite C. cbn [ret_opt bind].
  rewrite D, Nat.eqb_refl. cbn [negb snd]. rewrite E. assert (K := @gain_nonneg classes col y spl F G H I J D).
  exists (id3_gain classes col y spl (List.length y)).
  replace (Rltb (-1)%R (id3_gain classes col y spl (List.length y))) with true; [reflexivity|]. symmetry. apply Rltb_lt. lra.
Qed.
Definition xa (l : list Z) : list (list cell) := map (fun z => [CNum (qz z)]) l.
Definition ex_id3 (th : Qc) (depth : Z) (pr : bool) : id3_cfg := mkID3 ["a"] th depth 1 pr.
Definition ex_cls : list Z -> list Z := nodup Z.eq_dec.
Definition ex_fts : list string -> list string := fun erased => filter (fun f => negb (memb f erased)) ["a"].
Lemma ex_orders th d pr : set_orders (ex_id3 th d pr) ex_cls ex_fts.
Proof. split; intros; apply Permutation_refl. Qed.
Lemma ex_table l y : List.length l = List.length y -> l <> [] -> table ["a"] (xa l) y.
Proof.
  intros L N. split; [repeat constructor; intros []|]. split; [discriminate|]. split; [unfold xa; rewrite map_length; assumption|]. split; [destruct l; [congruence|discriminate]|]. split.
  - intros x Hx. apply in_map_iff in Hx. destruct Hx as [z [<- _]]. cbn. lia.
  - intros [|i] Hi; [|cbn in Hi; lia]. left. intros x Hx. apply in_map_iff in Hx. destruct Hx as [z [<- _]]. eexists. reflexivity.
Qed.
Ltac ex_run SP :=
  unfold id3_fit;
  match goal with |- bind ?m _ = _ => replace m with (Ok SP) by (symmetry; qex) end; cbn [bind];
  remember (List.length (i_features _)) as one eqn:E1; cbn [id3_partial_fit]; cbn zeta;
  match goal with |- context [best_feature ?a ?b ?c ?d ?e ?f] =>
    let g := fresh "g" in let EB := fresh "EB" in
    destruct (@best_one a b c d e "a" 0%nat (map (fun x => nth 0 x (CNum 0)) c) (nth 0 b [])) as [g EB];
    [reflexivity | qex | reflexivity | reflexivity | reflexivity | first [apply NoDup_nodup | apply zunique_NoDup] | intros z Hz; first [apply nodup_In; exact Hz | apply zunique_In; exact Hz] | discriminate
    | repeat constructor; cbn; intuition discriminate | intros z Hz; cbn in Hz |- *; intuition congruence
    | change f with ["a"]; rewrite EB; subst one; qex]
  end.
Definition ileaf' (c : Z) (n : nat) : itree := ITree None true [] [] c (Some (n, n)) 1 0 1.
Definition ex_tree : itree := ITree (Some 0%nat) false [ileaf' 0 2; ileaf' 1 1; ileaf' 1 1] [CNum 0; CNum 1; CNum (qz 2)] 0 (Some (4, 2)%nat) 0 0 3.
Lemma ex_trained : id3_trained (ex_id3 (1 / qz 10) 5 true) ex_cls ex_fts new_itree (xa [0; 0; 1; 2]%Z) [0; 0; 1; 1]%Z ex_tree.
Proof.
  split; [apply ex_table; [reflexivity|discriminate]|]. split; [apply ex_orders|].
  ex_run [[CNum 0; CNum 1; CNum (qz 2)]]. 
Qed.
Example C36_instance : id3_tree_predict ex_tree [CNum (qz 2)] = Ok (Some 1%Z) /\ id3_tree_predict ex_tree [CNum (qz 7)] = Ok None /\
  known (ex_id3 (1 / qz 10) 5 true) (xa [0; 0; 1; 2]%Z) [CNum (qz 2)] /\ ~ occurs (xa [0; 0; 1; 2]%Z) 0 (CNum (qz 7)).
Proof.
  split; [reflexivity|]. split; [reflexivity|]. split.
  - intros [|i] Hi; [|cbn in Hi; lia]. exists (CNum (qz 2)). split; [reflexivity|]. exists [CNum (qz 2)]. split; [right; right; right; left; reflexivity|reflexivity].
  - intros [x [Hx Hv]]. cbn in Hx. destruct Hx as [<-|[<-|[<-|[<-|[]]]]]; discriminate Hv.
Qed.
Example C37_instance : exists n, inode_at ex_tree [(0%nat, CNum 0)] n /\ List.length (reaching (xa [0; 0; 1; 2]%Z) [0; 0; 1; 1]%Z [(0%nat, CNum 0)]) = 2%nat /\
  i_class n = 0%Z /\ i_count n = Some (2, 2)%nat.
Proof. exists (ileaf' 0 2). split; [apply (@iat_child ex_tree 0 (CNum 0) 0%nat (ileaf' 0 2)); try reflexivity; constructor|]. split; [reflexivity|]. split; reflexivity. Qed.
Example C38_instance : id3_tree_rules ["a"] ex_tree [] = Ok [mkR [("a", CNum 0)] 0%Z 1; mkR [("a", CNum 1)] 1%Z 1; mkR [("a", CNum (qz 2))] 1%Z 1] /\
  applies ["a"] [CNum 1] (mkR [("a", CNum 1)] 1%Z 1).
Proof. split; [reflexivity|]. intros fv [<-|[]]. exists 0%nat. split; reflexivity. Qed.
Example C39_instance : id3_fit (ex_id3 (1 / qz 10) 5 true) ex_cls ex_fts new_itree (xa [3; 3]%Z) [0; 1]%Z = Err ZeroDivisionError.
Proof.
  apply C39_constant_column_fails with (i := 0%nat) (v := CNum (qz 3)); try reflexivity; try (cbn; lia).
  - apply ex_table; [reflexivity|discriminate].
  - apply ex_orders.
  - intros x [<-|[<-|[]]]; reflexivity.
Qed.
(** a one-level tree without pruning whose leaves have become childless inner nodes *)
Definition ex_dead : itree :=
  let dead c := ITree None false [] [] c (Some (1, 1)%nat) 1 0 0 in ITree (Some 0%nat) false [dead 0%Z; dead 1%Z] [CNum 0; CNum 1] 0 (Some (2, 1)%nat) 0 0 2.
Example C39_dead_end_instance : id3_trained (ex_id3 (1 / qz 10) 5 false) ex_cls ex_fts new_itree (xa [0; 1]%Z) [0; 1]%Z ex_dead /\ id3_score ex_dead (xa [0; 1]%Z) [0; 1]%Z = Ok 0.
Proof.
  assert (H : id3_trained (ex_id3 (1 / qz 10) 5 false) ex_cls ex_fts new_itree (xa [0; 1]%Z) [0; 1]%Z ex_dead).
  { split; [apply ex_table; [reflexivity|discriminate]|]. split; [apply ex_orders|]. ex_run [[CNum 0; CNum 1]]. }
  split; [assumption|]. eapply C39_dead_ends; [exact H|reflexivity|cbn; lia|cbn; lia].
Qed.
Example C77_instance : i_leaf ex_tree = false /\ i_error ex_tree = 0 /\ List.length (i_children ex_tree) = 3%nat /\ id3_score ex_tree (xa [0; 0; 1; 2]%Z) [0; 0; 1; 1]%Z = Ok 1.
Proof. split; [reflexivity|]. split; [reflexivity|]. split; [reflexivity|]. qex. Qed.
Example C78_instance : exists n, inode_at ex_tree [(0%nat, CNum 1)] n /\ i_level n = 1%Z /\ i_leaf n = true /\ i_leaf ex_tree = false /\ i_var ex_tree = Some 0%nat.
Proof. exists (ileaf' 1 1). split; [apply (@iat_child ex_tree 0 (CNum 1) 1%nat (ileaf' 1 1)); try reflexivity; constructor|]. repeat split. Qed.

(** the leaf count survives a fit, so fitting the same estimator again on the same data can prune a split that the
    first fit kept: the training score drops from 1 to 1/2 *)
Definition ex_first : itree := ITree (Some 0%nat) false [ileaf' 0 1; ileaf' 1 1] [CNum 0; CNum 1] 0 (Some (2, 1)%nat) 0 0 2.
Definition ex_second : itree := ITree (Some 0%nat) true [ileaf' 0 1; ileaf' 1 1] [CNum 0; CNum 1] 0 (Some (2, 1)%nat) 0 (1 / qz 2) 1.
Theorem C77_refit_can_lose_accuracy : exists cfg cls fts X y t t', i_prunning cfg = true /\ 0 < i_th cfg /\
  id3_trained cfg cls fts new_itree X y t /\ id3_trained cfg cls fts t X y t' /\
  id3_score t X y = Ok 1 /\ id3_score t' X y = Ok (1 / qz 2).
Proof.
  exists (ex_id3 (qz 2 / qz 5) 5 true), ex_cls, ex_fts, (xa [0; 1]%Z), [0; 1]%Z, ex_first, ex_second.
  split; [reflexivity|]. split; [reflexivity|]. split; [|split; [|split; qex]].
  - split; [apply ex_table; [reflexivity|discriminate]|]. split; [apply ex_orders|]. ex_run [[CNum 0; CNum 1]].
  - split; [apply ex_table; [reflexivity|discriminate]|]. split; [apply ex_orders|]. ex_run [[CNum 0; CNum 1]].
Qed.
Print Assumptions C77_refit_can_lose_accuracy.
