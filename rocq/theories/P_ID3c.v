(** * ID3: trained trees as a whole *)
From Verif Require Import Prelude M_Fuzzy M_Discretize M_Rule M_ID3 S_ID3 P_Entropy P_FuzzySet P_FuzzyVar P_Rule P_FDT P_ID3 P_ID3b.
From Coq Require Import Reals Lra.
Set Implicit Arguments.
Open Scope Qc_scope.

(** the facts about the arguments of the recursion that hold at the root *)
Record context (cfg : id3_cfg) (X : list (list cell)) (y : list Z) (SP : list (list cell)) : Prop := mkCtx {
  cx_fit : mapM (fun i => do col <- column X i; np_unique col) (seq 0 (List.length (i_features cfg))) = Ok SP;
  cx_nodup : NoDup (i_features cfg);
  cx_some : i_features cfg <> [];
  cx_sp : forall i, (i < List.length (i_features cfg))%nat -> exists spl, nth_error SP i = Some spl /\ NoDup spl;
  cx_len : List.length SP = List.length (i_features cfg);
  cx_occurs : forall i spl v, nth_error SP i = Some spl -> (In v spl <-> occurs X i v);
  cx_fine : fine cfg SP (combine X y);
  cx_rows : combine X y <> [];
  cx_fst : map fst (combine X y) = X;
  cx_snd : map snd (combine X y) = y }.

Lemma column_total X i : (forall x, In x X -> exists v, nth_error x i = Some v) -> exists col, column X i = Ok col /\
  (forall v, In v col <-> occurs X i v).
Proof.
  intro H. unfold column. induction X as [|x X IH].
  - exists []. split; [reflexivity|]. intro v. split; [intros []|intros [x [[] _]]].
  - destruct (H x (or_introl eq_refl)) as [v0 Hv]. destruct IH as [col [E I]]; [intros; apply H; right; assumption|].
    exists (v0 :: col). cbn [mapM]. rewrite Hv. cbn [ret_opt bind]. rewrite E. split; [reflexivity|]. intro v. cbn [In]. rewrite I. split.
    + intros [<-|[x' [A B]]]; [exists x; split; [left; reflexivity|assumption]|exists x'; split; [right; assumption|assumption]].
    + intros [x' [[<-|A] B]]; [left; congruence|right; exists x'; auto].
Qed.
Lemma table_context cfg X y : table (i_features cfg) X y -> exists SP, context cfg X y SP.
Proof.
  intros (ND & NE & LE & XE & W & HC).
  assert (CO : forall i, (i < List.length (i_features cfg))%nat -> exists u, (do col <- column X i; np_unique col) = Ok u /\ NoDup u /\ forall v, In v u <-> occurs X i v).
  { intros i L. destruct (@column_total X i) as [col [E I]].
    - intros x Hx. destruct (nth_error x i) eqn:Q; [eexists; reflexivity|]. apply nth_error_None in Q. assert (A := W x Hx). lia.
    - rewrite E. cbn [bind]. destruct (np_unique_spec col) as (u & E' & N & I').
      + destruct (HC i L) as [A|A]; [left|right]; intros c Hc; apply I in Hc; destruct Hc as [x [Hx Hv]]; destruct (A x Hx) as [q Q]; exists q; congruence.
      + exists u. split; [assumption|]. split; [assumption|]. intro v. rewrite I'. apply I. }
  destruct (@mapM_total nat (list cell) (fun i => do col <- column X i; np_unique col) (seq 0 (List.length (i_features cfg)))) as [SP E].
  { intros i Hi. apply in_seq in Hi. destruct (CO i) as [u [H _]]; [lia|]. exists u. assumption. }
  assert (LS := mapM_length _ _ E). rewrite seq_length in LS.
  assert (NT : forall i spl, nth_error SP i = Some spl -> (do col <- column X i; np_unique col) = Ok spl).
  { intros i spl H. apply mapM_ok in E. assert (L : (i < List.length SP)%nat) by (apply nth_error_Some; congruence).
    assert (G : forall (l : list nat) sp i, Forall2 (fun i u => (do col <- column X i; np_unique col) = Ok u) l sp -> nth_error sp i = Some spl -> exists j, nth_error l i = Some j /\ (do col <- column X j; np_unique col) = Ok spl).
    { clear. intros l sp i F. revert i. induction F as [|a b l m A B IH]; intros [|i] Q; cbn in Q; try discriminate; [injection Q as ->; exists a; auto|apply IH; assumption]. }
    destruct (G _ _ _ E H) as (j & J1 & J2). assert (JJ : j = i).
    { apply (nth_error_nth _ _ 0%nat) in J1. rewrite seq_nth in J1 by lia. lia. }
    subst j. assumption. }
  assert (SPO : forall i spl v, nth_error SP i = Some spl -> (In v spl <-> occurs X i v)).
  { intros i spl v H. assert (L : (i < List.length (i_features cfg))%nat) by (rewrite <- LS; apply nth_error_Some; congruence).
    destruct (CO i L) as (u & U & _ & I). rewrite (NT i spl H) in U. injection U as ->. apply I. }
  exists SP. constructor; try assumption.
  - intros i L. destruct (CO i L) as (u & U & N & _). destruct (nth_error SP i) as [spl|] eqn:Q.
    + exists spl. split; [reflexivity|]. rewrite (NT i spl Q) in U. injection U as ->. assumption.
    + apply nth_error_None in Q. lia.
  - intros [x c] Hx i spl L S. apply in_combine_l in Hx. cbn [fst]. destruct (nth_error x i) as [v|] eqn:Q.
    + exists v. split; [reflexivity|]. apply (SPO i spl v S). exists x. auto.
    + apply nth_error_None in Q. assert (A := W x Hx). lia.
  - destruct X; [congruence|]. destruct y; [discriminate|]. discriminate.
  - apply map_fst_combine. assumption.
  - apply map_snd_combine. assumption.
Qed.
(** a training run is a run of the recursion on the zipped rows *)
Lemma fit_fitn cfg cls fts root X y SP : context cfg X y SP ->
  id3_fit cfg cls fts root X y = fitn cfg cls fts SP (zunique y) (S (List.length (i_features cfg))) (combine X y) root 0 [].
Proof. intro C. unfold id3_fit, fitn. rewrite (cx_fit C). cbn [bind]. rewrite (cx_fst C), (cx_snd C). reflexivity. Qed.
Lemma fts_root cfg cls fts : set_orders cfg cls fts -> i_features cfg <> [] ->
  fts [] <> [] /\ (List.length (fts []) <= List.length (i_features cfg))%nat.
Proof.
  intros [_ H] NE. assert (P := H []). assert (E : filter (fun f => negb (memb f [])) (nodup string_dec (i_features cfg)) = nodup string_dec (i_features cfg)).
  { generalize (nodup string_dec (i_features cfg)). induction l as [|a l IH]; [reflexivity|]. cbn in *. rewrite IH. reflexivity. }
  rewrite E in P. split.
  - intro Q. rewrite Q in P. apply Permutation_nil in P. destruct (i_features cfg) as [|f l]; [congruence|].
    assert (I : In f (nodup string_dec (f :: l))) by (apply nodup_In; left; reflexivity). rewrite P in I. destruct I.
  - rewrite (Permutation_length P). generalize (i_features cfg). clear. intro l. induction l as [|a l IH]; [cbn; lia|]. cbn. destruct (in_dec string_dec a l); cbn; lia.
Qed.
Lemma inode_app r q par p n : inode_at r q par -> inode_at par p n -> inode_at r (q ++ p) n.
Proof. induction 1; intro H'; [assumption|]. cbn. eapply iat_child; eauto. Qed.
Lemma inode_split r q p n : inode_at r (q ++ p) n -> exists par, inode_at r q par /\ inode_at par p n.
Proof.
  revert r. induction q as [|a q IH]; intros r H; [exists r; split; [constructor|assumption]|]. cbn in H. inversion H; subst.
  destruct (IH c) as [par [A B]]; [assumption|]. exists par. split; [|assumption]. eapply iat_child; eassumption.
Qed.
Lemma empty_leaf c d p n : inode_at (empty_child c d) p n -> p = [] /\ n = empty_child c d.
Proof. intro H. inversion H as [|? ? ? ? ? ? ? Q]; subst; [auto|discriminate Q]. Qed.

Section Trained.
  Variables (cfg : id3_cfg) (cls : list Z -> list Z) (fts : list string -> list string) (root : itree) (X : list (list cell)) (y : list Z) (t : itree).
  Hypothesis HT : id3_trained cfg cls fts root X y t.
  (** the node reached by [p] was trained on [reaching X y p], or no row reaches it *)
  Lemma node_trained p n : inode_at t p n -> exists SP, context cfg X y SP /\
    ((reaching X y p <> [] /\ fine cfg SP (reaching X y p) /\ exists fuel t', fitn cfg cls fts SP (zunique y) (S fuel) (reaching X y p) t' (Z.of_nat (List.length p))
        (map (fun iv => nth (fst iv) (i_features cfg) ""%string) p) = Ok n /\ (p <> [] -> t' = new_itree) /\ (p = [] -> t' = root)) \/
     (reaching X y p = [] /\ exists q iv par, p = q ++ [iv] /\ inode_at t q par /\ reaching X y q <> [] /\ n = empty_child (i_class par) (Z.of_nat (List.length p)))).
  Proof.
    intro H. destruct HT as (TB & SO & F). destruct (table_context _ TB) as [SP C]. exists SP. split; [assumption|].
    rewrite (fit_fitn cls fts root C) in F.
    destruct (@node_fit cfg cls fts SP (zunique y) SO (cx_nodup C) (cx_some C) (cx_sp C) t p n H _ _ _ _ _ (cx_fine C) (cx_rows C) F) as [A B].
    unfold reaching. destruct (list_eq_dec eq_dec (filter (fun xy : list cell * Z => on_path p (fst xy)) (combine X y)) []) as [E|E].
    - right. split; [assumption|]. destruct (B E) as (q & iv & par & Q1 & Q2 & Q3 & Q4). exists q, iv, par. rewrite Z.add_0_l in Q4. auto.
    - left. split; [assumption|]. split.
      + intros xy Hxy. apply filter_In in Hxy. apply (cx_fine C), Hxy.
      + destruct (A E) as (fuel & t' & Q1 & Q2 & Q3). exists fuel, t'. rewrite Z.add_0_l in Q1. auto.
  Qed.
  Lemma root_trained : exists SP, context cfg X y SP /\ fitn cfg cls fts SP (zunique y) (S (List.length (i_features cfg))) (combine X y) root 0 [] = Ok t.
  Proof.
    destruct HT as (TB & SO & F). destruct (table_context _ TB) as [SP C]. exists SP. split; [assumption|]. rewrite <- (fit_fitn cls fts root C). assumption.
  Qed.
  (** facts about inner nodes *)
  Lemma inner_trained p n : inode_at t p n -> i_leaf n = false ->
    exists SP c k fuel t' best children, context cfg X y SP /\ reaching X y p <> [] /\ fine cfg SP (reaching X y p) /\ majority (reaching X y p) c k /\
      (p <> [] -> t' = new_itree) /\ (p = [] -> t' = root) /\
      stops cfg (Z.of_nat (List.length p)) (List.length (reaching X y p)) = false /\
      picked cfg SP (reaching X y p) (fts (map (fun iv => nth (fst iv) (i_features cfg) ""%string) p)) best /\
      grown cfg cls fts SP (zunique y) fuel (reaching X y p) c (Z.of_nat (List.length p)) (map (fun iv => nth (fst iv) (i_features cfg) ""%string) p) best children /\
      i_var n = option_map fst (fst best) /\ i_splits n = splits_of best /\ i_children n = map fst children /\
      i_error n = sub_error children (List.length (reaching X y p)) /\ i_numleaf n = (i_numleaf t' + List.length (splits_of best))%nat /\
      (i_prunning cfg = true -> i_numleaf n <> 1%nat /\ i_th cfg <= (node_error k (List.length (reaching X y p)) - i_error n) / qz (Z.of_nat (i_numleaf n) - 1)).
  Proof.
    intros H L. destruct (node_trained H) as (SP & C & [(R & F & fuel & t' & E & T1 & T2)|(_ & q & iv & par & _ & _ & _ & ->)]); [|discriminate].
    destruct HT as (TB & SO & _).
    destruct (@step_ok cfg cls fts SP (zunique y) SO (cx_nodup C) (cx_some C) (cx_sp C) fuel _ _ _ _ _ F R E)
      as (c & k & M & Cl & Cc & Lv & [(L1 & _)|(_ & St & best & children & P & G & V & S & Ch & Er & NL & Pr)]); [congruence|].
    exists SP, c, k, fuel, t', best, children. auto 20.
  Qed.
  Lemma inner_var p n i : inode_at t p n -> i_leaf n = false -> i_var n = Some i ->
    (i < List.length (i_features cfg))%nat /\ NoDup (i_splits n) /\ List.length (i_children n) = List.length (i_splits n) /\
    (forall v, In v (i_splits n) <-> occurs X i v) /\ ~ In i (map fst p).
  Proof.
    intros H L V. destruct (inner_trained H L) as (SP & c & k & fuel & t' & best & children & C & R & F & M & T1 & T2 & St & P & G & V' & S & Ch & Er & NL & Pr).
    destruct HT as (TB & SO & _). rewrite V in V'. destruct (best_form best) as [[j E]|[E _]]; [|rewrite E in V'; discriminate].
    rewrite E in V'. injection V' as <-.
    destruct (@picked_index cfg SP (cx_sp C) _ _ _ i (splits_of best) P E) as (LI & SPI & N & f & If & Hf).
    split; [assumption|]. split; [congruence|]. split; [rewrite S, Ch, map_length; symmetry; eapply grown_length; eassumption|]. split; [intro v; rewrite S; apply (cx_occurs C i v SPI)|].
    intro I. destruct (@fts_props cfg cls fts SO (map (fun iv => nth (fst iv) (i_features cfg) ""%string) p)) as [_ Q]. apply Q in If. destruct If as [_ If]. apply If.
    apply in_map_iff in I. destruct I as [iv [<- I]]. apply in_map_iff. exists iv. split; [|assumption]. apply nth_error_nth. assumption.
  Qed.
  (** prediction follows the path *)
  Lemma predict_path p n x : inode_at t p n -> on_path p x = true -> id3_tree_predict t x = id3_tree_predict n x.
  Proof.
    assert (G : forall r p n, inode_at r p n -> forall q, inode_at t q r -> on_path p x = true -> id3_tree_predict r x = id3_tree_predict n x).
    { clear p n. induction 1 as [r|r i s j c p n Lf V S C N IH]; intros q Q O; [reflexivity|].
      destruct (inner_var Q Lf V) as (LI & ND & LE & OC & _). cbn in O. apply andb_prop in O. destruct O as [O1 O2]. unfold has_value in O1. rewrite eqb_eq in O1.
      rewrite (@predict_inner r i x s Lf V O1). rewrite (@walk_hit x s (i_children r) (i_splits r) j c ND S C).
      apply (IH (q ++ [(i, s)])); [|exact O2]. eapply inode_app; [exact Q|]. eapply iat_child; try eassumption. constructor. }
    intros H O. apply (G t p n H []); [constructor|assumption].
  Qed.
End Trained.
