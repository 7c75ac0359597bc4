(** * FDT and ID3 on categorical data: the fuzzy tree is an initial part of the ID3 tree *)
From Verif Require Import Prelude M_Fuzzy M_Discretize M_Rule M_FDT M_ID3 S_Rule S_FDT S_Crisp P_FuzzySet P_FuzzyVar P_Entropy P_Rule P_FDT P_FDT2 P_FDT3 P_FDT4 P_Crisp P_Crisp2 P_Metrics Properties_FDT Properties_Crisp S_ID3 P_ID3 P_ID3b P_ID3c Properties_ID3 Properties_ID3b S_Same P_Same P_Same2.
From Coq Require Import Reals Lra.
Set Implicit Arguments.
Open Scope Qc_scope.
Local Notation eqb := Prelude.eqb.

Lemma tests_fst vars p : map fst (tests vars p) = map fst p.
Proof. unfold tests. rewrite map_map. reflexivity. Qed.
Lemma tests_length vars p : List.length (tests vars p) = List.length p.
Proof. apply map_length. Qed.
Lemma snoc_split t0 p l n : node_at t0 (p ++ [l]) n -> exists m, node_at t0 p m /\ t_leaf m = false /\ In n (t_children m) /\ t_value n = Some l.
Proof. 
  revert t0. induction p as [|a p IH]; cbn [app]; intros t0 H; inversion H as [|? c ? ? ? L I V N]; subst.
  - inversion N; subst. exists t0. split; [constructor|auto].
  - destruct (IH _ N) as (m & A & B). exists m. split; [econstructor; eassumption|assumption].
Qed.

Section Agree.
  Variables (cfg : fdt_cfg) (ord : list (nat * nat) -> list string -> list string) (icfg : id3_cfg) (cls : list Z -> list Z) (fts : list string -> list string) (root : itree).
  Variables (X : list (list cell)) (y : list Z) (t : tree) (it : itree).
  Hypothesis T : trained cfg ord X y t.
  Hypothesis HT : id3_trained icfg cls fts root X y it.
  Hypothesis HC : forall z, cls z = zunique z.
  Hypothesis PR : i_prunning icfg = false.
  Hypothesis CV : column_variables X (f_vars cfg).
  Hypothesis LF : List.length (i_features icfg) = List.length (f_vars cfg).
  Hypothesis MD : i_max_depth icfg = f_max_depth cfg.
  Hypothesis ML : (f_max_depth cfg <= Z.of_nat (List.length (f_vars cfg)))%Z.
  Hypothesis ME : i_min_examples icfg = f_min_examples cfg.
  Hypothesis TI : forall p a b, untested (f_vars cfg) p a -> untested (f_vars cfg) p b -> (0 < info_gain (f_vars cfg) X y p a)%R ->
     info_gain (f_vars cfg) X y p a = info_gain (f_vars cfg) X y p b ->
     (forall c, untested (f_vars cfg) p c -> (info_gain (f_vars cfg) X y p c <= info_gain (f_vars cfg) X y p a)%R) -> a = b.
  Notation vars := (f_vars cfg).

  Lemma data_facts : (forall row, In row X -> (List.length vars <= List.length row)%nat) /\ List.length X = List.length y.
  Proof. destruct HT as ((_ & _ & LE & _ & W & _) & _). rewrite LF in W. split; assumption. Qed.
  Let W := proj1 data_facts.
  Let LE := proj2 data_facts.

  Lemma node_literals p n : node_at t p n -> literals vars p.
  Proof. intros H l Hl. destruct (C24_paths _ _ _ _ _ _ _ T H) as (_ & _ & _ & Q). exact (Q l Hl). Qed.
  Lemma classes_reaching p : literals vars p -> S_FDT.reaching vars X y p = map snd (reaching X y (tests vars p)).
  Proof. intro H. rewrite (@reaching_members vars X y CV W LE). apply (@members_tests vars X y CV). assumption. Qed.
  Lemma impure_reached p : literals vars p -> ~ limit_met cfg X y p -> reaching X y (tests vars p) <> [].
  Proof.
    intros H NL E. apply NL. left. rewrite (classes_reaching H), E. intros c c' [].
  Qed.
  Lemma mirror p n : node_at t p n -> exists m, inode_at it (tests vars p) m.
  Proof.
    revert n. induction p as [|l p IH] using rev_ind; intros n H; [exists it; constructor|].
    assert (LT := node_literals H). destruct (snoc_split _ _ H) as (par & Hp & Lp & Ic & Vc). destruct (IH _ Hp) as [m Hm].
    assert (Lq := node_literals Hp).
    destruct (C30_gain_optimal_choice _ _ _ _ _ _ _ T Hp Lp) as (a & v & Hv & Fc & U & G0 & _ & NL & GM & _).
    rewrite Forall_forall in Fc. destruct (Fc _ Ic) as [k Hk]. assert (l = (a, k)) by congruence. subst l.
    assert (RN := impure_reached Lq NL). assert (CR := classes_reaching Lq).
    destruct (i_leaf m) eqn:Lm.
    { exfalso. apply NL. destruct (leaf_limit HT PR Hm Lm RN) as [Q|Q]; rewrite ?tests_length in Q.
      - right. right. lia.
      - right. left. rewrite CR, map_length. lia. }
    destruct (inner_some HT Hm Lm) as (i & Vi & _); [rewrite MD, LF; assumption|].
    destruct (C79_best_gain _ _ _ _ _ _ _ _ _ _ HT Hm Lm Vi) as (Ni & _ & GI & _). rewrite tests_fst in Ni, GI.
    destruct (inner_var HT Hm Lm Vi) as (Li & _). rewrite LF in Li, GI. destruct U as [La Na].
    assert (EA := @gain_equal vars X y CV W LE p a Lq La RN). assert (EI := @gain_equal vars X y CV W LE p i Lq Li RN).
    assert (a = i).
    { apply (@TI p a i); try assumption; [split; assumption|split; assumption|].
      apply Rle_antisym; [rewrite EA, EI; apply GI; assumption|apply GM; split; assumption]. }
    subst i. destruct (C78_inner_nodes _ _ _ _ _ _ _ _ _ _ HT Hm Lm Vi) as (_ & _ & _ & _ & _ & _ & Ex & _).
    rewrite tests_snoc. cbn [fst]. apply Ex. destruct (@CV _ _ Hv) as (nvs & E & ND & O). apply O.
    destruct (LT (a, k)) as (v' & s & Hv' & Hs); [apply in_or_app; right; left; reflexivity|]. cbn [fst snd] in Hv', Hs. assert (v' = v) by congruence. subst v'.
    unfold asked. cbn [fst snd]. rewrite Hv, Hs. rewrite E, nth_error_map in Hs. destruct (nth_error nvs k) as [[nm z]|] eqn:Q; [|discriminate].
    cbn in Hs. injection Hs as <-. apply nth_error_In in Q. exact (in_map snd _ _ Q).
  Qed.

  Hypothesis CN : crisp_norm (f_tnorm cfg).
  Hypothesis LL : forall p n, node_at t p n -> t_leaf n = true -> 0 < mass vars X p -> limit_met cfg X y p.

  Lemma agree x : known icfg X x -> exists c, predict cfg t [x] = Ok [c] /\ id3_tree_predict it x = Ok (Some c).
  Proof.
    intro K. assert (ML' : (i_max_depth icfg <= Z.of_nat (List.length (i_features icfg)))%Z) by (rewrite MD, LF; assumption).
    destruct (@column_known vars X CV x) as [C R]; [intros a La; apply K; rewrite LF; assumption|].
    destruct (C137_majority _ _ _ _ _ _ T CN (@training_crisp vars X y CV W LE) C R) as (p & n & q & c & Hin & Ip & Mq & Hq & Ep & B).
    exists c. split; [assumption|].
    destruct (trained_wf T (crisp_sets C)) as [WF _]. apply (@leaves_node_at _ _ t WF) in Hin. destruct Hin as [Hn Ln].
    destruct (mirror Hn) as [m Hm]. assert (Lp := node_literals Hn). assert (O := Ip). rewrite (@inside_tests vars X CV x p Lp) in O.
    rewrite (predict_path HT x Hm O).
    destruct Hq as [->|[Em [l ->]]].
    - rewrite (@members_tests vars X y CV p Lp) in Mq, B.
      assert (RN : reaching X y (tests vars p) <> []) by (intro E; rewrite E in Mq; apply Mq; reflexivity).
      assert (Cm : i_class m = c). { apply (best_class_fun (node_class HT HC PR Hm RN) B). }
      assert (Mp : 0 < mass vars X p).
      { rewrite (@members_mass vars X y CV W LE), (@members_tests vars X y CV p Lp), map_length. apply qn_pos. destruct (reaching X y (tests vars p)); [congruence|cbn; lia]. }
      assert (CR := classes_reaching Lp).
      destruct (LL Hn Ln Mp) as [Q|Q].
      + rewrite <- (predict_path HT x Hm O). apply (@pure_predict icfg cls fts root X y it HT x c K ML' (List.length (i_features icfg)) (tests vars p) m); try assumption; [lia|].
        rewrite CR in Q. intros k Hk. rewrite <- Cm. apply Q; [assumption|]. apply (C37_majority_class _ _ _ _ _ _ _ _ _ HT Hm RN).
      + destruct (i_leaf m) eqn:Lm; [rewrite (predict_leaf _ _ Lm), Cm; reflexivity|exfalso].
        destruct (inner_some HT Hm Lm ML') as (i & Vi & _). destruct (C78_inner_nodes _ _ _ _ _ _ _ _ _ _ HT Hm Lm Vi) as (D & E & _).
        rewrite tests_length in D. rewrite CR, map_length in Q. lia.
    - assert (Lq : literals vars q) by (intros z Hz; apply Lp, in_or_app; left; assumption).
      rewrite (@members_tests vars X y CV _ Lp) in Em. rewrite (@members_tests vars X y CV _ Lq) in Mq, B.
      assert (RE : reaching X y (tests vars (q ++ [l])) = []) by (destruct (reaching X y (tests vars (q ++ [l]))); [reflexivity|discriminate Em]).
      assert (RN : reaching X y (tests vars q) <> []) by (intro E; rewrite E in Mq; apply Mq; reflexivity).
      destruct (C37_unreached_node _ _ _ _ _ _ _ _ _ HT Hm RE) as (q' & iv & par & E1 & E2 & E3 & E4 & _).
      rewrite tests_snoc in E1. apply app_inj_tail in E1. destruct E1 as [<- _].
      rewrite (predict_leaf _ _ E3), E4. rewrite (best_class_fun (node_class HT HC PR E2 RN) B). reflexivity.
  Qed.
End Agree.
