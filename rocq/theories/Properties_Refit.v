(** * Property C134: fitting an ID3 estimator again *)
From Verif Require Import Prelude M_Fuzzy M_Discretize M_Rule M_ID3 S_ID3 P_Entropy P_FuzzySet P_FuzzyVar P_Rule P_FDT P_ID3 P_ID3b P_ID3c Properties_ID3 Properties_ID3b S_Refit P_Refit.
From Coq Require Import Reals Lra.
Open Scope string_scope.
Open Scope list_scope.
Open Scope Qc_scope.

(** Without pruning a tree fitted before answers like a new one; only the number of leaves recorded at a split root adds up. *)
Theorem C134_without_pruning : forall cfg cls fts root X y, i_prunning cfg = false ->
  match id3_fit cfg cls fts new_itree X y with
  | Err e => id3_fit cfg cls fts root X y = Err e
  | Ok t0 => exists t, id3_fit cfg cls fts root X y = Ok t /\ answers_alike (i_features cfg) t t0 /\
      i_numleaf t = (if i_leaf t0 then 1 else i_numleaf root + i_numleaf t0)%nat
  end.
Proof.
  intros cfg cls fts root X y PR. destruct (fit_shape cfg cls fts X y) as [[e E]|[(c & cc & e0 & E)|(var & children & splits & c & cc & err & err0 & _ & _ & E)]].
  - rewrite !E. reflexivity.
  - rewrite !E. eexists. split; [reflexivity|]. split; [apply leaf_alike; reflexivity|reflexivity].
  - rewrite !E. unfold decide. rewrite PR. eexists. split; [reflexivity|]. split; [apply inner_alike|reflexivity].
Qed.
Print Assumptions C134_without_pruning.

(** With pruning and a positive threshold, whatever the estimator held before: if a new tree would be a single leaf, so is the refitted one, with the same class; if a new tree would split
    the root into [k] children, scoring [s] where the most frequent class has share [p], the refitted one answers the same as long as the gain s - p pays the threshold for the recorded
    leaves and the children but one, and otherwise predicts the most frequent class for every row. *)
Theorem C134_with_pruning : forall cfg cls fts root X y t0, id3_trained cfg cls fts new_itree X y t0 -> i_prunning cfg = true -> 0 < i_th cfg ->
  exists t s p, id3_fit cfg cls fts root X y = Ok t /\ id3_score t0 X y = Ok s /\ leading y (i_class t0) p /\
  (i_leaf t0 = true -> always t (i_class t0) /\ answers_alike (i_features cfg) t t0 /\ i_numleaf t = 1%nat) /\
  (i_leaf t0 = false -> let k := List.length (i_children t0) in (2 <= k)%nat /\
     (i_th cfg * qn (i_numleaf root + k - 1) <= s - p -> answers_alike (i_features cfg) t t0 /\ i_leaf t = false /\ i_numleaf t = (i_numleaf root + k)%nat) /\
     (s - p < i_th cfg * qn (i_numleaf root + k - 1) -> always t (i_class t0) /\ i_leaf t = true /\ i_numleaf t = 1%nat)).
Proof.
  intros cfg cls fts root X y t0 HT PR TH. assert (SC := score_error _ _ _ _ _ _ _ HT PR TH). assert (HT' := HT). destruct HT' as (TB & SO & F0). assert (TB' := TB). destruct TB' as (_ & _ & LE & XE & _).
  assert (RN : reaching X y [] <> []) by (rewrite reaching_all; destruct X; [congruence|]; destruct y; [discriminate|discriminate]).
  assert (RL : List.length (reaching X y []) = List.length y) by (rewrite reaching_all, combine_length; lia).
  destruct (C37_majority_class _ _ _ _ _ _ _ [] t0 HT (iat_self t0) RN) as (_ & MX & CC & LF). rewrite RL in CC, LF.
  assert (TC : forall c, times c (reaching X y []) = count_occ Z.eq_dec y c) by (intro c; rewrite reaching_all; apply times_all; exact LE). rewrite TC in CC, LF.
  assert (LD : leading y (i_class t0) (qn (count_occ Z.eq_dec y (i_class t0)) / qn (List.length y))) by (split; [intro c'; rewrite <- !TC; apply MX|reflexivity]).
  destruct (fit_shape cfg cls fts X y) as [[e E]|[(c & cc & e0 & E)|(var & children & splits & c & cc & err & err0 & E0 & (SP & best & ES & EB & EP) & E)]].
  - rewrite E in F0. discriminate.
  - rewrite E in F0. injection F0 as <-. exists (ileaf root c cc 0 e0). do 2 eexists. split; [apply E|]. split; [exact SC|]. split; [exact LD|]. split; [|discriminate]. intros _. split; [apply (leaf_always (ileaf root c cc 0 e0)); reflexivity|]. split; [apply leaf_alike; reflexivity|reflexivity].
  - assert (S1 := splits_ne cfg cls fts X y SP best TB SO ES EB). rewrite <- EP in S1. rewrite E in F0. change (i_numleaf new_itree) with 0%nat in F0.
    assert (S2 : (2 <= List.length splits)%nat). { destruct splits as [|a [|b l]]; [cbn in S1; lia| |cbn; lia]. unfold decide in F0. rewrite PR in F0. cbn in F0. discriminate. }
    destruct (decide_first cfg (i_numleaf root) var children splits c cc err err0 t0 PR TH S2 F0) as (t & ET & A & C0 & I0 & L0). exists t. do 2 eexists. split; [rewrite E; exact ET|]. split; [exact SC|]. split; [exact LD|]. split.
    + intro L. assert (Q : i_th cfg * qn (List.length splits - 1) <= i_th cfg * qn (i_numleaf root + List.length splits - 1)).
      { rewrite !(Qcmult_comm (i_th cfg)). apply Qcmult_le_compat_r; [apply qn_le; lia|apply Qclt_le_weak; exact TH]. }
      specialize (L0 L). destruct A as [[A _]|(A1 & A2 & A3 & A4)]; [exfalso; qlra|]. rewrite C0. split; [rewrite <- A3; apply leaf_always; exact A2|]. split; [apply leaf_alike; congruence|exact A4].
    + intros L k. specialize (I0 L). subst t0. cbn [i_class i_error i_children i_count] in *. injection CC as ->. cbn [fst snd] in E0.
      assert (LK : List.length children = List.length splits). { destruct (inner_trained HT (iat_self _) L) as (SP' & c' & k' & fuel & t' & best' & ch & C & _ & _ & _ & _ & _ & _ & _ & G & _ & S' & Ch & _). cbn in S', Ch. rewrite S', Ch, map_length. symmetry. eapply grown_length. exact G. }
      subst k. cbn [i_children]. rewrite LK. split; [exact S2|]. assert (EQ : 1 - err - qn (count_occ Z.eq_dec y c) / qn (List.length y) = err0 - err) by (rewrite E0; ring). rewrite EQ. split.
      * intro G. destruct A as [[_ ->]|(A1 & _)]; [|exfalso; qlra]. split; [apply inner_alike|]. split; reflexivity.
      * intro G. destruct A as [[A _]|(A1 & A2 & A3 & A4)]; [exfalso; qlra|]. split; [rewrite <- A3; apply leaf_always; exact A2|]. split; assumption.
Qed.
Print Assumptions C134_with_pruning.

(** ** fitting again and again on the same data *)
Lemma refits_plus cfg cls fts X y a b : forall t, id3_refits cfg cls fts X y (a + b) t = do t' <- id3_refits cfg cls fts X y a t; id3_refits cfg cls fts X y b t'.
Proof. induction a as [|a IH]; intro t; [reflexivity|]. cbn [Nat.add id3_refits]. destruct (id3_fit cfg cls fts t X y) as [t'|e]; [|reflexivity]. cbn [bind]. apply IH. Qed.
Lemma leading_unique y c p c' p' : leading y c p -> leading y c' p' -> p = p'.
Proof. intros [A ->] [B ->]. f_equal. f_equal. specialize (A c'). specialize (B c). lia. Qed.
Lemma archimedes (a b : Qc) : 0 < a -> exists n, b < a * qn n.
Proof.
  intro A. exists (S (Z.to_nat (Qnum (this b / this a) / Zpos (Qden (this b / this a))))). assert (N : a <> 0) by (intro Q; rewrite Q in A; discriminate A).
  assert (E : b = a * (b / a)) by (field; exact N). rewrite E at 1. rewrite !(Qcmult_comm a). apply Qcmult_lt_compat_r; [exact A|].
  assert (Q : (this (b / a) == this b / this a)%Q) by (unfold Qcdiv, Qcinv, Qcmult, Q2Qc; cbn [this]; rewrite !Qred_correct; reflexivity).
  unfold Qclt. assert (Z : (this (qn (S (Z.to_nat (Qnum (this b / this a) / Zpos (Qden (this b / this a)))))) == inject_Z (Z.of_nat (S (Z.to_nat (Qnum (this b / this a) / Zpos (Qden (this b / this a)))))))%Q) by (unfold qn, qz; cbn [this Q2Qc]; apply Qred_correct).
  rewrite Q, Z. clear. destruct (this b / this a)%Q as [n d]. cbn [Qnum Qden]. unfold Qlt. cbn [Qnum Qden inject_Z].
  assert (D := Z.div_mod n (Zpos d) ltac:(lia)). assert (M := Z.mod_pos_bound n (Zpos d) ltac:(lia)).
  destruct (Z.le_gt_cases 0 (n / Zpos d)) as [P|P].
  - rewrite Nat2Z.inj_succ, Z2Nat.id by exact P. nia.
  - assert ((0 < Z.of_nat (S (Z.to_nat (n / Zpos d))))%Z) by lia. nia.
Qed.
Section Again.
  Variables (cfg : id3_cfg) (cls : list Z -> list Z) (fts : list string -> list string) (X : list (list cell)) (y : list Z) (t0 : itree) (s p : Qc) (c : Z).
  Hypothesis (HT : id3_trained cfg cls fts new_itree X y t0) (PR : i_prunning cfg = true) (TH : 0 < i_th cfg) (IN : i_leaf t0 = false) (SC : id3_score t0 X y = Ok s) (LD : leading y c p).
  Let k := List.length (i_children t0).
  Lemma again_step root : exists t, id3_fit cfg cls fts root X y = Ok t /\ (2 <= k)%nat /\
    (i_th cfg * qn (i_numleaf root + k - 1) <= s - p -> answers_alike (i_features cfg) t t0 /\ i_leaf t = false /\ i_numleaf t = (i_numleaf root + k)%nat) /\
    (s - p < i_th cfg * qn (i_numleaf root + k - 1) -> always t (i_class t0) /\ i_leaf t = true /\ i_numleaf t = 1%nat).
  Proof.
    destruct (C134_with_pruning cfg cls fts root X y t0 HT PR TH) as (t & s' & p' & F & SC' & LD' & _ & B). rewrite SC in SC'. injection SC' as <-. rewrite (leading_unique _ _ _ _ _ LD LD') in *. clear p LD. rename p' into p.
    exists t. split; [exact F|]. exact (B IN).
  Qed.
  Lemma again_start : i_numleaf t0 = k /\ i_th cfg * qn (k - 1) <= s - p.
  Proof.
    destruct (again_step new_itree) as (t & F & _ & A & B). destruct HT as (_ & _ & F0). rewrite F0 in F. injection F as <-. change (i_numleaf new_itree) with 0%nat in A, B. cbn [Nat.add] in A, B.
    destruct (Qclt_le_dec (s - p) (i_th cfg * qn (k - 1))) as [L|L]; [destruct (B L) as (_ & Q & _); congruence|]. split; [apply (A L)|exact L].
  Qed.
  Lemma th_mono a b : (a <= b)%nat -> i_th cfg * qn a <= i_th cfg * qn b.
  Proof. intro L. rewrite !(Qcmult_comm (i_th cfg)). apply Qcmult_le_compat_r; [apply qn_le; exact L|apply Qclt_le_weak; exact TH]. Qed.
  Lemma again_kept m : i_th cfg * qn (S m * k - 1) <= s - p -> exists t, id3_refits cfg cls fts X y m t0 = Ok t /\ answers_alike (i_features cfg) t t0 /\ i_numleaf t = (S m * k)%nat.
  Proof.
    induction m as [|m IH]; intro G.
    - exists t0. split; [reflexivity|]. split; [split; reflexivity|]. destruct again_start as [E _]. rewrite E. lia.
    - destruct IH as (t & R & _ & N). { eapply Qcle_trans; [apply th_mono|exact G]. lia. }
      destruct (again_step t) as (t' & F & _ & A & _). exists t'. replace (S m) with (m + 1)%nat by lia. rewrite refits_plus, R. cbn [bind id3_refits]. rewrite F. split; [reflexivity|].
      destruct A as (A1 & _ & A2); [rewrite N; replace (S m * k + k - 1)%nat with (S (S m) * k - 1)%nat by lia; exact G|]. split; [exact A1|]. rewrite A2, N. lia.
  Qed.
  (** from any tree a leaf is reached *)
  Lemma again_leaf : forall g t, (exists N, s - p < i_th cfg * qn N /\ (N <= i_numleaf t + g)%nat) -> exists m t', (1 <= m)%nat /\ id3_refits cfg cls fts X y m t = Ok t' /\ always t' (i_class t0) /\ i_numleaf t' = 1%nat.
  Proof.
    induction g as [|g IH]; intros t (N & G & L); destruct (again_step t) as (t' & F & K2 & A & B).
    - exists 1%nat, t'. split; [lia|]. cbn [id3_refits]. rewrite F. split; [reflexivity|]. destruct B as (B1 & _ & B3); [eapply Qclt_le_trans; [exact G|apply th_mono; lia]|]. auto.
    - destruct (Qclt_le_dec (s - p) (i_th cfg * qn (i_numleaf t + k - 1))) as [Q|Q].
      + exists 1%nat, t'. split; [lia|]. cbn [id3_refits]. rewrite F. split; [reflexivity|]. destruct (B Q) as (B1 & _ & B3). auto.
      + destruct (A Q) as (_ & _ & NL). destruct (IH t') as (m & t'' & M1 & R & C1 & C2); [exists N; split; [exact G|lia]|]. exists (S m), t''. split; [lia|]. cbn [id3_refits]. rewrite F. cbn [bind]. auto.
  Qed.
  Lemma again_leaf_from t : exists m t', (1 <= m)%nat /\ id3_refits cfg cls fts X y m t = Ok t' /\ always t' (i_class t0) /\ i_numleaf t' = 1%nat.
  Proof. destruct (archimedes (i_th cfg) (s - p) TH) as [N G]. apply (again_leaf N). exists N. split; [exact G|lia]. Qed.
End Again.
(** The tree keeps its answers while the gain pays the threshold for (m+1)k - 1 leaves after m refits; the first refit that it does not pay for turns it into the most frequent class. *)
Theorem C134_repeated : forall cfg cls fts X y t0 s c p, id3_trained cfg cls fts new_itree X y t0 -> i_prunning cfg = true -> 0 < i_th cfg -> i_leaf t0 = false ->
  id3_score t0 X y = Ok s -> leading y c p -> let k := List.length (i_children t0) in
  (forall m, i_th cfg * qn ((m + 1) * k - 1) <= s - p -> exists t, id3_refits cfg cls fts X y m t0 = Ok t /\ answers_alike (i_features cfg) t t0) /\
  (forall m, (1 <= m)%nat -> i_th cfg * qn (m * k - 1) <= s - p -> s - p < i_th cfg * qn ((m + 1) * k - 1) ->
     exists t, id3_refits cfg cls fts X y m t0 = Ok t /\ always t (i_class t0) /\ id3_score t X y = Ok p /\ p < s).
Proof.
  intros cfg cls fts X y t0 s c p HT PR TH IN SC LD k. split.
  - intros m G. destruct (again_kept cfg cls fts X y t0 s p c HT PR TH IN SC LD m) as (t & R & A & _); [replace (S m) with (m + 1)%nat by lia; exact G|]. eauto.
  - intros [|m] M1 G1 G2; [lia|]. destruct (again_kept cfg cls fts X y t0 s p c HT PR TH IN SC LD m G1) as (t & R & _ & N).
    destruct (again_step cfg cls fts X y t0 s p c HT PR TH IN SC LD t) as (t' & F & K2 & _ & B). exists t'. replace (S m) with (m + 1)%nat by lia. rewrite refits_plus, R. cbn [bind id3_refits]. rewrite F. split; [reflexivity|].
    fold k in B, N, K2. rewrite N in B. destruct B as (B1 & B2 & B3); [replace (S m * k + k - 1)%nat with ((S m + 1) * k - 1)%nat by lia; exact G2|]. split; [exact B1|].
    assert (HT' := HT). destruct HT' as (TB & SO & F0). assert (HT2 : id3_trained cfg cls fts t X y t') by (split; [exact TB|split; [exact SO|exact F]]).
    assert (P : p < s). { assert (Q : i_th cfg * qn (k - 1) <= s - p) by exact (proj2 (again_start cfg cls fts X y t0 s p c HT PR TH IN SC LD)). assert (Z : 0 < i_th cfg * qn (k - 1)) by (apply Qcmult_pos; [exact TH|apply qn_pos; lia]). qlra. }
    split; [|exact P]. rewrite (score_error _ _ _ _ _ _ _ HT2 PR TH). f_equal. destruct TB as (_ & _ & LE & XE & _).
    assert (RN : reaching X y [] <> []) by (rewrite reaching_all; destruct X; [congruence|]; destruct y; [discriminate|discriminate]).
    assert (RL : List.length (reaching X y []) = List.length y) by (rewrite reaching_all, combine_length; lia).
    destruct (C37_majority_class _ _ _ _ _ _ _ [] t' HT2 (iat_self t') RN) as (_ & MX & _ & LF). rewrite (LF B2), RL. rewrite reaching_all in MX |- *. rewrite times_all by exact LE.
    assert (LD' : leading y (i_class t') (qn (count_occ Z.eq_dec y (i_class t')) / qn (List.length y))) by (split; [intro c'; rewrite <- !(times_all _ X y LE); apply MX|reflexivity]). rewrite (leading_unique _ _ _ _ _ LD LD'). ring.
Qed.
Print Assumptions C134_repeated.
(** However small the threshold, fitting often enough throws a split root away, and again and again; and if the gain pays for [k] leaves it comes back every time. *)
Theorem C134_alternates : forall cfg cls fts X y t0 s c p, id3_trained cfg cls fts new_itree X y t0 -> i_prunning cfg = true -> 0 < i_th cfg -> i_leaf t0 = false ->
  id3_score t0 X y = Ok s -> leading y c p ->
  (forall M, exists m t, (M <= m)%nat /\ id3_refits cfg cls fts X y m t0 = Ok t /\ always t (i_class t0)) /\
  (i_th cfg * qn (List.length (i_children t0)) <= s - p ->
     forall M, exists m t, (M <= m)%nat /\ id3_refits cfg cls fts X y m t0 = Ok t /\ answers_alike (i_features cfg) t t0).
Proof.
  intros cfg cls fts X y t0 s c p HT PR TH IN SC LD.
  assert (LV : forall M, exists m t, (M <= m)%nat /\ id3_refits cfg cls fts X y m t0 = Ok t /\ always t (i_class t0) /\ i_numleaf t = 1%nat).
  { induction M as [|M (m & t & L & R & _)].
    - destruct (again_leaf_from cfg cls fts X y t0 s p c HT PR TH IN SC LD t0) as (m & t & _ & R & A & N). exists m, t. auto with arith.
    - destruct (again_leaf_from cfg cls fts X y t0 s p c HT PR TH IN SC LD t) as (m' & t' & M1 & R' & A & N). exists (m + m')%nat, t'. split; [lia|]. rewrite refits_plus, R. cbn [bind]. auto. }
  split.
  - intro M. destruct (LV M) as (m & t & L & R & A & _). eauto.
  - intros G M. destruct (LV M) as (m & t & L & R & _ & N). destruct (again_step cfg cls fts X y t0 s p c HT PR TH IN SC LD t) as (t' & F & K2 & A & _).
    exists (m + 1)%nat, t'. split; [lia|]. rewrite refits_plus, R. cbn [bind id3_refits]. rewrite F. split; [reflexivity|]. apply A. rewrite N. replace (1 + List.length (i_children t0) - 1)%nat with (List.length (i_children t0)) by lia. exact G.
Qed.
Print Assumptions C134_alternates.

(** *** the table of Properties_ID3b: one column with values 0, 0, 1, 2 and classes 0, 0, 1, 1; the second refit collapses the tree, and it comes back for ever *)
Example C134_instance :
  let cfg := ex_id3 (1 / qz 10) 5 true in let X := xa [0; 0; 1; 2]%Z in let y := [0; 0; 1; 1]%Z in
  id3_trained cfg ex_cls ex_fts new_itree X y ex_tree /\ i_leaf ex_tree = false /\ id3_score ex_tree X y = Ok 1 /\ leading y 0 (1 / qz 2) /\
  i_th cfg * qn (List.length (i_children ex_tree)) <= 1 - 1 / qz 2 /\
  (exists t, id3_refits cfg ex_cls ex_fts X y 1 ex_tree = Ok t /\ answers_alike (i_features cfg) t ex_tree) /\
  (exists t, id3_refits cfg ex_cls ex_fts X y 2 ex_tree = Ok t /\ always t 0%Z /\ id3_score t X y = Ok (1 / qz 2)) /\
  (forall M, exists m t, (M <= m)%nat /\ id3_refits cfg ex_cls ex_fts X y m ex_tree = Ok t /\ answers_alike (i_features cfg) t ex_tree).
Proof.
  cbv zeta. assert (HT := ex_trained). assert (L : i_leaf ex_tree = false) by reflexivity. assert (SC : id3_score ex_tree (xa [0; 0; 1; 2]%Z) [0; 0; 1; 1]%Z = Ok 1) by qex.
  assert (LD : leading [0; 0; 1; 1]%Z 0%Z (1 / qz 2)). { split; [|qex]. intro c'. cbn [count_occ]. destruct (Z.eq_dec 0 c'), (Z.eq_dec 1 c'); subst; try discriminate; cbn; lia. }
  assert (G : i_th (ex_id3 (1 / qz 10) 5 true) * qn (List.length (i_children ex_tree)) <= 1 - 1 / qz 2) by discriminate.
  split; [exact HT|]. split; [exact L|]. split; [exact SC|]. split; [exact LD|]. split; [exact G|].
  assert (TH : 0 < i_th (ex_id3 (1 / qz 10) 5 true)) by reflexivity.
  destruct (C134_repeated _ _ _ _ _ _ _ _ _ HT eq_refl TH L SC LD) as [A B]. split; [apply A; discriminate|]. split.
  - destruct (B 2%nat) as (t & R & C1 & C2 & _); [lia|discriminate|reflexivity|]. exists t. auto.
  - exact (proj2 (C134_alternates _ _ _ _ _ _ _ _ _ HT eq_refl TH L SC LD) G).
Qed.
