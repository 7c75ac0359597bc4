(** * Fitting an ID3 estimator again: what depends on the previous tree (C134) *)
From Verif Require Import Prelude M_Fuzzy M_Discretize M_Rule M_ID3 S_ID3 P_Entropy P_FuzzySet P_FuzzyVar P_Rule P_FDT P_ID3 P_ID3b P_ID3c Properties_ID3 Properties_ID3b S_Refit.
From Coq Require Import Reals Lra.
Open Scope string_scope.
Open Scope list_scope.
Open Scope Qc_scope.

(** the decision at the root, for a previous tree with [n] leaves recorded *)
Definition decide (cfg : id3_cfg) (n : nat) (var : option nat) (children : list itree) (splits : list cell) (c : Z) (cc : nat * nat) (err err0 : Qc) : res itree :=
  let num_leaf := (n + List.length splits)%nat in
  let inner := ITree var false children splits c (Some cc) 0 err num_leaf in
  if i_prunning cfg then
    let d := qz (Z.of_nat num_leaf - 1) in
    if qeqb d 0 then Err ZeroDivisionError else if qltb ((err0 - err) / d) (i_th cfg) then Ok (ileaf inner c cc 0 err0) else Ok inner
  else Ok inner.
Lemma fit_shape cfg cls fts X y :
  (exists e, forall root, id3_fit cfg cls fts root X y = Err e) \/
  (exists c cc e0, forall root, id3_fit cfg cls fts root X y = Ok (ileaf root c cc 0 e0)) \/
  (exists var children splits c cc err err0, err0 = 1 - qn (snd cc) / qn (fst cc) /\
    (exists SP best, mapM (fun i => do col <- column X i; np_unique col) (seq 0 (List.length (i_features cfg))) = Ok SP /\
       best_feature (i_positions (i_features cfg)) SP X y (cls y) (fts []) = Ok best /\ splits = match fst best with Some (_, s) => s | None => [] end) /\
    forall root, id3_fit cfg cls fts root X y = decide cfg (i_numleaf root) var children splits c cc err err0).
Proof.
  unfold id3_fit. destruct (mapM _ (seq 0 (List.length (i_features cfg)))) as [SP|e] eqn:ESP; [|left; exists e; reflexivity]. cbn [bind]. cbn [id3_partial_fit].
  destruct (max_by _ _) as [[c k]|]; [|destruct (nth_error (zunique y) 0) as [c|]; [right; left; exists c, (0, 0)%nat, 0; reflexivity|left; exists IndexError; reflexivity]].
  destruct (Nat.eqb (List.length X) 0); [left; exists ZeroDivisionError; reflexivity|].
  destruct (Z.leb (i_max_depth cfg) 0); [right; left; do 3 eexists; reflexivity|].
  destruct (Z.ltb (Z.of_nat (List.length X)) (i_min_examples cfg)); [right; left; do 3 eexists; reflexivity|].
  destruct (best_feature _ _ _ _ _ _) as [best|e] eqn:EB; [|left; exists e; reflexivity]. cbn [bind].
  match goal with |- context [ret_opt IndexError ?o] => destruct (ret_opt IndexError o) as [name|e]; [|left; exists e; reflexivity] end. cbn [bind].
  match goal with |- context [mapM ?f ?l] => destruct (mapM f l) as [children|e]; [|left; exists e; reflexivity] end. cbn [bind].
  right. right. do 7 eexists. split; [|split; [|intro root; reflexivity]]; [reflexivity|]. exists SP, best. auto.
Qed.

(** ** what a tree answers does not depend on the recorded number of leaves *)
Lemma inner_alike fs var children splits c cc d err n c' cc' d' err' n' :
  answers_alike fs (ITree var false children splits c cc d err n) (ITree var false children splits c' cc' d' err' n').
Proof.
  assert (P : forall x, id3_tree_predict (ITree var false children splits c cc d err n) x = id3_tree_predict (ITree var false children splits c' cc' d' err' n') x) by reflexivity. split.
  - intro X. unfold id3_predict. destruct X as [|x X]; [reflexivity|]. apply mapM_ext. intros z _. apply P.
  - intros [|a [|b l]]; reflexivity.
Qed.
Lemma leaf_alike fs t t' : i_leaf t = true -> i_leaf t' = true -> i_class t = i_class t' -> answers_alike fs t t'.
Proof.
  intros L L' E. split.
  - intro X. unfold id3_predict. destruct X as [|x X]; [reflexivity|]. apply mapM_ext. intros z _. rewrite !predict_leaf by assumption. congruence.
  - intros [|a [|b l]]; unfold id3_tree_rules; rewrite ?rules_leaf by assumption; congruence.
Qed.
Lemma leaf_always t : i_leaf t = true -> always t (i_class t).
Proof.
  intros L X N. unfold id3_predict. destruct X as [|x X]; [congruence|]. clear N. generalize (x :: X). intro l. induction l as [|z l IH]; [reflexivity|]. cbn [mapM map]. rewrite predict_leaf by assumption. cbn [bind]. rewrite IH. reflexivity.
Qed.
Lemma alike_trans fs a b c : answers_alike fs a b -> answers_alike fs b c -> answers_alike fs a c.
Proof. intros [A1 A2] [B1 B2]. split; intros; [rewrite A1|rewrite A2]; auto. Qed.

(** ** the score of a pruned tree is one minus its recorded error *)
Lemma reaching_all X y : reaching X y [] = combine X y.
Proof. unfold reaching. generalize (combine X y). intro D. induction D as [|d D IH]; [reflexivity|]. cbn. f_equal. exact IH. Qed.
Lemma times_all c X y : List.length X = List.length y -> times c (combine X y) = count_occ Z.eq_dec y c.
Proof.
  intro LE. unfold times. revert y LE. induction X as [|x X IH]; intros [|z y] LE; try discriminate; [reflexivity|]. injection LE as LE.
  cbn [combine filter snd count_occ]. destruct (Z.eqb_spec z c) as [E|E]; destruct (Z.eq_dec z c); try contradiction; cbn [List.length]; rewrite IH by assumption; reflexivity.
Qed.
Lemma score_error cfg cls fts root X y t : id3_trained cfg cls fts root X y t -> i_prunning cfg = true -> 0 < i_th cfg -> id3_score t X y = Ok (1 - i_error t).
Proof.
  intros HT PR TH. assert (HT' := HT). destruct HT' as (TB & SO & _). assert (TB' := TB). destruct TB' as (ND & NE & LE & XE & W & HC).
  destruct (C36_predict_known _ _ _ _ _ _ _ X HT PR TH XE) as (ps & PE & PL & PI).
  { intros x Hx i Li. destruct (nth_error x i) as [v|] eqn:Xi; [|apply nth_error_None in Xi; assert (Wx := W x Hx); lia]. exists v. split; [reflexivity|]. exists x. auto. }
  assert (L0 : List.length y <> 0%nat) by (rewrite <- LE; destruct X; [congruence|discriminate]).
  assert (RN : reaching X y [] <> []) by (rewrite reaching_all; destruct X; [congruence|]; destruct y; [discriminate|discriminate]).
  assert (ER := C37_error_is_training_error _ _ _ _ _ _ _ [] t HT (iat_self t) RN).
  assert (RL : List.length (reaching X y []) = List.length y) by (rewrite reaching_all, combine_length; lia).
  assert (CW : (countb (fun q : option Z * Z => eqb (fst q) (Some (snd q))) (zip (map Some ps) y) +
    List.length (filter (fun xy => match id3_tree_predict t (fst xy) with Ok (Some c) => negb (Z.eqb c (snd xy)) | _ => false end) (reaching X y [])) = List.length y)%nat).
  { rewrite reaching_all. assert (PM : mapM (id3_tree_predict t) X = Ok (map Some ps)) by (unfold id3_predict in PE; destruct X; [congruence|exact PE]).
    clear - PM LE. unfold countb, zip. revert y ps LE PM. induction X as [|x X IH]; intros [|c y] ps LE PM; try discriminate LE.
    - injection PM as PM. destruct ps; [reflexivity|discriminate].
    - cbn [mapM] in PM. destruct (id3_tree_predict t x) as [o|] eqn:P0; cbn [bind] in PM; [|discriminate].
      destruct (mapM (id3_tree_predict t) X) as [os|] eqn:P1; cbn [bind] in PM; [|discriminate]. injection PM as PM. destruct ps as [|a ps]; [discriminate|]. cbn [map] in PM. injection PM as -> ->.
      assert (A := IH y ps ltac:(injection LE; auto) eq_refl). cbn [map combine filter fst snd]. rewrite P0.
      destruct (Z.eqb_spec a c) as [->|N].
      + rewrite eqb_refl. cbn [negb List.length]. lia.
      + replace (eqb (Some a) (Some c)) with false by (symmetry; apply eqb_neq; congruence). cbn [negb List.length]. lia. }
  unfold id3_score. rewrite LE, Nat.eqb_refl. cbn [negb orb]. destruct (Nat.eqb_spec (List.length y) 0) as [Z0|_]; [contradiction|]. rewrite PE. cbn [bind]. f_equal.
  rewrite ER, RL. assert (P : 0 < qn (List.length y)) by (apply qn_pos; lia). apply (f_equal qn) in CW. rewrite qn_plus in CW.
  match type of CW with ?a + ?b = _ => remember a as good eqn:E1; remember b as bad eqn:E2 end. clear E1 E2. remember (qn (List.length y)) as N eqn:E3.
  assert (PN : N <> 0) by (intro Q; rewrite Q in P; discriminate P). rewrite <- CW. field. intro Q. apply PN. rewrite <- CW. assumption.
Qed.
(** ** the decision, when the first fit succeeded *)
Lemma decide_first cfg root var children splits c cc err err0 t0 : i_prunning cfg = true -> 0 < i_th cfg -> (2 <= List.length splits)%nat ->
  decide cfg 0 var children splits c cc err err0 = Ok t0 ->
  exists t, decide cfg root var children splits c cc err err0 = Ok t /\
    ((i_th cfg * qn (root + List.length splits - 1) <= err0 - err /\ t = ITree var false children splits c (Some cc) 0 err (root + List.length splits)) \/
     (err0 - err < i_th cfg * qn (root + List.length splits - 1) /\ i_leaf t = true /\ i_class t = c /\ i_numleaf t = 1%nat)) /\
    i_class t0 = c /\ (i_leaf t0 = false -> t0 = ITree var false children splits c (Some cc) 0 err (List.length splits)) /\ (i_leaf t0 = true -> err0 - err < i_th cfg * qn (List.length splits - 1)).
Proof.
  intros PR TH L2 F. set (k := List.length splits) in *.
  assert (G : forall n, exists t, decide cfg n var children splits c cc err err0 = Ok t /\
    ((i_th cfg * qn (n + k - 1) <= err0 - err /\ t = ITree var false children splits c (Some cc) 0 err (n + k)) \/
     (err0 - err < i_th cfg * qn (n + k - 1) /\ i_leaf t = true /\ i_class t = c /\ i_numleaf t = 1%nat))).
  { intro n. unfold decide. rewrite PR. fold k. cbv zeta. assert (E : qz (Z.of_nat (n + k) - 1) = qn (n + k - 1)) by (unfold qn; f_equal; lia). rewrite E. assert (P : 0 < qn (n + k - 1)) by (apply qn_pos; lia).
    destruct (qeqb (qn (n + k - 1)) 0) eqn:Q; [apply qeqb_eq in Q; rewrite Q in P; discriminate P|]. assert (N : qn (n + k - 1) <> 0) by (intro Z; rewrite Z in P; discriminate P). remember (qn (n + k - 1)) as d eqn:Ed. clear Ed E Q.
    destruct (qltb ((err0 - err) / d) (i_th cfg)) eqn:Q.
    - eexists. split; [reflexivity|]. right. split; [|auto]. apply qltb_lt in Q. replace (err0 - err) with ((err0 - err) / d * d) by (field; exact N). apply Qcmult_lt_compat_r; assumption.
    - eexists. split; [reflexivity|]. left. split; [|reflexivity]. apply qltb_ge in Q. replace (err0 - err) with ((err0 - err) / d * d) by (field; exact N). apply Qcmult_le_compat_r; [assumption|apply Qclt_le_weak; assumption]. }
  destruct (G root) as (t & E & A). exists t. split; [exact E|]. split; [exact A|]. destruct (G 0%nat) as (t' & E' & A'). rewrite F in E'. injection E' as <-. destruct A' as [[_ ->]|(B & C1 & C2 & C3)].
  - split; [reflexivity|]. split; [reflexivity|discriminate].
  - split; [assumption|]. split; [congruence|]. intros _. exact B.
Qed.

Lemma splits_ne cfg cls fts X y SP best : table (i_features cfg) X y -> set_orders cfg cls fts ->
  mapM (fun i => do col <- column X i; np_unique col) (seq 0 (List.length (i_features cfg))) = Ok SP ->
  best_feature (i_positions (i_features cfg)) SP X y (cls y) (fts []) = Ok best -> (1 <= List.length (match fst best with Some (_, s) => s | None => [] end))%nat.
Proof.
  intros TB SO ES EB. destruct (table_context cfg TB) as [SP' C]. assert (SP' = SP) by (assert (Q := cx_fit C); congruence). subst SP'.
  destruct (fts_props SO []) as [FN FI]. destruct (fts_root SO (cx_some C)) as [FR _].
  destruct (@best_feature_ok cfg cls fts SP SO (cx_nodup C) (cx_sp C) (combine X y) (fts []) (cx_fine C) (cx_rows C)) as (best' & EB' & P).
  { intros f I. apply FI in I. apply I. }
  rewrite (cx_fst C), (cx_snd C), EB in EB'. injection EB' as <-. destruct (fts []) as [|f l]; [congruence|]. destruct (@picked_some cfg SP (combine X y) f l best P) as (i & spl & g & E & _ & Hf & HS). rewrite E.
  destruct X as [|x X]; [destruct TB as (_ & _ & _ & N & _); congruence|]. destruct TB as (_ & _ & _ & _ & W & _). assert (Wx := W x (or_introl eq_refl)). assert (Li : (i < List.length (i_features cfg))%nat) by (apply nth_error_Some; congruence).
  destruct (nth_error x i) as [v|] eqn:Xi; [|apply nth_error_None in Xi; lia]. assert (IS : In v spl) by (apply (cx_occurs C i v HS); exists x; split; [left; reflexivity|assumption]). destruct spl; [destruct IS|cbn; lia].
Qed.
