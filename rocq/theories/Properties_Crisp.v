(** * Property C137: on rows without fuzziness the fuzzy tree is an ordinary decision tree *)
From Verif Require Import Prelude M_Fuzzy M_Discretize M_Rule M_FDT S_Rule S_FDT S_Crisp P_FuzzySet P_FDT P_FDT2 P_FDT3 P_FDT4 P_Crisp P_Crisp2 Properties_FDT.
From Coq Require Import Reals Lra.
Open Scope string_scope.
Open Scope list_scope.
Open Scope Qc_scope.

(** a row with known values of categorical variables has no fuzziness *)
Theorem C137_categories : forall vars row,
  (forall a v, nth_error vars a = Some v -> categorical v /\ exists x, nth_error row a = Some x /\ known v x) ->
  crisp vars row /\ readable vars [row].
Proof. exact categorical_crisp. Qed.
Print Assumptions C137_categories.

(** it activates one leaf fully and no other leaf at all *)
Theorem C137_one_leaf : forall cfg ord X y t row, trained cfg ord X y t -> crisp_norm (f_tnorm cfg) -> crisp (f_vars cfg) row ->
  exists l1 p n l2, leaves t = l1 ++ (p, n) :: l2 /\
    activation (f_tnorm cfg) (f_vars cfg) row p = 1 /\ inside (f_vars cfg) row p = true /\
    forall q m, In (q, m) (l1 ++ l2) -> activation (f_tnorm cfg) (f_vars cfg) row q = 0 /\ inside (f_vars cfg) row q = false.
Proof.
  intros cfg ord X y t row T N C. destruct (one_leaf C (trained_complete T)) as (l1 & p & n & l2 & E & Ip & Iq).
  exists l1, p, n, l2. split; [assumption|]. split; [rewrite (activation_inside p N C), Ip; reflexivity|]. split; [assumption|].
  intros q m H. rewrite (activation_inside q N C), (Iq q m H). split; reflexivity.
Qed.
Print Assumptions C137_one_leaf.

(** trained on such rows, it predicts the (least) most frequent class of the training rows of
    that leaf, or of its parent if the leaf has none *)
Theorem C137_majority : forall cfg ord X y t row, trained cfg ord X y t -> crisp_norm (f_tnorm cfg) ->
  (forall r, In r X -> crisp (f_vars cfg) r) -> crisp (f_vars cfg) row -> readable (f_vars cfg) [row] ->
  exists p n q c, In (p, n) (leaves t) /\ inside (f_vars cfg) row p = true /\
    members (f_vars cfg) X y q <> [] /\
    (q = p \/ (members (f_vars cfg) X y p = [] /\ exists l, p = q ++ [l])) /\
    predict cfg t [row] = Ok [c] /\ best_class (zunique y) (frequency (members (f_vars cfg) X y q)) c.
Proof.
  intros cfg ord X y t row T N CX C R. destruct (predict_only T N C R) as (l1 & p & n & l2 & c & E & Ip & _ & Ep & B).
  assert (Hin : In (p, n) (leaves t)) by (rewrite E; apply in_or_app; right; left; reflexivity).
  destruct (@leaf_counts cfg ord X y t p n T (crisp_sets C) CX Hin) as (q & Mq & Q & W). exists p, n, q, c.
  repeat (split; [assumption|]). exact (best_frequency Mq W B).
Qed.
Print Assumptions C137_majority.

(** neither the t-norm nor the voting method matters for such rows *)
Theorem C137_settings : forall vars th md me tn tn' vt vt' ord X y t X',
  trained (mkFDT vars th md me tn vt) ord X y t -> crisp_norm tn -> crisp_norm tn' ->
  (forall r, In r X' -> crisp vars r) -> readable vars X' -> X' <> [] ->
  trained (mkFDT vars th md me tn' vt') ord X y t /\
  predict (mkFDT vars th md me tn vt) t X' = predict (mkFDT vars th md me tn' vt') t X'.
Proof.
  intros vars th md me tn tn' vt vt' ord X y t X' T N N' C R Ne.
  set (cfg := mkFDT vars th md me tn vt) in *. set (cfg' := mkFDT vars th md me tn' vt').
  assert (T' : trained cfg' ord X y t).
  { destruct T as (A & B & D & E). split; [exact A|]. split; [exact B|]. split; [exact D|]. unfold cfg'. rewrite <- E. apply fit_ignores_tnorm. }
  split; [exact T'|].
  assert (Hs : forall v, In v vars -> fv_sets v <> []).
  { destruct X' as [|r X']; [congruence|]. apply (@crisp_sets vars r). apply C. left. reflexivity. }
  destruct (@C27_predict_maximal_vote cfg ord X y t X' T Hs R) as [ps [E _]]. destruct (@C27_predict_maximal_vote cfg' ord X y t X' T' Hs R) as [ps' [E' _]].
  rewrite E, E'. f_equal.
  assert (K : forall row, In row X' -> exists c, predict cfg t [row] = Ok [c] /\ predict cfg' t [row] = Ok [c]).
  { intros row H. assert (R1 : readable vars [row]) by (intros r [<-|[]]; apply R; assumption).
    destruct (@predict_only cfg ord X y t row T N (C row H) R1) as (l1 & p & n & l2 & c & A & B & D & F & G).
    destruct (@predict_only cfg' ord X y t row T' N' (C row H) R1) as (l1' & p' & n' & l2' & c' & A' & B' & D' & F' & G').
    exists c. split; [assumption|].
    assert (Hin : In (p, n) (leaves t)) by (rewrite A; apply in_or_app; right; left; reflexivity).
    assert (Q : (p, n) = (p', n')).
    { rewrite A' in Hin. apply in_app_or in Hin. destruct Hin as [H1|[H1|H1]]; [|congruence|]; exfalso.
      - assert (B2 : inside (f_vars cfg') row p = false) by (apply (D' p n), in_or_app; auto). cbn [f_vars cfg cfg'] in B, B2. congruence.
      - assert (B2 : inside (f_vars cfg') row p = false) by (apply (D' p n), in_or_app; auto). cbn [f_vars cfg cfg'] in B, B2. congruence. }
    injection Q as -> ->. rewrite (best_class_fun G G'). assumption. }
  set (k := fun row => match predict cfg t [row] with Ok (c :: _) => c | _ => 0%Z end).
  rewrite (@rows_map cfg ord X y t X' ps k T Hs R E), (@rows_map cfg' ord X y t X' ps' k T' Hs R E'); [reflexivity| |].
  - intros row H. destruct (K row H) as (c & A & B). unfold k. rewrite A. exact B.
  - intros row H. destruct (K row H) as (c & A & B). unfold k. rewrite A. reflexivity.
Qed.
Print Assumptions C137_settings.

(** on its training data such a tree is at least as accurate as always answering one class *)
Theorem C137_training_score : forall cfg ord X y t c, trained cfg ord X y t -> crisp_norm (f_tnorm cfg) ->
  (forall r, In r X -> crisp (f_vars cfg) r) -> readable (f_vars cfg) X ->
  exists s, fdt_score cfg t X y = Ok s /\ frequency y c / qn (List.length y) <= s.
Proof.
  intros cfg ord X y t c T N C R. destruct (trained_fitted T) as (HL & Hy & _).
  assert (Hs : forall v, In v (f_vars cfg) -> fv_sets v <> []).
  { destruct X as [|r X]; [destruct y; [congruence|discriminate]|]. apply (@crisp_sets (f_vars cfg) r). apply C. left. reflexivity. }
  destruct (@C27_predict_maximal_vote cfg ord X y t X T Hs R) as [ps [E _]].
  assert (S : exists s, fdt_score cfg t X y = Ok s).
  { unfold fdt_score. rewrite HL, Nat.eqb_refl. replace (Nat.eqb (List.length y) 0) with false by (destruct y; [congruence|reflexivity]).
    cbn [negb orb]. rewrite E. cbn [bind]. eauto. }
  destruct S as [s S]. exists s. split; [assumption|]. exact (training_score c T N C R S).
Qed.
Print Assumptions C137_training_score.

(** fuzzy rows give no such guarantee: a row half in each of two sets activates two leaves *)
Example C137_fuzzy_row :
  map (fun pl => activation qmin [ex_v "x"] [CNum (qz 5)] (fst pl)) (leaves (one_tree (ex_cfg AggVote) ex_X ex_y (ex_v "x"))) = [qc 1 2; qc 1 2].
Proof. qex. Qed.
(** hypotheses met: the rows 0 and 10 at the peaks of the two triangles ... *)
Lemma ex_crisp x : x = 0 \/ x = qz 10 -> crisp [ex_v "x"] [CNum x].
Proof.
  intros Hx a v Hv. destruct a as [|a]; [|destruct a; discriminate]. injection Hv as <-.
  destruct Hx as [-> | ->]; [exists 0%nat|exists 1%nat]; (split; [cbn; lia|]); (split; [qex|]); intros j Dj; destruct j as [|[|j]]; try congruence; try qex.
  - unfold lit_degree. cbn [fst snd nth_error ex_v fv_sets]. destruct j; reflexivity.
  - unfold lit_degree. cbn [fst snd nth_error ex_v fv_sets]. destruct j; reflexivity.
Qed.
Example C137_instance :
  trained (ex_cfg AggVote) same_order ex_X ex_y (one_tree (ex_cfg AggVote) ex_X ex_y (ex_v "x")) /\ crisp_norm (f_tnorm (ex_cfg AggVote)) /\ crisp_norm Qcmult /\
  (forall r, In r ex_X -> crisp (f_vars (ex_cfg AggVote)) r) /\ readable (f_vars (ex_cfg AggVote)) ex_X /\
  members [ex_v "x"] ex_X ex_y [(0, 0)%nat] = [1%Z] /\ members [ex_v "x"] ex_X ex_y [(0, 1)%nat] = [0%Z] /\
  predict (ex_cfg AggVote) (one_tree (ex_cfg AggVote) ex_X ex_y (ex_v "x")) ex_X = Ok [1; 0]%Z.
Proof.
  split; [apply ex_fit; auto|]. split; [exact qmin_crisp|]. split; [repeat split; reflexivity|]. split; [|split; [|split; [|split]]].
  - intros r [<-|[<-|[]]]; apply ex_crisp; auto.
  - apply (ex_readable "x"). intros r [<-|[<-|[]]]; eauto.
  - qex.
  - qex.
  - qex.
Qed.
(** ... and a categorical variable with three colours *)
Example C137_categories_instance : crisp [mkV "colour" [FD "red" (CStr "r"); FD "green" (CStr "g"); FD "one" (CNum 1)]] [CStr "g"] /\
  lit_degree [mkV "colour" [FD "red" (CStr "r"); FD "green" (CStr "g"); FD "one" (CNum 1)]] [CStr "g"] (0, 1)%nat = 1.
Proof.
  split; [|reflexivity]. apply C137_categories. intros a v Hv. destruct a as [|a]; [|destruct a; discriminate]. injection Hv as <-. split.
  - exists [("red", CStr "r"); ("green", CStr "g"); ("one", CNum 1)]. split; [reflexivity|]. repeat constructor; cbn; intuition congruence.
  - exists (CStr "g"). split; [reflexivity|]. exists "green". right. left. reflexivity.
Qed.
