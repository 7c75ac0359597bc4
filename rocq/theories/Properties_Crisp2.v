(** * Property C138: on rows without fuzziness the binary fuzzy tree is an ordinary decision tree *)
From Verif Require Import Prelude M_Fuzzy M_Discretize M_Rule M_FDT M_FBDT S_Rule S_FDT S_FBDT S_Crisp S_Crisp2 P_FuzzySet P_FDT P_FDT2 P_FDT3 P_FDT4 P_FBDT P_FBDT2 P_FBDT3 P_Crisp P_Crisp2 P_Crisp3 P_Crisp4 Properties_FDT Properties_FBDT Properties_Crisp.
From Coq Require Import Reals Lra.
Open Scope string_scope.
Open Scope list_scope.
Open Scope Qc_scope.

(** a crisp row activates one leaf fully and no other leaf at all *)
Theorem C138_one_leaf : forall cfg psort X y t row, btrained cfg psort X y t -> crisp_norm (f_tnorm cfg) -> crisp (f_vars cfg) row ->
  exists l1 p n l2, bleaves t = l1 ++ (p, n) :: l2 /\
    bactivation (f_tnorm cfg) (f_vars cfg) row p = 1 /\ binside (f_vars cfg) row p = true /\
    forall q m, In (q, m) (l1 ++ l2) -> bactivation (f_tnorm cfg) (f_vars cfg) row q = 0 /\ binside (f_vars cfg) row q = false.
Proof.
  intros cfg psort X y t row T N C. destruct (@bone_leaf cfg psort X y t row T C t [] (bat_self t) eq_refl) as (l1 & p & n & l2 & E & Ip & Iq).
  destruct (btrained_wf _ _ _ _ _ T) as [W _].
  assert (A : forall q m, In (q, m) (bleaves t) -> bactivation (f_tnorm cfg) (f_vars cfg) row q = if binside (f_vars cfg) row q then 1 else 0).
  { intros q m Hq. apply (@bact_inside (f_tnorm cfg) (f_vars cfg) row q N). apply (@path_01 cfg psort X y t q m row T); [|assumption].
    apply (@bleaves_node_at _ _ _ W). assumption. }
  exists l1, p, n, l2. split; [assumption|]. split; [|split; [assumption|]].
  - rewrite (A p n), Ip; [reflexivity|]. rewrite E. apply in_or_app. right. left. reflexivity.
  - intros q m H. rewrite (A q m), (Iq q m H); [split; reflexivity|]. rewrite E. apply in_app_or in H. apply in_or_app. destruct H; [left|right; right]; assumption.
Qed.
Print Assumptions C138_one_leaf.

(** at every node, the memberships of crisp training rows are 1 for the rows that satisfy all
    conditions on the way and 0 for the others (nothing is marked, see C34) *)
Theorem C138_memberships : forall cfg psort X y t p n, btrained cfg psort X y t -> (forall r, In r X -> crisp (f_vars cfg) r) -> bnode_at t p n ->
  b_mu n = map (fun row => if binside (f_vars cfg) row p then 1 else 0) X.
Proof. intros cfg psort X y t p n T C N. exact (@exact_nodes cfg psort X y t T C p n N). Qed.
Print Assumptions C138_memberships.

(** trained on such rows, it predicts the (least) most frequent class of the training rows of
    that leaf, or of its parent if the leaf has none *)
Theorem C138_majority : forall cfg psort X y t row, btrained cfg psort X y t -> crisp_norm (f_tnorm cfg) ->
  (forall r, In r X -> crisp (f_vars cfg) r) -> crisp (f_vars cfg) row -> readable (f_vars cfg) [row] ->
  exists p n q c, In (p, n) (bleaves t) /\ binside (f_vars cfg) row p = true /\
    bmembers (f_vars cfg) X y q <> [] /\
    (q = p \/ (bmembers (f_vars cfg) X y p = [] /\ exists l, p = q ++ [l])) /\
    bpredict cfg t [row] = Ok [c] /\ best_class (zunique y) (frequency (bmembers (f_vars cfg) X y q)) c.
Proof.
  intros cfg psort X y t row T N CX C R. destruct (@bpredict_only cfg psort X y t row T N C R) as (l1 & p & n & l2 & c & E & Ip & _ & Ep & B).
  assert (Hin : In (p, n) (bleaves t)) by (rewrite E; apply in_or_app; right; left; reflexivity).
  destruct (@bleaf_counts cfg psort X y t p n T CX Hin) as (q & Mq & Q & W). exists p, n, q, c.
  repeat (split; [assumption|]). exact (@best_frequency _ _ _ _ Mq W B).
Qed.
Print Assumptions C138_majority.

(** training reads neither the t-norm nor the voting method, and for crisp rows prediction does
    not depend on them either *)
Lemma bt_fit_ignores_tnorm vars th md me tn tn' vt vt' psort root X y :
  bt_fit (mkFDT vars th md me tn vt) psort root X y = bt_fit (mkFDT vars th md me tn' vt') psort root X y.
Proof.
  unfold bt_fit. cbn [f_vars]. destruct (categorical_features vars) as [cats|]; cbn [bind]; [|reflexivity]. destruct (_ || _); [reflexivity|].
  destruct (dataset_membership X vars) as [XM|]; cbn [bind]; [|reflexivity].
  generalize (fuel_for (initial_sets vars)) as fuel. generalize (initial_sets vars) as fd. generalize 0%Z as depth. generalize (@nil (list Qc)) as h.
  match goal with |- forall h depth fd fuel, bfit _ _ _ _ _ _ _ ?n _ _ = _ => generalize n end.
  intros node h depth fd fuel. revert node h depth fd. induction fuel as [|fuel IH]; intros node h depth fd; [reflexivity|].
  cbn [bfit]. destruct (max_split _ _ _ _ _ _ _ _) as [[h1 best]|]; cbn [bind]; [|reflexivity].
  unfold stop_met. cbn [f_min_examples f_max_depth f_threshold f_vars]. destruct (_ || _); [reflexivity|].
  destruct best as [s|]; [|reflexivity].
  destruct (ret_opt KeyError (dget (s_att s) (f_positions vars))) as [a|]; cbn [bind]; [|reflexivity].
  destruct (ret_opt IndexError (nth_error vars a)) as [v|]; cbn [bind]; [|reflexivity]. cbv zeta.
  assert (K : forall (A : Type) (r1 r2 : res A) B (f1 f2 : A -> res B), r1 = r2 -> (forall x, f1 x = f2 x) -> bind r1 f1 = bind r2 f2).
  { intros A r1 r2 B f1 f2 -> Hf. destruct r2; [apply Hf|reflexivity]. }
  repeat first [ reflexivity | apply IH | apply K; [|intro] | match goal with |- (if ?b then _ else _) = _ => destruct b end | match goal with |- (let '(_, _) := ?x in _) = _ => destruct x end ].
Qed.
Theorem C138_settings : forall vars th md me tn tn' vt vt' psort X y t X',
  btrained (mkFDT vars th md me tn vt) psort X y t -> crisp_norm tn -> crisp_norm tn' ->
  (forall r, In r X' -> crisp vars r) -> readable vars X' ->
  btrained (mkFDT vars th md me tn' vt') psort X y t /\
  bpredict (mkFDT vars th md me tn vt) t X' = bpredict (mkFDT vars th md me tn' vt') t X'.
Proof.
  intros vars th md me tn tn' vt vt' psort X y t X' T N N' C R.
  set (cfg := mkFDT vars th md me tn vt) in *. set (cfg' := mkFDT vars th md me tn' vt').
  assert (T' : btrained cfg' psort X y t).
  { destruct T as (A & B & h & E). split; [exact A|]. split; [exact B|]. exists h. unfold cfg'. rewrite <- E. apply bt_fit_ignores_tnorm. }
  split; [exact T'|].
  destruct (@C33_predict_maximal_vote cfg psort X y t X' T R) as [ps [E _]]. destruct (@C33_predict_maximal_vote cfg' psort X y t X' T' R) as [ps' [E' _]].
  rewrite E, E'. f_equal.
  assert (K : forall row, In row X' -> exists c, bpredict cfg t [row] = Ok [c] /\ bpredict cfg' t [row] = Ok [c]).
  { intros row H. assert (R1 : readable vars [row]) by (intros r [<-|[]]; apply R; assumption).
    destruct (@bpredict_only cfg psort X y t row T N (C row H) R1) as (l1 & p & n & l2 & c & A & B & D & F & G).
    destruct (@bpredict_only cfg' psort X y t row T' N' (C row H) R1) as (l1' & p' & n' & l2' & c' & A' & B' & D' & F' & G').
    exists c. split; [assumption|].
    assert (Hin : In (p, n) (bleaves t)) by (rewrite A; apply in_or_app; right; left; reflexivity).
    assert (Q : (p, n) = (p', n')).
    { rewrite A' in Hin. apply in_app_or in Hin. destruct Hin as [H1|[H1|H1]]; [|congruence|]; exfalso.
      - assert (B2 : binside (f_vars cfg') row p = false) by (apply (D' p n), in_or_app; auto). cbn [f_vars cfg cfg'] in B, B2. congruence.
      - assert (B2 : binside (f_vars cfg') row p = false) by (apply (D' p n), in_or_app; auto). cbn [f_vars cfg cfg'] in B, B2. congruence. }
    injection Q as -> ->. rewrite (best_class_fun G G'). assumption. }
  set (k := fun row => match bpredict cfg t [row] with Ok (c :: _) => c | _ => 0%Z end).
  rewrite (@brows_map cfg psort X y t X' ps k T R E), (@brows_map cfg' psort X y t X' ps' k T' R E'); [reflexivity| |].
  - intros row H. destruct (K row H) as (c & A & B). unfold k. rewrite A. exact B.
  - intros row H. destruct (K row H) as (c & A & B). unfold k. rewrite A. reflexivity.
Qed.
Print Assumptions C138_settings.

(** on its training data such a tree is at least as accurate as always answering one class *)
Theorem C138_training_score : forall cfg psort X y t c, btrained cfg psort X y t -> crisp_norm (f_tnorm cfg) ->
  (forall r, In r X -> crisp (f_vars cfg) r) ->
  exists s, bt_score cfg t X y = Ok s /\ frequency y c / qn (List.length y) <= s.
Proof.
  intros cfg psort X y t c T N C. destruct (btrained_fitted T) as (cats & (_ & _ & HL & Hy & _) & R & _).
  destruct (@C33_predict_maximal_vote cfg psort X y t X T R) as [ps [E _]].
  assert (S : exists s, bt_score cfg t X y = Ok s).
  { unfold bt_score. rewrite HL, Nat.eqb_refl. replace (Nat.eqb (List.length y) 0) with false by (destruct y; [congruence|reflexivity]).
    cbn [negb orb]. rewrite E. cbn [bind]. eauto. }
  destruct S as [s S]. exists s. split; [assumption|]. exact (@btraining_score cfg psort X y t c s T N C S).
Qed.
Print Assumptions C138_training_score.

(** hypotheses met by the rows 0 and 10 at the peaks of two triangles *)
Example C138_instance :
  btrained (ex_cfg AggVote) no_sort ex_X ex_y ex_btree /\ crisp_norm (f_tnorm (ex_cfg AggVote)) /\
  (forall r, In r ex_X -> crisp (f_vars (ex_cfg AggVote)) r) /\
  bmembers [ex_v "x"] ex_X ex_y [(0, [0])]%nat = [1%Z] /\ bmembers [ex_v "x"] ex_X ex_y [(0, [1])]%nat = [0%Z] /\
  bpredict (ex_cfg AggVote) ex_btree ex_X = Ok [1; 0]%Z.
Proof.
  split; [apply ex_btrained|]. split; [exact qmin_crisp|]. split; [|split; [|split]].
  - intros r [<-|[<-|[]]]; apply ex_crisp; auto.
  - qex.
  - qex.
  - qex.
Qed.
