(** * Property C131: a fuzzified neighbourhood serves the explainers *)
From Verif Require Import Prelude M_Fuzzy P_FuzzySet P_FuzzyVar M_Discretize S_Discretize M_Rule S_Rule P_Rule M_FDT S_FDT P_FDT P_FDT2 P_FDT3 P_FDT4 M_FBDT M_ID3 M_Metrics M_Factual S_Factual M_Counterfactual S_Counterfactual P_Counterfactual
  M_Explainer S_Explainer P_Explainer S_FBDT S_FBDT2 P_Entropy Properties_Discretize Properties_FDT Properties_FBDT Properties_FBDT2 Properties_FBDT3 Properties_Explainer M_Neighborhood S_Neighborhood P_Neighborhood P_Neighborhood2 P_Neighborhood3 Properties_Neighborhood
  S_Success P_Success Properties_Success Properties_Success2 S_Pipeline P_Pipeline.
From Coq Require Import Reals Lra Ascii.
Local Notation eqb := Prelude.eqb.
Open Scope string_scope.
Open Scope list_scope.
Open Scope Qc_scope.

(** ** the sets of a column *)
(** the entropy method never leaves a column of two different values with fewer than two points *)
Theorem C131_two_points : forall max_depth th data pts, (exists x y, In x (map fst data) /\ In y (map fst data) /\ x <> y) ->
  entropy_points max_depth th data = Ok pts -> (2 <= List.length pts)%nat.
Proof. exact two_points_len. Qed.
Print Assumptions C131_two_points.

(** but it may leave most of the values above all of its points: of the values 1, ..., n of one class with threshold 0 it keeps 1 and 2 *)
Definition up_to (k n : nat) : list (Qc * Z) := map (fun i => (qn i, 0%Z)) (seq (S k) (n - k)).
Lemma one_class_entropy rows : (forall r, In r rows -> snd r = 0%Z) -> entropy_of rows = 0%R.
Proof.
  intro A. unfold entropy_of. assert (L : forall c, In c (labels rows) -> c = 0%Z). { intros c I. unfold labels in I. apply nodup_In, in_map_iff in I. destruct I as (r & <- & I). auto. }
  assert (F : of_label 0 rows = rows). { unfold of_label. clear L. induction rows as [|r rows IH]; [reflexivity|]. cbn [filter]. rewrite (A r (or_introl eq_refl)). cbn. f_equal. apply IH. intros; apply A; right; assumption. }
  induction (labels rows) as [|c l IH]; [reflexivity|]. cbn [map S_Discretize.total fold_right]. rewrite (L c (or_introl eq_refl)), F. change (fold_right Rplus 0%R) with S_Discretize.total. rewrite IH by (intros; apply L; right; assumption).
  unfold plog. destruct (Req_dec (weight rows) 0) as [Z|Z].
  - unfold Rdiv. rewrite Z, Rmult_0_l. destruct (Rle_dec 0 0); lra.
  - unfold Rdiv. rewrite Rinv_r by assumption. destruct (Rle_dec 1 0); [lra|]. unfold bits. rewrite ln_1. unfold Rdiv. ring.
Qed.
Lemma one_class_gain data mn p mx : (forall r, In r data -> snd r = 0%Z) -> gain_at data mn p mx = 0%R.
Proof.
  intro A. assert (L : forall ts, left_over ts data = 0%R).
  { intro ts. unfold left_over. assert (T : S_Discretize.total (map (fun t => weight (under t data) * entropy_of (under t data))%R ts) = 0%R).
    { induction ts as [|t ts IH]; [reflexivity|]. cbn [map S_Discretize.total fold_right]. change (fold_right Rplus 0%R) with S_Discretize.total. rewrite IH, one_class_entropy; [ring|]. intros r I. unfold under in I. apply in_map_iff in I. destruct I as (r' & <- & I). exact (A r' I). }
    rewrite T. unfold Rdiv. ring. }
  unfold gain_at. rewrite !L. ring.
Qed.
Lemma up_to_In k n x : In x (map fst (up_to k n)) <-> exists i, x = qn i /\ (k < i)%nat /\ (i <= n)%nat.
Proof.
  unfold up_to. rewrite map_map. cbn [fst]. rewrite in_map_iff. split.
  - intros (i & <- & I). apply in_seq in I. exists i. split; [reflexivity|]. lia.
  - intros (i & -> & A & B). exists i. split; [reflexivity|]. apply in_seq. lia.
Qed.
Lemma up_to_class k n : forall r, In r (up_to k n) -> snd r = 0%Z.
Proof. intros r I. unfold up_to in I. apply in_map_iff in I. destruct I as (i & <- & _). reflexivity. Qed.
Lemma qn_lt_iff a b : qn a < qn b <-> (a < b)%nat.
Proof. unfold qn. rewrite qz_lt. lia. Qed.
Lemma qn_le_iff a b : qn a <= qn b <-> (a <= b)%nat.
Proof. unfold qn. rewrite qz_le. lia. Qed.
Lemma qn_mult a b : qn (a * b) = qn a * qn b.
Proof. induction a as [|a IH]; [cbn [Nat.mul]; rewrite qn_0; ring|]. cbn [Nat.mul]. rewrite qn_plus, IH, qn_S. ring. Qed.
Lemma up_to_step k n : (k < n)%nat -> up_to k n = (qn (S k), 0%Z) :: up_to (S k) n.
Proof. intro L. unfold up_to. replace (n - k)%nat with (S (n - S k)) by lia. reflexivity. Qed.
Lemma filter_none A (f : A -> bool) l : (forall x, In x l -> f x = false) -> filter f l = [].
Proof. induction l as [|x l IH]; intro H; [reflexivity|]. cbn. rewrite (H x (or_introl eq_refl)). apply IH. intros; apply H; right; assumption. Qed.
Lemma filter_all A (f : A -> bool) l : (forall x, In x l -> f x = true) -> filter f l = l.
Proof. induction l as [|x l IH]; intro H; [reflexivity|]. cbn. rewrite (H x (or_introl eq_refl)). f_equal. apply IH. intros; apply H; right; assumption. Qed.
Lemma up_to_sides k n : (k < n)%nat -> filter (fun r => qleb (fst r) (qn (S k))) (up_to (S k) n) = [] /\ filter (fun r => qltb (qn (S k)) (fst r)) (up_to (S k) n) = up_to (S k) n.
Proof.
  intro L. split; [apply filter_none|apply filter_all]; intros r I; assert (J : In (fst r) (map fst (up_to (S k) n))) by (apply in_map; assumption); apply up_to_In in J; destruct J as (i & -> & A & B).
  - apply qleb_gt. apply qn_lt_iff. lia.
  - apply qltb_lt. apply qn_lt_iff. lia.
Qed.
Lemma up_to_best k m n : (m <= k)%nat -> (S k < n)%nat -> best_cut_at (up_to k n) (qn m) (qn n) (qn (S k)).
Proof.
  intros M L. split.
  - split; [apply up_to_In; exists (S k); split; [reflexivity|lia]|]. split; apply qn_lt_iff; lia.
  - intros q (I & _ & _). rewrite !one_class_gain by apply up_to_class. split; [apply Rle_refl|]. intro Q. apply up_to_In in I. destruct I as (i & -> & A & B). apply qn_lt_iff in Q. lia.
Qed.
Lemma up_to_largest k n : (k < n)%nat -> largest (up_to k n) (qn n).
Proof. intro L. split; [apply up_to_In; exists n; split; [reflexivity|lia]|]. intros x I. apply up_to_In in I. destruct I as (i & -> & _ & B). apply qn_le_iff. assumption. Qed.
Lemma right_lost : forall g k n depth, (n - k = S g)%nat -> divided_side 0 (Some 0%R) depth (qn k) (up_to k n) [].
Proof.
  induction g as [|g IH]; intros k n depth E.
  - rewrite up_to_step by lia. unfold up_to. replace (n - S k)%nat with 0%nat by lia. apply d_one.
  - apply d_more; [unfold up_to; rewrite map_length, seq_length; lia|]. destruct (up_to_sides k n ltac:(lia)) as [S1 S2].
    apply (d_cut 0 (Some 0%R) depth (qn k) (qn n) (up_to k n) (qn (S k)) [] [] []).
    + apply up_to_largest. lia.
    + left. reflexivity.
    + apply up_to_best; lia.
    + rewrite one_class_gain by apply up_to_class. apply Rle_refl.
    + rewrite up_to_step by lia. cbn [filter fst]. rewrite (proj2 (qleb_le _ _) (Qcle_refl _)), S1. apply d_one.
    + rewrite up_to_step by lia. cbn [filter fst]. assert (Q : qltb (qn (S k)) (qn (S k)) = false) by (apply qltb_ge, Qcle_refl). rewrite Q, S2. apply IH. lia.
    + constructor.
    + intro x. tauto.
Qed.
Theorem C131_values_lost : forall n, (2 <= n)%nat ->
  let data := map (fun i => (qn i, 0%Z)) (seq 1 n) in
  entropy_points 0 (Some 0%R) data = Ok [1; qn 2] /\
  forall sets, continuous_sets "point_set" (zip (map (fun _ => "") [1; qn 2]) [1; qn 2]) = Ok sets ->
    forall i, (2 < i)%nat -> Forall (fun s => membership (FC s) (CNum (qn i)) = Ok 0) sets.
Proof.
  intros n L data. split.
  - assert (ED : data = up_to 0 n) by (unfold data, up_to; rewrite Nat.sub_0_r; reflexivity). rewrite ED.
    destruct (C76_cuts_are_gain_optimal 0%Z (Some 0%R) (up_to 0 n)) as (mn & pts & [A B] & C & D).
    { exists (qn 1), (qn 2). split; [apply up_to_In; exists 1%nat; split; [reflexivity|lia]|]. split; [apply up_to_In; exists 2%nat; split; [reflexivity|lia]|]. intro Q. discriminate Q. }
    rewrite C. f_equal. assert (mn = qn 1).
    { apply up_to_In in A. destruct A as (i & -> & A1 & A2). apply Qcle_antisym; [apply B; apply up_to_In; exists 1%nat; split; [reflexivity|lia]|apply qn_le_iff; lia]. }
    subst mn. apply (C76_points_unique _ _ _ _ _ _ _ D). change 1 with (qn 1).
    destruct (Nat.eq_dec n 2) as [->|N].
    + apply d_stop; [exact (up_to_largest 0 2 ltac:(lia))|]. right. left. intros p (I & P1 & P2). apply up_to_In in I. destruct I as (i & -> & _ & _). apply qn_lt_iff in P1. apply qn_lt_iff in P2. lia.
    + rewrite up_to_step by lia. rewrite (up_to_step 1 n) by lia. set (dt := (qn 1, 0%Z) :: (qn 2, 0%Z) :: up_to 2 n).
      assert (EDT : dt = up_to 0 n) by (unfold dt; rewrite (up_to_step 0 n), (up_to_step 1 n) by lia; reflexivity).
      destruct (up_to_sides 1 n ltac:(lia)) as [S1 S2].
      assert (B1 : best_cut_at dt (qn 1) (qn n) (qn 2)).
      { rewrite EDT. split.
        - split; [apply up_to_In; exists 2%nat; split; [reflexivity|lia]|]. split; apply qn_lt_iff; lia.
        - intros q (I & P1 & _). rewrite !one_class_gain by apply up_to_class. split; [apply Rle_refl|]. intro Q. apply up_to_In in I. destruct I as (i & -> & A1 & A2). apply qn_lt_iff in Q. apply qn_lt_iff in P1. lia. }
      apply (d_cut 0 (Some 0%R) 0 (qn 1) (qn n) dt (qn 2) [qn 1; qn 2] [] [qn 1; qn 2]).
      * rewrite EDT. apply up_to_largest. lia.
      * left. reflexivity.
      * exact B1.
      * rewrite one_class_gain; [apply Rle_refl|]. rewrite EDT. apply up_to_class.
      * unfold dt. cbn [filter fst]. assert (Q1 : qleb (qn 1) (qn 2) = true) by reflexivity. assert (Q2 : qleb (qn 2) (qn 2) = true) by reflexivity. rewrite Q1, Q2, S1.
        apply d_more; [cbn; lia|]. apply d_stop; [split; [right; left; reflexivity|intros x [<-|[<-|[]]]; discriminate]|]. right. left. intros p (I & P1 & P2). destruct I as [<-|[<-|[]]]; cbn [fst] in *; qlra.
      * unfold dt. cbn [filter fst]. assert (Q1 : qltb (qn 2) (qn 1) = false) by reflexivity. assert (Q2 : qltb (qn 2) (qn 2) = false) by reflexivity. rewrite Q1, Q2, S2. apply (right_lost (n - 3)). lia.
      * repeat constructor.
      * intro x. cbn. tauto.
  - intros sets E i Li. assert (EF := @C02_all "point_set" (zip (map (fun _ => "") [1; qn 2]) [1; qn 2]) (qn i) ltac:(cbn; lia)).
    destruct EF as (sets' & ds & E' & F & _ & _ & S0); [repeat constructor|]. rewrite E in E'. injection E' as <-.
    assert (Z : Forall (fun m => m = 0) ds). { apply S0. right. change (map snd (zip (map (fun _ : Qc => "") [1; qn 2]) [1; qn 2])) with [qn 1; qn 2]. intros p [<-|[<-|[]]]; apply qn_lt_iff; lia. }
    clear - F Z. induction F as [|s m l1 l2 H F IH]; constructor; inversion Z as [|? ? Z1 Z2]; [rewrite H, Z1; reflexivity|auto].
Qed.
Print Assumptions C131_values_lost.

(** ** after fuzzify('entropy') *)
Section After.
  Variables (cut : string -> list Qc -> Z -> option (list Qc * Qc) * option (list Qc * Qc)) (show : Qc -> string) (show_cell : cell -> string) (inst : list cell)
    (k : kind) (s : nbhd) (kw : zargs) (s' : nbhd) (X : table) (y : list Z) (cat : list string).
  (** the object has the rows [X] labelled [y] and fuzzify('entropy') succeeded; columns are distinct, there are two rows or more, each with a value per column and
      numbers in those that are not categorical; numbers and values print differently *)
  Definition fuzzified : Prop :=
    fuzzify_of cut show show_cell inst k s "entropy" kw = (s', None) /\ fitted_with s X y /\ z_cat kw = Some cat /\
    NoDup (tb_cols X) /\ (2 <= List.length (tb_rows X))%nat /\ List.length (tb_rows X) = List.length y /\
    (forall row, In row (tb_rows X) -> fits (tb_cols X) cat row) /\ (forall a b, show a = show b -> a = b) /\ (forall a b, show_cell a = show_cell b -> a = b).
  Lemma fuzzified_vars vars : fuzzified -> n_vars (view s') = Ok vars -> exists num, variables_of show show_cell X num cat vars /\ peaks_of show X y (or_default None (z_th kw)) cat vars /\
    n_y (view s') = Ok y.
  Proof.
    intros (H & FW & HC & ND & L2 & LY & FR & IS & IC) GV. destruct (C83_variables cut show show_cell inst k s kw s' X H (proj1 FW) ND L2) as (num & cat1 & vars1 & _ & HC1 & GV1 & V).
    destruct (C83_peaks cut show show_cell inst k s kw s' X y H FW ND L2) as (cat2 & vars2 & HC2 & GV2 & P). rewrite HC in HC1, HC2. injection HC1 as <-. injection HC2 as <-.
    unfold view in GV. cbn [n_vars] in GV. rewrite GV1 in GV. cbn [bind] in GV. rewrite all_some_map in GV. injection GV as <-.
    assert (E2 : n_vars (view s') = Ok vars2) by (unfold view; cbn [n_vars]; rewrite GV2; cbn [bind]; apply all_some_map).
    assert (E1 : n_vars (view s') = Ok vars1) by (unfold view; cbn [n_vars]; rewrite GV1; cbn [bind]; apply all_some_map). rewrite E1 in E2. injection E2 as <-.
    exists num. split; [assumption|]. split; [assumption|]. destruct (fuzzify_ok cut show show_cell inst k s "entropy" kw H) as (_ & _ & _ & _ & _ & _ & _ & _ & _ & _ & (_ & D2 & _) & _).
    unfold view. cbn [n_y]. destruct FW as [_ FY]. unfold get_y in *. rewrite D2. exact FY.
  Qed.
  Lemma fuzzified_wide : fuzzified -> forall row, In row (tb_rows X) -> (List.length (tb_cols X) <= List.length row)%nat.
  Proof. intros (_ & _ & _ & _ & _ & _ & FR & _) row I. destruct (FR row I) as [-> _]. apply le_n. Qed.
  Lemma fuzzified_ready dec : fuzzified -> n_decoded (view s') = Ok dec -> exists vars m, n_vars (view s') = Ok vars /\ n_instance (view s') = Ok m /\ n_X (view s') = Ok (tb_rows X) /\
    distinct_names vars /\ (forall v, In v vars -> fv_sets v <> []) /\ readable vars [dec] /\ row_membership vars dec m /\ proper m /\ readable vars (tb_rows X) /\ y <> [] /\ n_y (view s') = Ok y.
  Proof.
    intros FZ HD. assert (FZ' := FZ). destruct FZ' as (H & FW & HC & ND & L2 & LY & FR & IS & IC).
    destruct (C83_ready_for_explainer cut show show_cell inst k s kw s' X H (proj1 FW) ND L2 (fun row I => proj1 (FR row I)) IS IC) as (vars & dec' & m & V1 & V2 & V3 & V4 & V5 & V6 & V7 & V8 & V9).
    rewrite HD in V2. injection V2 as <-. destruct (fuzzified_vars vars FZ V1) as (num & VO & _ & NY). exists vars, m. repeat (split; [assumption|]).
    split; [exact (proj1 (@variables_readable show show_cell X num cat vars (tb_rows X) VO (fuzzified_wide FZ) FR))|]. split; [|exact NY]. intro E. rewrite E in LY. cbn in LY. lia.
  Qed.
End After.

(** a column with two different values has two sets or more; a numerical column without two different values has one *)
Theorem C131_two_sets : forall cut show show_cell inst k s kw s' X y cat vars i v,
  fuzzified cut show show_cell inst k s kw s' X y cat -> n_vars (view s') = Ok vars -> nth_error vars i = Some v ->
  ((2 <= List.length (fv_sets v))%nat <-> two_values X i).
Proof.
  intros cut show show_cell inst k s kw s' X y cat vars i v FZ GV HV. destruct (fuzzified_vars _ _ _ _ _ _ _ _ _ _ _ vars FZ GV) as (num & VO & PK & _). assert (W := fuzzified_wide _ _ _ _ _ _ _ _ _ _ _ FZ).
  split; [|apply (two_sets _ _ _ _ _ _ VO W y (or_default None (z_th kw)) i v PK); [apply FZ|assumption]].
  intro L. destruct (@variables_nth _ _ _ _ _ _ _ _ VO W HV) as (col & C & LC & NC). destruct (proj2 VO i v col HV C) as [V1 V2].
  assert (TV : (exists x x', In x col /\ In x' col /\ x <> x') -> two_values X i).
  { intros (x & x' & I & I' & N). apply In_nth_error in I. destruct I as [a Ha]. apply In_nth_error in I'. destruct I' as [b Hb].
    assert (La : (a < List.length (tb_rows X))%nat) by (rewrite <- LC; apply nth_error_Some; congruence). assert (Lb : (b < List.length (tb_rows X))%nat) by (rewrite <- LC; apply nth_error_Some; congruence).
    destruct (nth_error (tb_rows X) a) as [r|] eqn:Er; [|apply nth_error_None in Er; lia]. destruct (nth_error (tb_rows X) b) as [r'|] eqn:Er'; [|apply nth_error_None in Er'; lia].
    exists r, r'. split; [exact (nth_error_In _ _ Er)|]. split; [exact (nth_error_In _ _ Er')|]. rewrite <- (NC a r Er), <- (NC b r' Er'). congruence. }
  apply TV. destruct (in_dec string_dec (fv_name v) cat) as [J|J].
  - destruct (V1 J) as (values & N & IV & E). rewrite E, map_length in L. destruct values as [|u [|w values]]; try (cbn in L; lia). exists u, w. split; [apply IV; left; reflexivity|]. split; [apply IV; right; left; reflexivity|].
    inversion N as [|? ? N1 _]. intro Q. apply N1. left. congruence.
  - destruct (V2 J) as (_ & qs & f & rest & sets & CE & SS & IP & _ & ES & E). rewrite E, map_length, <- (map_length pb), (set_peaks show f rest sets ES) in L. destruct rest as [|g rest]; [cbn in L; lia|].
    exists (CNum f), (CNum g). rewrite CE. split; [apply in_map, IP; left; reflexivity|]. split; [apply in_map, IP; right; left; reflexivity|]. inversion SS as [|? ? _ F]. inversion F as [|? ? Q _]. intro Z. injection Z as Z. subst g. qlra.
Qed.
Print Assumptions C131_two_sets.

(** a row of the table lies among the sets exactly when no number in it is above all peaks of its variable *)
Theorem C131_rows_among : forall cut show show_cell inst k s kw s' X y cat vars row,
  fuzzified cut show show_cell inst k s kw s' X y cat -> n_vars (view s') = Ok vars -> In row (tb_rows X) ->
  (row_among vars row <-> forall i v q, nth_error vars i = Some v -> ~ In (fv_name v) cat -> nth_error row i = Some (CNum q) -> exists c, In (FC c) (fv_sets v) /\ q <= pb c).
Proof.
  intros cut show show_cell inst k s kw s' X y cat vars row FZ GV IR. destruct (fuzzified_vars _ _ _ _ _ _ _ _ _ _ _ vars FZ GV) as (num & VO & PK & _). assert (W := fuzzified_wide _ _ _ _ _ _ _ _ _ _ _ FZ).
  apply In_nth_error in IR. destruct IR as [r HR]. split.
  - intros A i v q HV NC HX. destruct (@variables_nth _ _ _ _ _ _ _ _ VO W HV) as (col & C & _). destruct (proj2 VO i v col HV C) as [_ V2]. destruct (V2 NC) as (_ & qs & f & rest & sets & _ & _ & _ & _ & _ & E).
    destruct (A i v HV) as (x & Hx & [[name I]|(q' & c & c' & -> & I & I' & L & L')]).
    + exfalso. rewrite E in I. apply in_map_iff in I. destruct I as (z & Q & _). discriminate.
    + exists c'. split; [assumption|]. congruence.
  - intros A i v HV. destruct (@variables_nth _ _ _ _ _ _ _ _ VO W HV) as (col & C & LC & NC). destruct (proj2 VO i v col HV C) as [V1 V2].
    assert (Lr : (r < List.length (tb_rows X))%nat) by (apply nth_error_Some; congruence). destruct (nth_error col r) as [x|] eqn:Ex; [|apply nth_error_None in Ex; lia].
    assert (Hx : nth_error row i = Some x) by (rewrite <- (NC r row HR); assumption). exists x. split; [assumption|].
    destruct (in_dec string_dec (fv_name v) cat) as [J|J].
    + left. destruct (V1 J) as (values & _ & IV & E). exists (show_cell x). rewrite E. apply in_map_iff. exists x. split; [reflexivity|]. apply IV. exact (nth_error_In _ _ Ex).
    + right. destruct (V2 J) as (_ & qs & f & rest & sets & CE & SS & IP & MN & ES & E). subst col. rewrite nth_error_map in Ex. destruct (nth_error qs r) as [q|] eqn:Eq; [|discriminate]. cbn in Ex. injection Ex as <-.
      destruct (A i v q HV J Hx) as (c' & I' & L'). assert (PF : In f (map pb sets)) by (rewrite (set_peaks show f rest sets ES); left; reflexivity). apply in_map_iff in PF. destruct PF as (c & Pc & Ic).
      exists q, c, c'. split; [reflexivity|]. split; [rewrite E; apply in_map; assumption|]. split; [assumption|]. split; [rewrite Pc; apply MN; exact (nth_error_In _ _ Eq)|assumption].
Qed.
Print Assumptions C131_rows_among.

(** which is so when every numerical column is nearly constant or takes its largest value twice *)
Theorem C131_repeated_maximum : forall cut show show_cell inst k s kw s' X y cat vars,
  fuzzified cut show show_cell inst k s kw s' X y cat -> n_vars (view s') = Ok vars ->
  (forall i c qs, nth_error (tb_cols X) i = Some c -> ~ In c cat -> column (tb_rows X) i = Ok (map CNum qs) ->
     nearly_constant qs \/ exists M, (2 <= count_occ Qc_eq_dec qs M)%nat /\ forall q, In q qs -> q <= M) ->
  forall row, In row (tb_rows X) -> row_among vars row.
Proof.
  intros cut show show_cell inst k s kw s' X y cat vars FZ GV MX row IR. apply (C131_rows_among cut show show_cell inst k s kw s' X y cat vars row FZ GV IR). intros i v q HV J HX.
  destruct (fuzzified_vars _ _ _ _ _ _ _ _ _ _ _ vars FZ GV) as (num & VO & PK & _). assert (W := fuzzified_wide _ _ _ _ _ _ _ _ _ _ _ FZ). apply In_nth_error in IR. destruct IR as [r HR].
  destruct (@variables_nth _ _ _ _ _ _ _ _ VO W HV) as (col & C & LC & NC). destruct (proj2 VO i v col HV C) as [_ V2]. destruct (V2 J) as (_ & qs & f & rest & sets & CE & SS & IP & MN & ES & E). subst col.
  assert (Iq : In q qs). { assert (Q := NC r row HR). rewrite HX, nth_error_map in Q. destruct (nth_error qs r) as [q'|] eqn:Eq; [|discriminate]. cbn in Q. injection Q as <-. exact (nth_error_In _ _ Eq). }
  assert (CN : nth_error (tb_cols X) i = Some (fv_name v)) by (rewrite <- (proj1 VO); apply map_nth_error; assumption).
  destruct (PK i v qs HV C J) as (pts & sets' & ES' & CS & NC1 & NC2). assert (L2 : (2 <= List.length qs)%nat) by (rewrite map_length in LC; rewrite LC; apply FZ).
  assert (PP : pts <> [] -> forall p, In p pts -> exists c, In (FC c) (fv_sets v) /\ pb c = p).
  { intros NE p Ip. destruct pts as [|f' rest']; [congruence|]. rewrite <- (set_peaks show f' rest' sets' CS) in Ip. apply in_map_iff in Ip. destruct Ip as (c & Pc & Ic). exists c. split; [rewrite ES'; apply in_map; assumption|assumption]. }
  assert (DC : nearly_constant qs \/ ~ nearly_constant qs) by (rewrite <- (@small_std_spec qs L2); destruct (small_std qs); [left; reflexivity|right; discriminate]).
  assert (GOAL : exists p, In p pts /\ q <= p).
  { destruct DC as [D|D].
    - destruct (NC1 D) as [_ IPT]. exists q. split; [apply IPT; assumption|apply Qcle_refl].
    - destruct (MX i (fv_name v) qs CN J C) as [D'|(M & CM & LM)]; [contradiction|]. specialize (NC2 D).
      assert (EF : map fst (combine qs y) = qs). { apply map_fst_combine. rewrite map_length in LC. rewrite LC. apply FZ. }
      destruct (C15_repeated_maximum_kept 0%Z (or_default None (z_th kw)) (combine qs y) pts M) as [l ->]; try rewrite EF; try assumption.
      + apply varied; [assumption|]. destruct (small_std qs) eqn:Q; [|reflexivity]. exfalso. apply D. apply (@small_std_spec qs L2). assumption.
      + exists M. split; [apply in_or_app; right; left; reflexivity|auto]. }
  destruct GOAL as (p & Ip & Lp). destruct (PP ltac:(intro Z; rewrite Z in Ip; destruct Ip) p Ip) as (c & Ic & <-). eauto.
Qed.
Print Assumptions C131_repeated_maximum.

(** a row among the sets belongs to some set of every variable with degree at least 1/2 *)
Theorem C131_half : forall cut show show_cell inst k s kw s' X y cat vars row,
  fuzzified cut show show_cell inst k s kw s' X y cat -> n_vars (view s') = Ok vars -> row_among vars row -> covered vars row (qc 1 2).
Proof.
  intros cut show show_cell inst k s kw s' X y cat vars row FZ GV A. destruct (fuzzified_vars _ _ _ _ _ _ _ _ _ _ _ vars FZ GV) as (num & VO & _ & _).
  exact (among_covered _ _ _ _ _ _ VO (fuzzified_wide _ _ _ _ _ _ _ _ _ _ _ FZ) row A).
Qed.
Print Assumptions C131_half.

(** ** an explainer asked about the decoded instance gets as far as training *)
Theorem C131_fdt_prepared : forall cut show show_cell inst k s kw s' X y cat ord a dec,
  fuzzified cut show show_cell inst k s kw s' X y cat -> n_decoded (view s') = Ok dec ->
  a_nb a = view s' -> a_instance a = [dec] -> (forall p l, Permutation (ord p l) l) -> (forall th, k_threshold (a_kw a) = Some th -> (0 < th)%R) ->
  (forall i c, nth_error (tb_cols X) i = Some c -> In c (a_num a) -> two_values X i) ->
  exists vars m, n_vars (view s') = Ok vars /\ prepared ord a vars m (tb_rows X) y.
Proof.
  intros cut show show_cell inst k s kw s' X y cat ord a dec FZ HD NB HI HO TH NUM.
  destruct (fuzzified_ready _ _ _ _ _ _ _ _ _ _ _ dec FZ HD) as (vars & m & V1 & V3 & V4 & V5 & V6 & V7 & V8 & V9 & RX & NY & Vy).
  destruct (fuzzified_vars _ _ _ _ _ _ _ _ _ _ _ vars FZ V1) as (num & VO & _ & _).
  assert (CD : List.concat (a_instance a) = dec) by (rewrite HI; cbn; apply app_nil_r). exists vars, m. split; [assumption|]. unfold prepared. rewrite NB, CD.
  split; [assumption|]. split; [assumption|]. split; [exists dec; assumption|]. split; [assumption|]. split; [assumption|]. split; [exact HO|]. split; [assumption|]. split; [assumption|]. split.
  { intros v Iv In'. apply In_nth_error in Iv. destruct Iv as [i Hi]. apply (C131_two_sets cut show show_cell inst k s kw s' X y cat vars i v FZ V1 Hi). apply (NUM i (fv_name v)); [|assumption].
    rewrite <- (proj1 VO). apply map_nth_error. assumption. }
  split; [apply FZ|]. split; [assumption|]. split; [assumption|]. split; [assumption|]. split; [assumption|]. split; assumption.
Qed.
Print Assumptions C131_fdt_prepared.
Theorem C131_fbdt_prepared : forall cut show show_cell inst k s kw s' X y cat psort a dec,
  fuzzified cut show show_cell inst k s kw s' X y cat -> n_decoded (view s') = Ok dec ->
  ba_nb a = view s' -> ba_instance a = [dec] -> (forall l, Permutation (psort l) l) -> (forall th, k_threshold (ba_kw a) = Some th -> (0 < th)%R) ->
  exists vars m, n_vars (view s') = Ok vars /\ bprepared psort a vars m (tb_rows X) y.
Proof.
  intros cut show show_cell inst k s kw s' X y cat psort a dec FZ HD NB HI HO TH.
  destruct (fuzzified_ready _ _ _ _ _ _ _ _ _ _ _ dec FZ HD) as (vars & m & V1 & V3 & V4 & V5 & V6 & V7 & V8 & V9 & RX & NY & Vy).
  assert (CD : List.concat (ba_instance a) = dec) by (rewrite HI; cbn; apply app_nil_r). exists vars, m. split; [assumption|]. unfold bprepared. rewrite NB, CD.
  repeat (split; [first [assumption|apply FZ]|]). assumption.
Qed.
Print Assumptions C131_fbdt_prepared.

(** ** and succeeds when rows and instance lie among the sets and the root can be split *)
Theorem C131_fdt_succeeds : forall cut show show_cell inst k s kw s' X y cat ord same parse mixed e a dec vars b,
  fuzzified cut show show_cell inst k s kw s' X y cat -> n_decoded (view s') = Ok dec -> n_vars (view s') = Ok vars ->
  a_nb a = view s' -> a_instance a = [dec] -> (forall p l, Permutation (ord p l) l) -> (forall th, k_threshold (a_kw a) = Some th -> (0 < th)%R) ->
  (forall i c, nth_error (tb_cols X) i = Some c -> In c (a_num a) -> two_values X i) ->
  a_counterfactual a <> "d_counterfactual" -> valid_arguments (a_instance a) (a_factual a) (a_counterfactual a) (a_kw a) -> accepted (a_kw a) (a_factual a) -> scorable y ->
  let cfg := fdt_config vars (a_kw a) in
  ~ limit_met cfg (tb_rows X) y [] -> (b < List.length vars)%nat -> (f_threshold cfg <= info_gain vars (tb_rows X) y [] b)%R ->
  (forall row, In row (tb_rows X) -> row_among vars row) ->
  (a_factual a <> "mr_factual" -> row_among vars dec /\
     forall t, fit cfg ord fresh_root (tb_rows X) y = Ok t -> (List.length (leaves t) * List.length (zunique y) < 500)%nat) ->
  exists e', fdt_fit ord same parse mixed e a = (e', None).
Proof.
  intros cut show show_cell inst k s kw s' X y cat ord same parse mixed e a dec vars b FZ HD GV NB HI HO TH NUM NDC VA AC SC cfg NL Lb G RA IA.
  destruct (C131_fdt_prepared cut show show_cell inst k s kw s' X y cat ord a dec FZ HD NB HI HO TH NUM) as (vars' & m & GV' & P). rewrite GV in GV'. injection GV' as <-.
  assert (CD : List.concat (a_instance a) = dec) by (rewrite HI; cbn; apply app_nil_r).
  apply (C129_succeeds ord same parse mixed e a vars m (tb_rows X) y (qc 1 2) b P NDC VA AC SC NL Lb G).
  - intros row I. exists (qc 1 2). split; [reflexivity|]. apply (C131_half cut show show_cell inst k s kw s' X y cat vars row FZ GV (RA row I)).
  - intro N. destruct (IA N) as [AD LT]. rewrite CD. split; [apply (C131_half cut show show_cell inst k s kw s' X y cat vars dec FZ GV AD)|].
    intros t FT. specialize (LT t FT). rewrite <- qn_mult. assert (Q : qz 1000 * qc 1 2 = qn 500) by qex. rewrite Q. apply qn_lt_iff. assumption.
Qed.
Print Assumptions C131_fdt_succeeds.
Theorem C131_fbdt_succeeds : forall cut show show_cell inst k s kw s' X y cat psort e a dec vars b g1 g2,
  fuzzified cut show show_cell inst k s kw s' X y cat -> n_decoded (view s') = Ok dec -> n_vars (view s') = Ok vars ->
  ba_nb a = view s' -> ba_instance a = [dec] -> (forall l, Permutation (psort l) l) -> sorts psort -> (forall th, k_threshold (ba_kw a) = Some th -> (0 < th)%R) ->
  valid_arguments (ba_instance a) (ba_factual a) (ba_counterfactual a) (ba_kw a) -> accepted (ba_kw a) (ba_factual a) -> binary_labels y ->
  let cfg := fdt_config vars (ba_kw a) in
  ~ exhausted cfg y (map (fun _ => 1) y) [] -> candidate cfg (tb_rows X) y [] b g1 g2 -> (f_threshold cfg <= root_gain vars (tb_rows X) y b g1 g2)%R ->
  (forall row, In row (tb_rows X) -> row_among vars row) ->
  (ba_factual a <> "mr_factual" -> row_among vars dec /\ (product (map (fun v => List.length (fv_sets v)) vars) < 250)%nat) ->
  exists e', fbdt_fit psort e a = (e', None).
Proof.
  intros cut show show_cell inst k s kw s' X y cat psort e a dec vars b g1 g2 FZ HD GV NB HI HO SO TH VA AC BL cfg NX CDT G RA IA.
  destruct (C131_fbdt_prepared cut show show_cell inst k s kw s' X y cat psort a dec FZ HD NB HI HO TH) as (vars' & m & GV' & P). rewrite GV in GV'. injection GV' as <-.
  assert (CD : List.concat (ba_instance a) = dec) by (rewrite HI; cbn; apply app_nil_r).
  apply (C130_succeeds psort e a vars m (tb_rows X) y (qc 1 2) b g1 g2 P SO VA AC BL NX CDT G).
  - intros row I. exists (qc 1 2). split; [reflexivity|]. apply (C131_half cut show show_cell inst k s kw s' X y cat vars row FZ GV (RA row I)).
  - intro N. destruct (IA N) as [AD LT]. rewrite CD. split; [apply (C131_half cut show show_cell inst k s kw s' X y cat vars dec FZ GV AD)|].
    change (qz 2) with (qn 2). rewrite <- qn_mult. assert (Q : qz 1000 * qc 1 2 = qn 500) by qex. rewrite Q. apply qn_lt_iff. lia.
Qed.
Print Assumptions C131_fbdt_succeeds.

(** *** a printer that tells numbers apart, and the table of Properties_Neighborhood: both explainers succeed on it *)
Fixpoint show_pos (p : positive) (rest : string) : string :=
  match p with xH => String "e" rest | xO p => String "0" (show_pos p rest) | xI p => String "1" (show_pos p rest) end.
Definition show_z (z : Z) (rest : string) : string :=
  match z with Z0 => String "z" rest | Zpos p => String "+" (show_pos p rest) | Zneg p => String "-" (show_pos p rest) end.
Definition show_num (q : Qc) : string := show_z (Qnum (this q)) (show_pos (Qden (this q)) "").
Definition show_val (x : cell) : string := match x with CNum q => String "n" (show_num q) | CStr t => String "s" t end.
Lemma show_pos_inj p : forall p' a b, show_pos p a = show_pos p' b -> p = p' /\ a = b.
Proof.
  induction p as [p IH|p IH|]; intros [p'|p'|] a b E; cbn in E; try discriminate E; injection E as E.
  - destruct (IH _ _ _ E) as [-> ->]. auto.
  - destruct (IH _ _ _ E) as [-> ->]. auto.
  - auto.
Qed.
Lemma show_num_inj a b : show_num a = show_num b -> a = b.
Proof.
  unfold show_num. intro E. assert (Q : Qnum (this a) = Qnum (this b) /\ show_pos (Qden (this a)) "" = show_pos (Qden (this b)) "").
  { destruct (Qnum (this a)), (Qnum (this b)); cbn in E; try discriminate E; injection E as E; try (destruct (show_pos_inj _ _ _ _ E) as [-> E']; auto); auto. }
  destruct Q as [Q1 Q2]. apply show_pos_inj in Q2. destruct Q2 as [Q2 _]. apply Qc_is_canon. unfold Qeq. rewrite Q1, Q2. reflexivity.
Qed.
Lemma show_val_inj a b : show_val a = show_val b -> a = b.
Proof. destruct a, b; cbn; intro E; try discriminate E; injection E as E; [apply show_num_inj in E|]; congruence. Qed.
Definition pl_s (k : kind) := history no_cut show_num show_val [CNum 1; CStr "a"] k [Fit ex2_outcome].
Lemma pl_fits row : In row (tb_rows ex2_table) -> fits (tb_cols ex2_table) ["c"] row.
Proof.
  intro I. split; [destruct I as [<-|[<-|[]]]; reflexivity|]. intros i c Hi N. destruct i as [|[|i]]; [|injection Hi as <-; exfalso; apply N; left; reflexivity|destruct i; discriminate].
  destruct I as [<-|[<-|[]]]; eexists; reflexivity.
Qed.
Lemma pl_fuzzified k : exists s' vars, fuzzified no_cut show_num show_val [CNum 1; CStr "a"] k (pl_s k) (ex_args ["x"] ["c"]) s' ex2_table [0; 1]%Z ["c"] /\
  n_decoded (view s') = Ok [CNum 1; CStr "a"] /\ n_vars (view s') = Ok vars.
Proof.
  assert (ND : NoDup ["x"; "c"]) by (repeat constructor; cbn; intuition discriminate).
  destruct (C83_succeeds no_cut show_num show_val [CNum 1; CStr "a"] k [Fit ex2_outcome] (ex_args ["x"] ["c"]) ex2_table [0; 1]%Z [CNum 1; CStr "a"] ["x"] ["c"]) as [s' H]; try reflexivity.
  - destruct k; split; reflexivity.
  - destruct k; reflexivity.
  - exact ND.
  - discriminate.
  - intro c. cbn. tauto.
  - intros row I. split; [apply pl_fits; assumption|]. intros i c Hi [<-|[]]. destruct I as [<-|[<-|[]]]; (destruct i as [|[|i]]; [eexists; reflexivity|discriminate|destruct i; discriminate]).
  - apply pl_fits. left. reflexivity.
  - intros _ _. apply pl_fits. left. reflexivity.
  - change (fuzzify_of no_cut show_num show_val [CNum 1; CStr "a"] k (pl_s k) "entropy" (ex_args ["x"] ["c"]) = (s', None)) in H.
    assert (FW : fitted_with (pl_s k) ex2_table [0; 1]%Z) by (destruct k; split; reflexivity).
    destruct (C83_ready_for_explainer no_cut show_num show_val [CNum 1; CStr "a"] k (pl_s k) (ex_args ["x"] ["c"]) s' ex2_table H (proj1 FW) ND (le_n 2) (fun row I => proj1 (pl_fits row I)) show_num_inj show_val_inj) as (vars & dec & m & V1 & V2 & _).
    exists s', vars. split; [|split; [|exact V1]].
    + split; [exact H|]. split; [exact FW|]. split; [reflexivity|]. split; [exact ND|]. split; [exact (le_n 2)|]. split; [reflexivity|]. split; [exact pl_fits|]. split; [exact show_num_inj|exact show_val_inj].
    + rewrite V2. destruct (fuzzify_ok no_cut show_num show_val [CNum 1; CStr "a"] k (pl_s k) "entropy" (ex_args ["x"] ["c"]) H) as (_ & _ & _ & dec' & _ & _ & _ & _ & HD & _ & (_ & _ & _ & D4 & _) & _).
      unfold view in V2. cbn [n_decoded] in V2. rewrite D4, HD in V2. cbn in V2. assert (HD' : nb_decoded (pl_s k) = Some [CNum 1; CStr "a"]) by (destruct k; reflexivity). congruence.
Qed.
Definition pl_x : fvar := mkV "x" [FC (mkC (show_num 1) 1 1 (qz 3) false); FC (mkC (show_num (qz 3)) 1 (qz 3) (qz 3) false)].
Lemma pl_sets : continuous_sets "point_set" (zip (map show_num [1; qz 3]) [1; qz 3]) = Ok [mkC (show_num 1) 1 1 (qz 3) false; mkC (show_num (qz 3)) 1 (qz 3) (qz 3) false].
Proof. reflexivity. Qed.
Lemma pl_vars k s' vars : fuzzified no_cut show_num show_val [CNum 1; CStr "a"] k (pl_s k) (ex_args ["x"] ["c"]) s' ex2_table [0; 1]%Z ["c"] -> n_vars (view s') = Ok vars ->
  exists v, vars = [pl_x; v] /\ List.length (fv_sets v) = 2%nat.
Proof.
  intros FZ GV. destruct (fuzzified_vars _ _ _ _ _ _ _ _ _ _ _ vars FZ GV) as (num & VO & _ & _). assert (VN := proj1 VO). destruct vars as [|v0 [|v1 [|? ?]]]; try discriminate VN. cbn in VN. injection VN as N0 N1.
  assert (T0 : (2 <= List.length (fv_sets v0))%nat) by (apply (C131_two_sets _ _ _ _ _ _ _ _ _ _ _ _ 0%nat v0 FZ GV eq_refl); exists [CNum 1; CStr "a"], [CNum (qz 3); CStr "b"]; split; [left; reflexivity|split; [right; left; reflexivity|discriminate]]).
  destruct (proj2 VO 0%nat v0 _ eq_refl eq_refl) as [_ A0]. destruct (proj2 VO 1%nat v1 _ eq_refl eq_refl) as [A1 _].
  destruct A0 as (_ & qs & f & rest & sets & CE & SS & IP & MN & ES & E); [rewrite N0; intros [Q|[]]; discriminate|]. destruct A1 as (values & NV & IV & E1); [rewrite N1; left; reflexivity|].
  exists v1. split.
  - f_equal. assert (qs = [1; qz 3]). { destruct qs as [|q1 [|q2 [|? ?]]]; try discriminate CE. cbn in CE. injection CE as <- <-. reflexivity. } subst qs.
    assert (PK := set_peaks show_num f rest sets ES). assert (L : (2 <= List.length (f :: rest))%nat) by (rewrite <- PK, map_length; rewrite E, map_length in T0; exact T0).
    assert (H13 : 1 < qz 3) by reflexivity. assert (f = 1). { destruct (IP f (or_introl eq_refl)) as [<-|[<-|[]]]; [reflexivity|]. assert (Q := MN 1 (or_introl eq_refl)). exfalso. qlra. } subst f.
    destruct rest as [|g rest]; [cbn in L; lia|]. inversion SS as [|? ? S1 F1]; subst. inversion F1 as [|? ? Q1 _]; subst. inversion S1 as [|? ? S2 F2]; subst.
    assert (g = qz 3). { destruct (IP g (or_intror (or_introl eq_refl))) as [<-|[<-|[]]]; [exfalso; qlra|reflexivity]. } subst g.
    assert (rest = []). { destruct rest as [|h rest]; [reflexivity|]. inversion F2 as [|? ? Q2 _]; subst. destruct (IP h (or_intror (or_intror (or_introl eq_refl)))) as [<-|[<-|[]]]; exfalso; qlra. } subst rest.
    rewrite pl_sets in ES. injection ES as <-. destruct v0 as [n0 ss]. cbn in N0, E |- *. subst. reflexivity.
  - rewrite E1, map_length. assert (P : Permutation values [CStr "a"; CStr "b"]).
    { apply NoDup_Permutation; [assumption|repeat constructor; cbn; intuition discriminate|]. intro x. rewrite IV. reflexivity. }
    apply Permutation_length in P. exact P.
Qed.
Definition pl_call (s' : nbhd) : fdt_args := mkFA [[CNum 1; CStr "a"]] [0%Z] (view s') ["x"] "m_factual" "i_counterfactual" no_kwargs.
Definition pl_bcall (s' : nbhd) : fbdt_args := mkBA [[CNum 1; CStr "a"]] [0%Z] (view s') "m_factual" "i_counterfactual" no_kwargs.
Lemma pl_among v s' k : fuzzified no_cut show_num show_val [CNum 1; CStr "a"] k (pl_s k) (ex_args ["x"] ["c"]) s' ex2_table [0; 1]%Z ["c"] -> n_vars (view s') = Ok [pl_x; v] ->
  forall row, In row (tb_rows ex2_table) -> row_among [pl_x; v] row.
Proof.
  intros FZ GV row I. apply (C131_rows_among _ _ _ _ _ _ _ _ _ _ _ _ row FZ GV I). intros i w q Hw J HX. destruct (fuzzified_vars _ _ _ _ _ _ _ _ _ _ _ _ FZ GV) as (num & VO & _ & _). assert (VN := proj1 VO). cbn in VN. injection VN as N1.
  destruct i as [|[|i]]; [injection Hw as <-|injection Hw as <-; exfalso; apply J; rewrite N1; left; reflexivity|destruct i; discriminate].
  eexists. split; [right; left; reflexivity|]. cbn [pb]. destruct I as [<-|[<-|[]]]; injection HX as <-; discriminate.
Qed.
Example C131_instance : forall k, exists s' vars,
  fuzzified no_cut show_num show_val [CNum 1; CStr "a"] k (pl_s k) (ex_args ["x"] ["c"]) s' ex2_table [0; 1]%Z ["c"] /\ n_vars (view s') = Ok vars /\
  (forall row, In row (tb_rows ex2_table) -> row_among vars row) /\
  (exists e', fdt_fit same_order (fun _ _ _ => true) (fun _ => Err ValueError) (fun _ _ _ _ _ => Ok 0) new_explainer (pl_call s') = (e', None)) /\
  (exists e', fbdt_fit share_sort new_explainer (pl_bcall s') = (e', None)).
Proof.
  intro k. destruct (pl_fuzzified k) as (s' & vars & FZ & HD & GV). destruct (pl_vars k s' vars FZ GV) as (v & -> & LV). exists s', [pl_x; v]. assert (RA := pl_among v s' k FZ GV).
  split; [exact FZ|]. split; [exact GV|]. split; [exact RA|].
  assert (VA : valid_arguments [[CNum 1; CStr "a"]] "m_factual" "i_counterfactual" no_kwargs) by (split; [exists [CNum 1; CStr "a"], (CNum 1); split; left; reflexivity|]; split; [left; reflexivity|]; split; [discriminate|left; reflexivity]).
  assert (AC : accepted no_kwargs "m_factual") by (repeat split; reflexivity).
  assert (TH : forall th, k_threshold no_kwargs = Some th -> (0 < th)%R) by (intros th E; discriminate).
  split.
  - apply (C131_fdt_succeeds no_cut show_num show_val [CNum 1; CStr "a"] k (pl_s k) (ex_args ["x"] ["c"]) s' ex2_table [0; 1]%Z ["c"] same_order (fun _ _ _ => true) (fun _ => Err ValueError) (fun _ _ _ _ _ => Ok 0) new_explainer (pl_call s') [CNum 1; CStr "a"] [pl_x; v] 0); try assumption; try reflexivity.
    + intros i c Hi [<-|[]]. destruct i as [|[|i]]; [|discriminate|destruct i; discriminate]. exists [CNum 1; CStr "a"], [CNum (qz 3); CStr "b"]. split; [left; reflexivity|]. split; [right; left; reflexivity|discriminate].
    + discriminate.
    + intros _. right. left. reflexivity.
    + intros [Q|[Q|Q]].
      * assert (Z : 0%Z = 1%Z) by (apply Q; [left; reflexivity|right; left; reflexivity]). discriminate.
      * vm_compute in Q. discriminate.
      * vm_compute in Q. apply Q. reflexivity.
    + cbn. lia.
    + unfold info_gain. change (acts [pl_x; v] (tb_rows ex2_table) []) with [1; 1]. assert (E0 : acts [pl_x; v] (tb_rows ex2_table) ([] ++ [(0%nat, 0%nat)]) = [1; 0]) by qex. assert (E1 : acts [pl_x; v] (tb_rows ex2_table) ([] ++ [(0%nat, 1%nat)]) = [0; 1]) by qex.
      rewrite entropy_two by discriminate. change (match nth_error [pl_x; v] 0 with Some v0 => List.length (fv_sets v0) | None => 0%nat end) with 2%nat. cbn [seq map rsum fold_right]. rewrite E0, E1, !entropy_pure by (auto; qlra).
      cbn. unfold Rdiv. rewrite !Rmult_0_r, !Rplus_0_l, Rmult_0_l. lra.
    + intros _. split; [apply RA; left; reflexivity|]. intros t FT. cbn [a_kw pl_call] in FT.
      destruct (fuzzified_ready _ _ _ _ _ _ _ _ _ _ _ _ FZ HD) as (vars' & m & V1 & _ & _ & V5 & V6 & _). rewrite GV in V1. injection V1 as <-.
      assert (T : trained (fdt_config [pl_x; v] no_kwargs) same_order (tb_rows ex2_table) [0; 1]%Z t) by (split; [intros; apply Permutation_refl|]; split; [assumption|]; split; [left; cbn; lra|assumption]).
      destruct (C129_leaf_count _ _ _ _ _ 2 T ltac:(lia)) as [LC _]; [intros w [<-|[<-|[]]]; [cbn; lia|rewrite LV; lia]|]. cbn in LC. change (List.length (zunique [0; 1]%Z)) with 2%nat. lia.
  - apply (C131_fbdt_succeeds no_cut show_num show_val [CNum 1; CStr "a"] k (pl_s k) (ex_args ["x"] ["c"]) s' ex2_table [0; 1]%Z ["c"] share_sort new_explainer (pl_bcall s') [CNum 1; CStr "a"] [pl_x; v] 0 [0]%nat [1]%nat); try assumption; try reflexivity.
    + exact share_sort_perm.
    + exact share_sort_sorts.
    + split; [cbn; lia|]. intros _. right. left. reflexivity.
    + intros [K|[K|K]].
      * assert (Q : 0%Z = 1%Z) by (apply (K 0%nat 1%nat); reflexivity). discriminate.
      * vm_compute in K. discriminate.
      * vm_compute in K. apply K. reflexivity.
    + exists pl_x. split; [reflexivity|]. split; [discriminate|]. split; [discriminate|]. split; [intros _; reflexivity|]. intro N. exfalso. apply N. do 2 eexists. reflexivity.
    + unfold root_gain. assert (E1 : map (fun row => qmin 1 (side_degree [pl_x; v] row (0%nat, [0%nat]))) (tb_rows ex2_table) = [1; 0]) by qex.
      assert (E2 : map (fun row => qmin 1 (side_degree [pl_x; v] row (0%nat, [1%nat]))) (tb_rows ex2_table) = [0; 1]) by qex. rewrite E1, E2. change (map (fun _ : Z => 1) [0; 1]%Z) with [1; 1].
      unfold bgain. rewrite entropy_two by discriminate. rewrite !entropy_pure by (auto; qlra). cbn. unfold Rdiv. rewrite !Rmult_0_r, !Rplus_0_l, Rmult_0_l. lra.
    + intros _. split; [apply RA; left; reflexivity|]. cbn [map]. rewrite LV. cbn. lia.
Qed.
(** a column that takes its largest value twice meets the hypothesis of C131_repeated_maximum *)
Definition pm_table : table := mkTb ["x"] [[CNum 1]; [CNum (qz 3)]; [CNum (qz 3)]].
Definition pm_outcome : outcome := mkO (Ok [CNum 1]) (Ok pm_table) (Ok tt) (Ok pm_table) (Ok [0; 1; 1]%Z) (Ok []).
Lemma pm_fits row : In row (tb_rows pm_table) -> List.length row = 1%nat /\ forall i c, nth_error ["x"] i = Some c -> exists q, nth_error row i = Some (CNum q).
Proof. intro I. split; [destruct I as [<-|[<-|[<-|[]]]]; reflexivity|]. intros i c Hi. destruct i as [|i]; [|destruct i; discriminate]. destruct I as [<-|[<-|[<-|[]]]]; eexists; reflexivity. Qed.
Example C131_maximum_instance : forall k, let s := history no_cut show_num show_val [CNum 1] k [Fit pm_outcome] in
  exists s' vars, fuzzified no_cut show_num show_val [CNum 1] k s (ex_args ["x"] []) s' pm_table [0; 1; 1]%Z [] /\ n_vars (view s') = Ok vars /\
  (forall i c qs, nth_error (tb_cols pm_table) i = Some c -> ~ In c [] -> column (tb_rows pm_table) i = Ok (map CNum qs) ->
     nearly_constant qs \/ exists M, (2 <= count_occ Qc_eq_dec qs M)%nat /\ forall q, In q qs -> q <= M) /\
  forall row, In row (tb_rows pm_table) -> row_among vars row.
Proof.
  intros k s. assert (ND : NoDup ["x"]) by (repeat constructor; intros []).
  assert (FF : forall row, In row (tb_rows pm_table) -> fits (tb_cols pm_table) [] row) by (intros row I; destruct (pm_fits row I) as [A B]; split; [exact A|intros i c Hi _; exact (B i c Hi)]).
  destruct (C83_succeeds no_cut show_num show_val [CNum 1] k [Fit pm_outcome] (ex_args ["x"] []) pm_table [0; 1; 1]%Z [CNum 1] ["x"] []) as [s' H]; try reflexivity.
  - destruct k; split; reflexivity.
  - destruct k; reflexivity.
  - exact ND.
  - cbn. lia.
  - discriminate.
  - intro c. cbn. tauto.
  - intros row I. destruct (pm_fits row I) as [A B]. split; [exact A|]. intros i c Hi _. exact (B i c Hi).
  - apply FF. left. reflexivity.
  - intros _ _. apply FF. left. reflexivity.
  - fold s in H. assert (FW : fitted_with s pm_table [0; 1; 1]%Z) by (destruct k; split; reflexivity). assert (L2 : (2 <= List.length (tb_rows pm_table))%nat) by (cbn; lia).
    destruct (C83_ready_for_explainer no_cut show_num show_val [CNum 1] k s (ex_args ["x"] []) s' pm_table H (proj1 FW) ND L2 (fun row I => proj1 (FF row I)) show_num_inj show_val_inj) as (vars & dec & m & V1 & _).
    assert (FZ : fuzzified no_cut show_num show_val [CNum 1] k s (ex_args ["x"] []) s' pm_table [0; 1; 1]%Z []).
    { split; [exact H|]. split; [exact FW|]. split; [reflexivity|]. split; [exact ND|]. split; [exact L2|]. split; [reflexivity|]. split; [exact FF|]. split; [exact show_num_inj|exact show_val_inj]. }
    exists s', vars. split; [exact FZ|]. split; [exact V1|].
    assert (MX : forall i c qs, nth_error (tb_cols pm_table) i = Some c -> ~ In c [] -> column (tb_rows pm_table) i = Ok (map CNum qs) ->
      nearly_constant qs \/ exists M, (2 <= count_occ Qc_eq_dec qs M)%nat /\ forall q, In q qs -> q <= M).
    { intros i c qs Hi _ C. right. destruct i as [|i]; [|destruct i; discriminate]. destruct qs as [|q1 [|q2 [|q3 [|? ?]]]]; try discriminate C. cbn in C. injection C as <- <- <-. exists (qz 3). split; [vm_compute; lia|]. intros q [<-|[<-|[<-|[]]]]; discriminate. }
    split; [exact MX|]. exact (C131_repeated_maximum no_cut show_num show_val [CNum 1] k s (ex_args ["x"] []) s' pm_table [0; 1; 1]%Z [] vars FZ V1 MX).
Qed.
