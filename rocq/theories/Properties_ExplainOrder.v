(** * C144: an explanation does not depend on the order of the rows of the neighbourhood *)
From Verif Require Import Prelude M_Fuzzy M_Discretize M_Rule S_Rule P_Rule M_FDT S_FDT P_FDT P_FDT2 P_FDT3 P_FDT4 M_FBDT M_ID3 M_Metrics M_Factual S_Factual P_Factual
  M_Counterfactual S_Counterfactual P_Counterfactual M_Explainer S_Explainer P_Explainer S_FBDT S_FBDT2 S_FBDTPrivate P_Entropy P_FBDT P_FBDT2 P_FBDT3 P_FBDT4 P_FBDT5 P_FBDT6
  Properties_FDT Properties_FBDT Properties_FBDT2 Properties_FBDT3 Properties_Explainer S_Success P_Success Properties_Success Properties_Success2 S_Rows Properties_Rows.
From Coq Require Import Reals Lra.
Local Notation eqb := Prelude.eqb.
Open Scope string_scope. Open Scope list_scope. Open Scope Qc_scope.

(** the same call with other rows and labels in the neighbourhood *)
Definition other_rows (n : nview) (X : list (list cell)) (y : list Z) : nview :=
  mkN (n_vars n) (n_instance n) (n_decoded n) (Ok X) (Ok y) (n_XM n).
Definition fdt_call_with (a : fdt_args) (X : list (list cell)) (y : list Z) : fdt_args :=
  mkFA (a_instance a) (a_target a) (other_rows (a_nb a) X y) (a_num a) (a_factual a) (a_counterfactual a) (a_kw a).
Definition fbdt_call_with (a : fbdt_args) (X : list (list cell)) (y : list Z) : fbdt_args :=
  mkBA (ba_instance a) (ba_target a) (other_rows (ba_nb a) X y) (ba_factual a) (ba_counterfactual a) (ba_kw a).

Lemma labelled_perm A B C (R : A -> C -> Prop) : (forall x c c', R x c -> R x c' -> c = c') ->
  forall (X X' : list A) (y y' : list B) ps ps', List.length X = List.length y -> List.length X' = List.length y' -> Permutation (combine X' y') (combine X y) ->
  Forall2 R X ps -> Forall2 R X' ps' -> Permutation (combine y' ps') (combine y ps).
Proof.
  intros FR X X' y y' ps ps' L L' P F F'.
  assert (G : forall (X : list A) (y : list B) ps, List.length X = List.length y -> Forall2 R X ps -> exists T : list (A * B * C), map fst T = combine X y /\ map (fun t => (snd (fst t), snd t)) T = combine y ps /\ Forall (fun t => R (fst (fst t)) (snd t)) T).
  { clear. intros X y ps L F. revert y L. induction F as [|x c X ps H F IH]; intros [|b y] L; try discriminate; [exists []; repeat split; constructor|].
    destruct (IH y) as (T & E1 & E2 & E3); [injection L; auto|]. exists ((x, b, c) :: T). cbn [map combine fst snd]. rewrite E1, E2. repeat split. constructor; assumption. }
  destruct (G X y ps L F) as (T & E1 & E2 & E3). destruct (G X' y' ps' L' F') as (T' & E1' & E2' & E3'). rewrite <- E1, <- E1' in P.
  destruct (Permutation_map_inv _ _ P) as (T3 & Q & PT). assert (T' = T3); [|subst T3; rewrite <- E2, <- E2'; apply Permutation_sym, Permutation_map, PT].
  assert (E33 : Forall (fun t => R (fst (fst t)) (snd t)) T3) by (eapply Permutation_Forall; eassumption).
  clear - FR Q E3' E33. revert T3 Q E33. induction E3' as [|[[x b] c] T' H F IH]; intros [|[[x3 b3] c3] T3] Q G; cbn in Q; try discriminate; [reflexivity|].
  inversion G; subst. injection Q as -> -> Q. cbn in *. rewrite (FR _ _ _ H H2). f_equal. auto.
Qed.
Lemma countb_perm A (f : A -> bool) l l' : Permutation l l' -> countb f l = countb f l'.
Proof. intro P. unfold countb. apply Permutation_length, filter_perm, P. Qed.
Lemma zip_combine A B (l : list A) (m : list B) : zip l m = combine l m.
Proof. reflexivity. Qed.
Lemma f1_of_perm y p y' p' c : Permutation (combine y' p') (combine y p) -> f1_of y' p' c = f1_of y p c.
Proof. intro P. unfold f1_of. rewrite !zip_combine. rewrite !(countb_perm _ _ _ _ P). reflexivity. Qed.

Section Perm.
  Variables (y p y' p' : list Z).
  Hypotheses (L : List.length y = List.length p) (L' : List.length y' = List.length p') (P : Permutation (combine y' p') (combine y p)).
  Lemma perm_y : Permutation y' y.
  Proof. rewrite <- (map_fst_combine y p L), <- (map_fst_combine y' p' L'). apply Permutation_map, P. Qed.
  Lemma perm_p : Permutation p' p.
  Proof. rewrite <- (map_snd_combine y p L), <- (map_snd_combine y' p' L'). apply Permutation_map, P. Qed.
  Lemma perm_classes : zunique (y' ++ p') = zunique (y ++ p).
  Proof. apply zunique_ext. intro x. rewrite !in_app_iff. split; (intros [H|H]; [left|right]); eapply Permutation_in; try eassumption; (apply perm_y || apply perm_p || apply Permutation_sym, perm_y || apply Permutation_sym, perm_p). Qed.
  Lemma f1_weighted_perm : f1_weighted y' p' = f1_weighted y p.
  Proof.
    unfold f1_weighted. rewrite perm_classes, (Permutation_length perm_y). f_equal. f_equal. apply map_ext. intro c. rewrite (f1_of_perm _ _ _ _ c P). f_equal. f_equal.
    unfold count_class. apply countb_perm, perm_y.
  Qed.
  Lemma f1_binary_perm : f1_binary y' p' = f1_binary y p.
  Proof. unfold f1_binary. rewrite perm_classes, (f1_of_perm _ _ _ _ 1%Z P). reflexivity. Qed.
  Lemma fidelity_perm : fdt_fidelity y' p' = fdt_fidelity y p.
  Proof. unfold fdt_fidelity. rewrite f1_weighted_perm, f1_binary_perm. replace (zunique y') with (zunique y); [reflexivity|]. apply zunique_ext. intro x. split; intro H; eapply Permutation_in; try eassumption; [apply Permutation_sym|]; apply perm_y. Qed.
End Perm.
Lemma perm_rows (X X' : list (list cell)) (y y' : list Z) : List.length X = List.length y -> List.length X' = List.length y' -> Permutation (combine X' y') (combine X y) -> Permutation X' X.
Proof. intros L L' P. rewrite <- (map_fst_combine X y L), <- (map_fst_combine X' y' L'). apply Permutation_map, P. Qed.
Lemma readable_perm vars X X' : Permutation X' X -> readable vars X -> readable vars X'.
Proof. intros P R row H. apply R. eapply Permutation_in; eassumption. Qed.

(** the state after fit - explanation, explained class, fidelity - and the exception, if any, are the same for every order of the rows *)
Theorem C144_fdt : forall ord same parse mixed s a vars X y X' y', n_vars (a_nb a) = Ok vars -> n_X (a_nb a) = Ok X -> n_y (a_nb a) = Ok y ->
  (forall p l, Permutation (ord p l) l) -> distinct_names vars -> (forall v, In v vars -> fv_sets v <> []) ->
  (forall th, k_threshold (a_kw a) = Some th -> (0 < th)%R) -> readable vars X ->
  List.length X = List.length y -> List.length X' = List.length y' -> Permutation (combine X' y') (combine X y) ->
  fdt_fit ord same parse mixed s (fdt_call_with a X' y') = fdt_fit ord same parse mixed s a.
Proof.
  intros ord same parse mixed s a vars X y X' y' HV HX HY Ho DN NE TH RX HL HL' P.
  set (cfg := fdt_config vars (a_kw a)). assert (Hth : (0 < f_threshold cfg)%R).
  { unfold cfg, fdt_config. cbn [f_threshold]. destruct (k_threshold (a_kw a)) as [th|]; cbn [or_default]; [apply TH; reflexivity|lra]. }
  destruct y as [|y0 yr].
  { destruct X; [|discriminate]. apply Permutation_sym, Permutation_nil in P. destruct X' as [|x X']; destruct y' as [|z y']; try discriminate. destruct a as [i t n nu f c k]. destruct n as [nv ni nd nX ny nXM]. cbn in *. subst. reflexivity. }
  set (y := y0 :: yr) in *. assert (Hy : y <> []) by discriminate.
  destruct (C25_training_total cfg ord X y fresh_root Ho DN HL Hy RX (wide_of_readable _ _ NE RX) Hth) as [t FT].
  destruct (C110_fdt_row_order cfg ord X y X' y' t HL HL' P FT) as (t' & FT' & (_ & PR & RU)).
  assert (T : trained cfg ord X y t) by (split; [assumption|]; split; [assumption|]; split; [left; assumption|assumption]).
  destruct (C27_predict_maximal_vote cfg ord X y t X T NE RX) as (px & PX & FX).
  destruct (C27_predict_maximal_vote cfg ord X y t X' T NE (readable_perm _ _ _ (perm_rows _ _ _ _ HL HL' P) RX)) as (px' & PX' & FX').
  assert (Q : Permutation (combine y' px') (combine y px)).
  { apply (labelled_perm _ _ _ (fun row c => best_class (zunique y) (row_support cfg t row) c)) with (X := X) (X' := X'); try assumption. intros row c c' H H'. exact (@best_class_fun _ _ _ _ H H'). }
  assert (Ly : List.length y = List.length px) by (rewrite <- HL; clear - FX; induction FX; cbn; congruence). assert (Ly' : List.length y' = List.length px') by (rewrite <- HL'; clear - FX'; induction FX'; cbn; congruence).
  unfold fdt_fit, fdt_call_with, other_rows. cbn [a_instance a_target a_nb a_num a_factual a_counterfactual a_kw n_vars n_instance n_decoded n_X n_y n_XM]. rewrite HV, HX, HY.
  destruct (check_methods _ _ _ _) as [fc|]; [|reflexivity]. cbn [tryS]. destruct (n_instance _) as [m|]; [|reflexivity]. cbn [tryS]. destruct (n_decoded _) as [dec|]; [|reflexivity]. cbn [tryS].
  destruct (d_args _ _) as [da|]; [|reflexivity]. cbn [tryS]. fold cfg. rewrite FT, FT'. cbn [tryS]. rewrite PR, PX, PX'. cbn [tryS]. rewrite (fidelity_perm _ _ _ _ Ly Ly' Q).
  destruct (fdt_fidelity y px) as [fid|]; [|reflexivity]. cbn [tryS]. change (to_rule_based_system t' false false) with (tree_rules t' 0). change (to_rule_based_system t false false) with (tree_rules t 0). rewrite RU, PR. reflexivity.
Qed.
Theorem C144_fbdt : forall psort s a vars X y X' y', n_vars (ba_nb a) = Ok vars -> n_X (ba_nb a) = Ok X -> n_y (ba_nb a) = Ok y ->
  (forall l, Permutation (psort l) l) -> distinct_names vars -> (forall v, In v vars -> fv_sets v <> []) ->
  (forall th, k_threshold (ba_kw a) = Some th -> (0 < th)%R) -> readable vars X ->
  List.length X = List.length y -> List.length X' = List.length y' -> Permutation (combine X' y') (combine X y) ->
  fbdt_fit psort s (fbdt_call_with a X' y') = fbdt_fit psort s a.
Proof.
  intros psort s a vars X y X' y' HV HX HY Ho DN NE TH RX HL HL' P.
  set (cfg := fdt_config vars (ba_kw a)). assert (Hth : (0 < f_threshold cfg)%R).
  { unfold cfg, fdt_config. cbn [f_threshold]. destruct (k_threshold (ba_kw a)) as [th|]; cbn [or_default]; [apply TH; reflexivity|lra]. }
  destruct y as [|y0 yr].
  { destruct X; [|discriminate]. apply Permutation_sym, Permutation_nil in P. destruct X' as [|x X']; destruct y' as [|z y']; try discriminate. destruct a as [i t n f c k]. destruct n as [nv ni nd nX ny nXM]. cbn in *. subst. reflexivity. }
  set (y := y0 :: yr) in *. assert (Hy : y <> []) by discriminate.
  destruct (C32_training_total cfg psort X y Ho DN HL Hy NE RX (wide_of_readable _ _ NE RX) Hth) as (h & t & FT).
  assert (T : btrained cfg psort X y t) by (split; [assumption|]; split; [assumption|]; exists h; assumption).
  destruct (C110_fbdt_row_order cfg psort X y X' y' t HL HL' P T) as (t' & (_ & _ & h' & FT') & (_ & PR & RU)).
  destruct (C33_predict_maximal_vote cfg psort X y t X T RX) as (px & PX & FX).
  destruct (C33_predict_maximal_vote cfg psort X y t X' T (readable_perm _ _ _ (perm_rows _ _ _ _ HL HL' P) RX)) as (px' & PX' & FX').
  assert (Q : Permutation (combine y' px') (combine y px)).
  { apply (labelled_perm _ _ _ (fun row c => best_class (zunique y) (brow_support cfg t row) c)) with (X := X) (X' := X'); try assumption. intros row c c' H H'. exact (@best_class_fun _ _ _ _ H H'). }
  assert (Ly : List.length y = List.length px) by (rewrite <- HL; clear - FX; induction FX; cbn; congruence). assert (Ly' : List.length y' = List.length px') by (rewrite <- HL'; clear - FX'; induction FX'; cbn; congruence).
  unfold fbdt_fit, fbdt_call_with, other_rows. cbn [ba_instance ba_target ba_nb ba_factual ba_counterfactual ba_kw n_vars n_instance n_decoded n_X n_y n_XM]. rewrite HV, HX, HY.
  destruct (check_methods _ _ _ _) as [fc|]; [|reflexivity]. cbn [tryS]. destruct (n_instance _) as [m|]; [|reflexivity]. cbn [tryS].
  fold cfg. rewrite FT, FT'. cbn [tryS snd]. rewrite PR, PX, PX'. cbn [tryS]. rewrite (f1_binary_perm _ _ _ _ Ly Ly' Q).
  destruct (f1_binary y px) as [fid|]; [|reflexivity]. cbn [tryS]. unfold to_rule_based_system_b. rewrite RU, PR. reflexivity.
Qed.
Print Assumptions C144_fdt. Print Assumptions C144_fbdt.
