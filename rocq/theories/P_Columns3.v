(** * Proofs: column order without ties (C125) *)
From Verif Require Import Prelude M_Fuzzy M_Discretize P_FuzzySet P_FuzzyVar P_Entropy M_Rule M_FDT S_FDT P_FDT P_FDT3 P_Degrees P_Rows3 M_ID3 P_Equality S_Columns P_Columns.
From Coq Require Import Reals Lra.
Local Notation eqb := Prelude.eqb.
Set Implicit Arguments.
Open Scope Qc_scope.

Definition sle (a b : string) : bool := negb (String.ltb b a).
Lemma sle_total a b : sle a b = true \/ sle b a = true.
Proof.
  unfold sle. destruct (String.ltb b a) eqn:E; [|left; reflexivity]. right. destruct (String.ltb a b) eqn:F; [|reflexivity]. assert (Q := sltb_trans _ _ _ E F). rewrite sltb_irrefl in Q. discriminate.
Qed.
Lemma sle_trans a b c : sle a b = true -> sle b c = true -> sle a c = true.
Proof.
  unfold sle. intros H1 H2. apply negb_true_iff in H1, H2. apply negb_true_iff. destruct (String.ltb c a) eqn:E; [exfalso|reflexivity].
  destruct (String.ltb a b) eqn:F; [rewrite (sltb_trans _ _ _ E F) in H2; discriminate|]. assert (a = b) by (apply sltb_total; assumption). subst b. congruence.
Qed.
Lemma sle_antisym a b : sle a b = true -> sle b a = true -> a = b.
Proof. unfold sle. intros H1 H2. apply negb_true_iff in H1, H2. apply sltb_total; assumption. Qed.
Lemma sorted_perm_eq l l' : StronglySorted (fun a b => sle a b = true) l -> StronglySorted (fun a b => sle a b = true) l' -> Permutation l l' -> l = l'.
Proof.
  intro H. revert l'. induction H as [|x l Hl IH Hf]; intros l' H' P; [apply Permutation_nil in P; auto|].
  destruct H' as [|x' l' Hl' Hf']; [apply Permutation_sym, Permutation_nil in P; discriminate|].
  assert (x = x').
  { rewrite Forall_forall in Hf, Hf'. assert (I : In x (x' :: l')) by (apply (Permutation_in _ P); left; reflexivity). assert (I' : In x' (x :: l)) by (apply (Permutation_in _ (Permutation_sym P)); left; reflexivity).
    destruct I as [->|I]; [reflexivity|]. destruct I' as [->|I']; [reflexivity|]. apply sle_antisym; auto. }
  subst x'. f_equal. apply IH; [assumption|]. apply (Permutation_cons_inv P).
Qed.
Definition by_name (p : list (nat * nat)) (l : list string) : list string := sort_by sle l.
Lemma by_name_perm p l : Permutation (by_name p l) l.
Proof. apply Permutation_sym, sort_by_perm. Qed.
Lemma by_name_same p p' l l' : Permutation l l' -> by_name p' l' = by_name p l.
Proof.
  intro P. unfold by_name. apply sorted_perm_eq; try (apply sort_by_sorted; [exact sle_total|exact sle_trans]).
  eapply Permutation_trans; [apply Permutation_sym, sort_by_perm|]. eapply Permutation_trans; [apply Permutation_sym, P|apply sort_by_perm].
Qed.

Lemma renumber_back pi sigma : (forall a, sigma (pi a) = a) -> forall t, renumber sigma (renumber pi t) = t.
Proof.
  intro H. induction t as [l cs cv lv va vr mu IH] using tree_ind'. cbn [renumber]. rewrite map_map.
  replace (map (fun x => renumber sigma (renumber pi x)) cs) with cs; [|symmetry; induction IH as [|c cs Hc IH IHc]; [reflexivity|cbn [map]; rewrite Hc, IHc; reflexivity]].
  destruct va as [[a i]|]; cbn [option_map fst snd]; [rewrite H|]; reflexivity.
Qed.
Lemma renumber_id3_back pi sigma : (forall a, sigma (pi a) = a) -> forall t, renumber_id3 sigma (renumber_id3 pi t) = t.
Proof.
  intro H. induction t as [v l cs sp c cc lv er nl IH] using itree_ind'. cbn [renumber_id3]. rewrite map_map.
  replace (map (fun x => renumber_id3 sigma (renumber_id3 pi x)) cs) with cs; [|symmetry; induction IH as [|t cs Hc IH IHc]; [reflexivity|cbn [map]; rewrite Hc, IHc; reflexivity]].
  destruct v as [a|]; cbn [option_map]; [rewrite H|]; reflexivity.
Qed.
Lemma path_back pi sigma p : (forall a, sigma (pi a) = a) -> renumber_path sigma (renumber_path pi p) = p.
Proof. intro H. unfold renumber_path. induction p as [|[a i] p IH]; [reflexivity|]. cbn [map fst snd]. rewrite H, IH. reflexivity. Qed.
Lemma move_back vars' cfg vars : f_vars cfg = vars -> move_vars vars (move_vars vars' cfg) = cfg.
Proof. intros <-. destruct cfg; reflexivity. Qed.
Lemma move_features_back f' cfg : move_features (i_features cfg) (move_features f' cfg) = cfg.
Proof. destruct cfg; reflexivity. Qed.
Lemma moved_table_back pi sigma X X' : (forall a, pi (sigma a) = a) -> moved_table pi X X' -> moved_table sigma X' X.
Proof. intros H M. induction M as [|r r' X X' R M IH]; constructor; [apply (@moved_back _ pi sigma); assumption|assumption]. Qed.

Section Gain.
  Variable pi : nat -> nat.
  Variables vars vars' : list fvar.
  Hypothesis HV : moved pi vars vars'.
  Variables X X' : list (list cell).
  Hypothesis HX : moved_table pi X X'.
  Lemma activation_moved row row' p : moved pi row row' -> activation qmin vars' row' (renumber_path pi p) = activation qmin vars row p.
  Proof.
    intro M. unfold activation, renumber_path. generalize 1 as z. induction p as [|[a i] p IH]; intro z; [reflexivity|]. cbn [map fold_left fst snd]. rewrite (@degree_moved pi vars vars' HV _ _ a i M). apply IH.
  Qed.
  Lemma acts_moved p : acts vars' X' (renumber_path pi p) = acts vars X p.
  Proof. unfold acts. clear - HX HV. induction HX as [|r r' Y Y' R M IH]; [reflexivity|]. cbn [map]. rewrite (activation_moved p R), IH by assumption. reflexivity. Qed.
  Lemma gain_moved y p a : info_gain vars' X' y (renumber_path pi p) (pi a) = info_gain vars X y p a.
  Proof.
    assert (A : forall i, renumber_path pi p ++ [(pi a, i)] = renumber_path pi (p ++ [(a, i)])) by (intro i; unfold renumber_path; rewrite map_app; reflexivity).
    unfold info_gain, mass. rewrite HV, acts_moved. do 2 f_equal. f_equal. apply map_ext. intro i. rewrite A, acts_moved. reflexivity.
  Qed.
  Lemma untested_moved p a : bijective pi -> untested vars' (renumber_path pi p) (pi a) <-> untested vars p a.
  Proof.
    intros (sigma & H1 & H2). unfold untested.
    assert (L : (pi a < List.length vars')%nat <-> (a < List.length vars)%nat) by (rewrite <- !nth_error_Some, HV; reflexivity).
    assert (I : In (pi a) (map fst (renumber_path pi p)) <-> In a (map fst p)).
    { unfold renumber_path. rewrite map_map. cbn [fst]. split; intro H; apply in_map_iff in H; destruct H as [[b i] [E H]]; cbn [fst] in E.
      - apply (f_equal sigma) in E. rewrite !H1 in E. subst b. apply in_map_iff. exists (a, i). auto.
      - subst b. apply in_map_iff. exists (a, i). auto. }
    rewrite L, I. reflexivity.
  Qed.
End Gain.
