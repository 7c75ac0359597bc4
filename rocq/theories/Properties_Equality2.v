(** * C102-C104 continued: == is an equivalence on all trees, and what == of rules and sets looks at *)
From Verif Require Import Prelude M_Fuzzy M_Discretize M_Rule M_FDT M_FBDT M_ID3 S_Rule S_FDT S_FBDT P_FuzzySet P_FuzzyVar P_Entropy P_FDT P_FDT2 P_FDT3 P_FDT4 P_FBDT2 P_FBDT3 P_Counterfactual Properties_FDT Properties_FBDT M_Equality P_Equality Properties_Equality.
Unset Implicit Arguments.
Open Scope string_scope. Open Scope list_scope. Open Scope Qc_scope.

(** the class dictionaries of an FBDT tree have distinct keys, as all Python dictionaries do *)
Fixpoint bdistinct_classes (t : btree) : Prop :=
  let 'BTree _ cs cv _ _ _ _ _ := t in match cv with Some d => NoDup (dkeys d) | None => True end /\ fold_right (fun c P => bdistinct_classes c /\ P) True cs.
Lemma btree_eqb_refl t : bdistinct_classes t -> btree_eqb t t = true.
Proof.
  induction t as [l cs cv lv va vr mu ig IH] using btree_ind'. cbn [bdistinct_classes]. intros (N & F). rewrite fold_and in F. apply btree_eqb_unfold. splits; try reflexivity; [|apply class_eqb_refl; exact N].
  induction IH as [|x cs IHx IH IHcs]; constructor; inversion F; auto.
Qed.
Lemma btree_eqb_sym t : forall u, bdistinct_classes t -> bdistinct_classes u -> btree_eqb t u = true -> btree_eqb u t = true.
Proof.
  induction t as [l cs cv lv va vr mu ig IH] using btree_ind'. intros [l' cs' cv' lv' va' vr' mu' ig']. cbn [bdistinct_classes]. intros (N & F) (N' & F') H. rewrite fold_and in F, F'. apply btree_eqb_unfold in H. destruct H as (-> & C & K & -> & -> & ->).
  apply btree_eqb_unfold. splits; try reflexivity; [|apply class_eqb_sym; assumption].
  revert IH F F'. induction C as [|x z a b E C IHC]; intros IH F F'; constructor; inversion IH; subst; inversion F; subst; inversion F'; subst; auto.
Qed.
Lemma btree_eqb_trans t : forall u w, bdistinct_classes t -> bdistinct_classes u -> bdistinct_classes w -> btree_eqb t u = true -> btree_eqb u w = true -> btree_eqb t w = true.
Proof.
  induction t as [l cs cv lv va vr mu ig IH] using btree_ind'. intros [l' cs' cv' lv' va' vr' mu' ig'] [l2 cs2 cv2 lv2 va2 vr2 mu2 ig2]. cbn [bdistinct_classes]. intros (N & F) (N' & F') (N2 & F2) H H'. rewrite fold_and in F, F', F2. apply btree_eqb_unfold in H, H'. destruct H as (-> & C & K & -> & -> & ->). destruct H' as (-> & C' & K' & -> & -> & ->).
  apply btree_eqb_unfold. splits; try reflexivity; [|exact (class_eqb_trans _ _ _ N N' N2 K K')].
  revert cs2 C' F2 IH F F'. induction C as [|x z a b E C IHC]; intros cs2 C' F2 IH F F'; inversion C'; subst; constructor; inversion IH; subst; inversion F; subst; inversion F'; subst; inversion F2; subst; eauto.
Qed.
Theorem C102_fbdt_equivalence : forall t u w, bdistinct_classes t -> bdistinct_classes u -> bdistinct_classes w ->
  btree_eqb t t = true /\ (btree_eqb t u = true -> btree_eqb u t = true) /\ (btree_eqb t u = true -> btree_eqb u w = true -> btree_eqb t w = true).
Proof. intros t u w T U W. split; [apply btree_eqb_refl, T|]. split; [apply btree_eqb_sym; assumption|]. apply btree_eqb_trans; assumption. Qed.
(** ID3 trees compare equal exactly if they agree in everything *)
Theorem C102_id3_identical : forall fs fs' t u, itree_eqb fs fs' t u = true <-> fs = fs' /\ t = u.
Proof. intros. unfold itree_eqb. rewrite andb_true_iff, itree_eqb_eq, eqb_eq. tauto. Qed.
(** rules compare equal exactly if antecedent, consequent and weight agree *)
Theorem C103_compared : forall r s, prule_eqb r s = true <-> p_ant r = p_ant s /\ p_cons r = p_cons s /\ p_weight r = p_weight s.
Proof. exact prule_eqb_spec. Qed.
(** sets compare equal exactly if kind, name, points or value and flag agree *)
Theorem C104_compared : forall a b, fset_eqb a b = true <->
  (exists n p q r f, a = FC (mkC n p q r f) /\ b = FC (mkC n p q r f)) \/ (exists n v, a = FD n v /\ b = FD n v).
Proof.
  intros a b. rewrite fset_eqb_spec. split.
  - intros ->. destruct b as [[n p q r f]|n v]; [left|right]; repeat eexists.
  - intros [(n & p & q & r & f & -> & ->)|(n & v & -> & ->)]; reflexivity.
Qed.
Example C102_ex2 : bdistinct_classes ex_btree /\ btree_eqb ex_btree ex_btree = true.
Proof. split; [|vm_compute; reflexivity]. vm_compute. repeat (split || constructor || (intros [H|[]]; discriminate) || intros []). Qed.
Print Assumptions C102_fbdt_equivalence. Print Assumptions C102_id3_identical. Print Assumptions C103_compared. Print Assumptions C104_compared.
