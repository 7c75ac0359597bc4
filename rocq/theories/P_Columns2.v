(** * Proofs: the order of the columns for ID3 (C125) *)
From Verif Require Import Prelude M_Fuzzy M_Discretize P_FuzzySet P_FuzzyVar P_Entropy M_Rule M_FDT P_FDT P_Degrees M_ID3 S_ID3 P_ID3 P_ID3b P_ID3c P_Equality S_Columns P_Columns.
From Coq Require Import Reals Lra.
Local Notation eqb := Prelude.eqb.
Set Implicit Arguments.
Open Scope Qc_scope.

(** a node without a tested feature has no values to compare with *)
Fixpoint named (t : itree) : Prop :=
  let 'ITree v _ cs sp _ _ _ _ _ := t in (v = None -> sp = []) /\ (fix all (l : list itree) : Prop := match l with [] => True | c :: l' => named c /\ all l' end) cs.
Lemma named_all v l cs sp c cc lv er nl : named (ITree v l cs sp c cc lv er nl) <-> (v = None -> sp = []) /\ Forall named cs.
Proof.
  cbn [named]. apply and_iff_compat_l. induction cs as [|t cs IH]; [split; [constructor|trivial]|]. rewrite Forall_cons_iff, <- IH. reflexivity.
Qed.

Section ID3.
  Variable pi : nat -> nat.
  Hypothesis HB : bijective pi.
  Variable cfg : id3_cfg.
  Variable features' : list string.
  Hypothesis HF : moved pi (i_features cfg) features'.
  Hypothesis HN : NoDup (i_features cfg).
  Let cfg' := move_features features' cfg.
  Lemma features_perm : Permutation (i_features cfg) features'.
  Proof. exact (moved_perm HB HF). Qed.
  Lemma i_positions_miss (l : list string) n : ~ In n l -> dget n (i_positions l) = None.
  Proof.
    intro H. apply dget_None. intro Q. apply H. unfold i_positions in Q. rewrite dict_of_keys_In in Q. rewrite map_map in Q. cbn [fst] in Q.
    rewrite (map_enumerate (fun x => x)) in Q. rewrite map_id in Q. exact Q.
  Qed.
  Lemma i_positions_moved n : dget n (i_positions features') = option_map pi (dget n (i_positions (i_features cfg))).
  Proof.
    assert (P := features_perm). destruct (in_dec string_dec n (i_features cfg)) as [I|I].
    - apply In_nth_error in I. destruct I as [a Ha]. rewrite (i_positions_get _ HN Ha). cbn [option_map].
      apply (@i_positions_get features' (pi a) n (Permutation_NoDup P HN)). rewrite HF. exact Ha.
    - rewrite !i_positions_miss; [reflexivity|assumption|]. intro Q. apply I. apply (Permutation_in _ (Permutation_sym P) Q).
  Qed.
  Definition rebest (b : option (nat * list cell) * R) : option (nat * list cell) * R := (option_map (fun p => (pi (fst p), snd p)) (fst b), snd b).
  Lemma best_moved SP SP' X X' y classes l : moved pi SP SP' -> moved_table pi X X' ->
    best_feature (i_positions features') SP' X' y classes l = rmap rebest (best_feature (i_positions (i_features cfg)) SP X y classes l).
  Proof.
    intros HS HX. unfold best_feature. rewrite <- (Forall2_length HX). change (None, (-1)%R) with (rebest (None, (-1)%R)) at 1. generalize (@None (nat * list cell), (-1)%R) as b.
    induction l as [|n l IH]; intro b; [reflexivity|]. cbn [foldM]. rewrite i_positions_moved.
    destruct (dget n (i_positions (i_features cfg))) as [i|]; cbn [option_map ret_opt bind rmap]; [|reflexivity]. rewrite (column_moved i HX).
    destruct (column X i) as [col|]; cbn [bind rmap]; [|reflexivity]. rewrite HS. destruct (nth_error SP i) as [spl|]; cbn [ret_opt bind rmap]; [|reflexivity].
    destruct (negb (Nat.eqb (List.length col) (List.length y))); cbn [bind rmap]; [reflexivity|]. cbn [rebest snd].
    destruct (Rltb (snd b) _); cbn [bind]; [|rewrite <- IH; reflexivity].
    change (Some (pi i, spl), id3_gain classes col y spl (List.length X)) with (rebest (Some (i, spl), id3_gain classes col y spl (List.length X))). rewrite <- IH. reflexivity.
  Qed.
  Lemma rows_moved (s : cell) : forall col X X' (y : list Z), moved_table pi X X' ->
    moved_table pi (map fst (map snd (filter (fun p => eqb (fst p) s) (zip col (zip X y))))) (map fst (map snd (filter (fun p => eqb (fst p) s) (zip col (zip X' y))))) /\
    map snd (map snd (filter (fun p => eqb (fst p) s) (zip col (zip X y)))) = map snd (map snd (filter (fun p => eqb (fst p) s) (zip col (zip X' y)))).
  Proof.
    induction col as [|v col IH]; intros X X' y M; [split; [constructor|reflexivity]|]. destruct M as [|r r' X X' R M]; [split; [constructor|reflexivity]|].
    destruct y as [|c y]; [split; [constructor|reflexivity]|]. unfold zip. cbn [combine filter fst]. destruct (IH X X' y M) as [A B]. destruct (eqb v s); [|split; assumption].
    cbn [map fst snd]. split; [constructor; assumption|f_equal; assumption].
  Qed.
  Variable cls : list Z -> list Z.
  Variable fts : list string -> list string.
  Lemma id3_moved SP SP' yc : moved pi SP SP' -> forall fuel X X' y t depth erased, moved_table pi X X' ->
    id3_partial_fit fuel cfg' cls fts SP' yc X' y (renumber_id3 pi t) depth erased = rmap (renumber_id3 pi) (id3_partial_fit fuel cfg cls fts SP yc X y t depth erased).
  Proof.
    intro HS. induction fuel as [|fuel IH]; intros X X' y t depth erased HX; [reflexivity|]. cbn [id3_partial_fit]. cbv zeta. rewrite <- (Forall2_length HX).
    destruct (max_by _ _) as [[c k]|]; [|destruct (nth_error yc 0); [destruct t|]; reflexivity].
    destruct (Nat.eqb (List.length X) 0); [reflexivity|]. change (i_max_depth cfg') with (i_max_depth cfg). change (i_min_examples cfg') with (i_min_examples cfg).
    destruct (Z.leb (i_max_depth cfg) depth); [destruct t; reflexivity|]. destruct (Z.ltb (Z.of_nat (List.length X)) (i_min_examples cfg)); [destruct t; reflexivity|].
    change (i_features cfg') with features'. rewrite (@best_moved SP SP' X X' y (cls y) (fts erased) HS HX).
    destruct (best_feature (i_positions (i_features cfg)) SP X y (cls y) (fts erased)) as [[[[i spl]|] g]|]; cbn [rmap bind rebest fst snd option_map]; [| |reflexivity].
    - rewrite HF. destruct (nth_error (i_features cfg) i) as [name|]; cbn [ret_opt bind rmap]; [|reflexivity].
      match goal with |- bind ?m' _ = rmap _ (bind ?m _) => assert (Q : m' = rmap (map (fun cn => (renumber_id3 pi (fst cn), snd cn))) m) end.
      { clear - IH HX. induction spl as [|s spl IHs]; [reflexivity|]. cbn [mapM]. rewrite (column_moved i HX) at 1.
        match goal with |- bind ?s' _ = rmap _ (bind ?s _) => assert (Q : s' = rmap (fun cn => (renumber_id3 pi (fst cn), snd cn)) s) end.
        { destruct (column X i) as [col|]; cbn [bind rmap]; [|reflexivity]. destruct (@rows_moved s col X X' y HX) as [A B]. revert A B.
          generalize (map snd (filter (fun p => eqb (fst p) s) (zip col (zip X y)))), (map snd (filter (fun p => eqb (fst p) s) (zip col (zip X' y)))). intros rs rs' A B.
          assert (L := Forall2_length A). rewrite !map_length in L. destruct rs as [|r rs], rs' as [|r' rs']; try discriminate L; [reflexivity|].
          rewrite <- B. change new_itree with (renumber_id3 pi new_itree) at 1. rewrite (IH _ _ (map snd (r :: rs)) new_itree (depth + 1)%Z (erased ++ [name]) A). rewrite <- L.
          match goal with |- bind (rmap _ ?u) _ = _ => destruct u end; reflexivity. }
        rewrite Q, IHs. match goal with |- bind (rmap _ ?s) _ = _ => destruct s end; cbn [rmap bind]; [|reflexivity].
        match goal with |- bind (rmap _ ?s) _ = _ => destruct s end; reflexivity. }
      rewrite Q. match goal with |- bind (rmap _ ?m) _ = _ => destruct m as [ch|] end; cbn [rmap bind]; [|reflexivity].
      rewrite !map_map. cbn [fst snd].
      assert (EE : forall n, map (fun cn => i_error (renumber_id3 pi (fst cn)) * (qn (snd cn) / qn n)) ch = map (fun cn => i_error (fst cn) * (qn (snd cn) / qn n)) ch).
      { intro n. apply map_ext. intros [[] ?]. reflexivity. }
      rewrite EE. assert (NL : i_numleaf (renumber_id3 pi t) = i_numleaf t) by (destruct t; reflexivity). rewrite NL.
      change (i_prunning cfg') with (i_prunning cfg). change (i_th cfg') with (i_th cfg).
      destruct (i_prunning cfg); [destruct (qeqb _ 0); [reflexivity|destruct (qltb _ _)]|]; cbn [rmap]; unfold ileaf; cbn [renumber_id3 i_var i_children i_splits option_map]; rewrite !map_map; reflexivity.
    - assert (NE : forall l : list string, nth_error l (List.length l - 1) = None <-> l = []).
      { intros [|s l]; [split; reflexivity|]. split; [|discriminate]. intro H. apply nth_error_None in H. cbn in H. lia. }
      destruct (nth_error (i_features cfg) (List.length (i_features cfg) - 1)) as [name|] eqn:E1.
      + destruct (nth_error features' (List.length features' - 1)) as [name'|] eqn:E2.
        * cbn [ret_opt bind mapM rmap map]. assert (NL : i_numleaf (renumber_id3 pi t) = i_numleaf t) by (destruct t; reflexivity). rewrite NL.
          change (i_prunning cfg') with (i_prunning cfg). change (i_th cfg') with (i_th cfg).
          destruct (i_prunning cfg); [destruct (qeqb _ 0); [reflexivity|destruct (qltb _ _)]|]; reflexivity.
        * exfalso. apply NE in E2. assert (P := features_perm). rewrite E2 in P. apply Permutation_sym, Permutation_nil in P. rewrite P in E1. discriminate.
      + apply NE in E1. assert (P := features_perm). rewrite E1 in P. apply Permutation_nil in P. rewrite P. reflexivity.
  Qed.
  Lemma id3_fit_moved root X X' y t : moved_table pi X X' -> id3_fit cfg cls fts root X y = Ok t -> id3_fit cfg' cls fts (renumber_id3 pi root) X' y = Ok (renumber_id3 pi t).
  Proof.
    intros HX H. unfold id3_fit in *. change (i_features cfg') with features'.
    destruct (mapM (fun i => do col <- column X i; np_unique col) (seq 0 (List.length (i_features cfg)))) as [SP|] eqn:ES; cbn [bind] in H; [|discriminate].
    assert (L : List.length features' = List.length (i_features cfg)) by (symmetry; apply Permutation_length, features_perm).
    assert (LS := mapM_length _ _ ES). rewrite seq_length in LS.
    assert (C : forall i, (i < List.length (i_features cfg))%nat -> (do col <- column X i; np_unique col) = match nth_error SP i with Some u => Ok u | None => Err OutOfFuel end).
    { intros i Hi. apply mapM_ok in ES. assert (Q : nth_error (seq 0 (List.length (i_features cfg))) i = Some i) by (rewrite nth_error_nth' with (d := 0%nat) by (rewrite seq_length; assumption); rewrite seq_nth by assumption; reflexivity).
      destruct (Forall2_nth ES i Q) as (u & -> & Eu). exact Eu. }
    destruct HB as (sigma & H1 & H2).
    assert (IN : forall a, (pi a < List.length features')%nat <-> (a < List.length (i_features cfg))%nat) by (intro a; rewrite <- !nth_error_Some, HF; reflexivity).
    assert (C' : forall i, (i < List.length features')%nat -> (do col <- column X' i; np_unique col) = match nth_error SP (sigma i) with Some u => Ok u | None => Err OutOfFuel end).
    { intros i Hi. rewrite <- (H2 i) at 1. rewrite (column_moved (sigma i) HX). apply C. apply IN. rewrite H2. assumption. }
    destruct (@mapM_total nat (list cell) (fun i => do col <- column X' i; np_unique col) (seq 0 (List.length features'))) as [SP' ES'].
    { intros i Hi. apply in_seq in Hi. rewrite C' by lia. destruct (nth_error SP (sigma i)) as [u|] eqn:Q; [eauto|exfalso]. apply nth_error_None in Q.
      assert ((sigma i < List.length (i_features cfg))%nat) by (apply IN; rewrite H2; lia). lia. }
    rewrite ES'. cbn [bind].
    assert (HS : moved pi SP SP').
    { intro a. assert (LS' := mapM_length _ _ ES'). rewrite seq_length in LS'. destruct (Nat.lt_ge_cases a (List.length (i_features cfg))) as [A|A].
      - assert (A' := proj2 (IN a) A). apply mapM_ok in ES'.
        assert (Q : nth_error (seq 0 (List.length features')) (pi a) = Some (pi a)) by (rewrite nth_error_nth' with (d := 0%nat) by (rewrite seq_length; assumption); rewrite seq_nth by assumption; reflexivity).
        destruct (Forall2_nth ES' (pi a) Q) as (u & E & Eu). rewrite E. rewrite C' in Eu by assumption. rewrite H1 in Eu. destruct (nth_error SP a); [congruence|discriminate].
      - assert (~ (pi a < List.length features')%nat) by (intro Q; apply IN in Q; lia).
        rewrite (proj2 (nth_error_None SP' (pi a))) by lia. symmetry. apply nth_error_None. lia. }
    rewrite L. rewrite (@id3_moved SP SP' (zunique y) HS (S (List.length (i_features cfg))) X X' y root 0%Z [] HX), H. reflexivity.
  Qed.
End ID3.

(** ** prediction and rules *)
Lemma fit_named cfg cls fts SP yc : forall fuel X y t depth erased t', named t -> id3_partial_fit fuel cfg cls fts SP yc X y t depth erased = Ok t' -> named t'.
Proof.
  induction fuel as [|fuel IH]; intros X y t depth erased t' Nt H; [discriminate|]. cbn [id3_partial_fit] in H. cbv zeta in H.
  assert (LF : forall c cc e, named (ileaf t c cc depth e)).
  { intros c cc e. destruct t as [v l cs sp c0 cc0 lv er nl]. apply named_all. apply named_all in Nt. exact Nt. }
  destruct (max_by _ _) as [[c k]|]; [|destruct (nth_error yc 0); cbn [ret_opt bind] in H; [injection H as <-; apply LF|discriminate]].
  destruct (Nat.eqb _ 0); [discriminate|]. destruct (Z.leb _ _); [injection H as <-; apply LF|]. destruct (Z.ltb _ _); [injection H as <-; apply LF|].
  destruct (best_feature _ _ _ _ _ _) as [best|]; cbn [bind] in H; [|discriminate]. destruct (ret_opt IndexError _) as [name|]; cbn [bind] in H; [|discriminate].
  match type of H with bind ?m _ = _ => destruct m as [ch|] eqn:EC; [|discriminate] end. cbn [bind] in H.
  assert (FC : Forall named (map fst ch)).
  { apply mapM_ok in EC. apply Forall_forall. intros c' Hc. apply in_map_iff in Hc. destruct Hc as [[c1 n1] [<- Hc]]. cbn [fst].
    destruct (In_nth_error _ _ Hc) as [j Hj]. destruct (Forall2_nth_r EC j Hj) as (s & _ & Es).
    destruct (match option_map fst (fst best) with Some i => column X i | None => Ok [] end) as [col|]; cbn [bind] in Es; [|discriminate].
    destruct (map snd (filter _ _)) as [|r rs]; [injection Es as <- _; apply named_all; split; [reflexivity|constructor]|].
    match type of Es with bind ?m _ = _ => destruct m as [c2|] eqn:E2; [|discriminate] end. cbn [bind] in Es. injection Es as <- _. eapply IH; [|exact E2]. apply named_all. split; [reflexivity|constructor]. }
  assert (IN : forall l c cc lv er nl, named (ITree (option_map fst (fst best)) l (map fst ch) match fst best with Some (_, s) => s | None => [] end c cc lv er nl)).
  { intros. apply named_all. split; [|assumption]. destruct (fst best) as [[i s]|]; [discriminate|reflexivity]. }
  destruct (i_prunning cfg); [|injection H as <-; apply IN]. destruct (qeqb _ 0); [discriminate|]. destruct (qltb _ _); injection H as <-; apply IN.
Qed.
Lemma id3_predict_moved pi x x' : moved pi x x' -> forall t, named t -> id3_tree_predict (renumber_id3 pi t) x' = id3_tree_predict t x.
Proof.
  intro M. induction t as [v l cs sp c cc lv er nl IH] using itree_ind'. intro N. apply named_all in N. destruct N as [N1 N2]. cbn [renumber_id3 id3_tree_predict].
  destruct l; [reflexivity|]. destruct v as [i|]; [|rewrite (N1 eq_refl); reflexivity]. cbn [option_map]. rewrite M. destruct sp as [|s0 sp]; [reflexivity|].
  destruct (nth_error x i) as [w|]; cbn [ret_opt bind]; [|reflexivity]. generalize (s0 :: sp) as spl. clear N1. revert N2 IH. clear - M.
  induction cs as [|t cs IHc]; intros N2 IH [|s spl]; [reflexivity|reflexivity|reflexivity|]. cbn [map]. destruct (eqb w s).
  - inversion IH; subst. inversion N2; subst. auto.
  - apply IHc; [inversion N2; assumption|inversion IH; assumption].
Qed.
Lemma id3_rules_moved pi features features' : moved pi features features' -> forall t conds, named t -> id3_get_rules features' (renumber_id3 pi t) conds = id3_get_rules features t conds.
Proof.
  intro M. induction t as [v l cs sp c cc lv er nl IH] using itree_ind'. intros conds N. apply named_all in N. destruct N as [N1 N2]. cbn [renumber_id3 id3_get_rules].
  destruct l; [reflexivity|]. destruct v as [i|]; cbn [option_map].
  - rewrite M. clear N1. revert N2 IH sp. clear - M. induction cs as [|t cs IHc]; intros N2 IH [|s sp]; [reflexivity|reflexivity|reflexivity|]. cbn [map].
    destruct (nth_error features i) as [f|]; cbn [ret_opt bind]; [|reflexivity]. inversion IH; subst. inversion N2; subst. rewrite H1 by assumption. rewrite IHc by assumption. reflexivity.
  - rewrite (N1 eq_refl). destruct cs; reflexivity.
Qed.
