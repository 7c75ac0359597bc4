(** * Proofs about printed ID3 trees *)
From Verif Require Import Prelude M_Fuzzy M_Discretize M_Rule M_FDT M_ID3 M_Text M_Distr S_Rule S_ID3 S_Text P_FDT3 P_ID3 P_ID3b P_ID3c P_Equality P_Distr P_Text.
From Coq Require Import Ascii Reals.
Local Notation eqb := Prelude.eqb.
Set Implicit Arguments.
Open Scope string_scope.

Lemma nat_text_inj i j : nat_text i = nat_text j -> i = j.
Proof. intro H. apply (@art_name_inj "" i j). exact H. Qed.
Lemma digits_free n u : n = 10%nat \/ n = 45%nat -> ~ has n (DecimalString.NilEmpty.string_of_uint u).
Proof.
  intro N. induction u; cbn [DecimalString.NilEmpty.string_of_uint]; [intros []| ..]; rewrite has_cons; (intros [H|H]; [destruct N as [-> | ->]; discriminate|contradiction]).
Qed.
Lemma nat_text_free n i : n = 10%nat \/ n = 45%nat -> ~ has n (nat_text i).
Proof.
  intro N. unfold nat_text, DecimalString.NilZero.string_of_uint. destruct (Nat.to_uint i) eqn:E; try (rewrite <- E; apply digits_free; assumption).
  rewrite has_cons. intros [H|[]]. destruct N as [-> | ->]; discriminate.
Qed.

(** what predictions and rules read of a tree *)
Fixpoint ibare (t : itree) : itree :=
  let 'ITree v leaf cs sp c _ _ _ _ := t in
  if leaf then ITree None true [] [] c None 0 0 0 else ITree v false (map ibare cs) sp 0 None 0 0 0.
Lemma ibare_predict x t : id3_tree_predict (ibare t) x = id3_tree_predict t x.
Proof.
  induction t as [v l cs sp c cc lv e n IH] using itree_ind'. cbn [ibare]. destruct l; [reflexivity|]. cbn [id3_tree_predict]. destruct sp as [|s sp]; [reflexivity|].
  destruct (ret_opt _ _) as [w|]; [|reflexivity]. cbn [bind].
  change (walk x w (map ibare cs) (s :: sp) = walk x w cs (s :: sp)). generalize (s :: sp). clear - IH.
  induction IH as [|c cs Hc _ IH]; intro spl; [reflexivity|]. cbn [map]. destruct spl as [|s spl]; cbn [walk]; [reflexivity|].
  rewrite Hc. destruct (eqb w s); [reflexivity|]. apply IH.
Qed.
Lemma ibare_rules features t : forall conds, id3_get_rules features (ibare t) conds = id3_get_rules features t conds.
Proof.
  induction t as [v l cs sp c cc lv e n IH] using itree_ind'. intro conds. cbn [ibare]. destruct l; [reflexivity|].
  rewrite !rules_inner by reflexivity. cbn [i_var i_children i_splits]. revert sp. clear - IH.
  induction IH as [|c cs Hc _ IH]; intro spl; [reflexivity|]. cbn [map]. destruct spl as [|s spl]; cbn [rules_go]; [reflexivity|].
  destruct (ret_opt _ _) as [f|]; [|reflexivity]. cbn [bind]. rewrite Hc. destruct (id3_get_rules features c _); [|reflexivity]. cbn [bind]. rewrite IH. reflexivity.
Qed.

Section Text.
  Variables (features : list string) (sc : Z -> string) (sx : cell -> string) (sn : option (nat * nat) -> string) (okx : cell -> Prop).
  Hypothesis fnames : forall f, In f features -> f <> "" /\ ~ has 9 f /\ ~ has 10 f /\ ~ has 32 f.
  Hypothesis sc_inj : forall c d, sc c = sc d -> c = d.
  Hypothesis sc_free : forall c, ~ has 9 (sc c).
  Hypothesis sx_inj : forall a b, okx a -> okx b -> sx a = sx b -> a = b.
  Hypothesis sx_free : forall a, okx a -> ~ has 10 (sx a).
  Hypothesis sn_free : forall k, ~ has 10 (sn k).

  (** the shape of a trained tree *)
  Fixpoint iwf (t : itree) : Prop :=
    let 'ITree v leaf cs sp _ _ lv _ _ := t in
    if leaf then True else
    ((v = None /\ sp = [] /\ cs = []) \/ (exists i f, v = Some i /\ nth_error features i = Some f)) /\
    List.length cs = List.length sp /\ Forall okx sp /\ fold_right (fun c P => iwf c /\ P) True cs.
  Definition branch_name (v : option nat) : string := match v with Some i => nth i features "" | None => "" end.
  Definition var_text (v : option nat) : string := match v with Some i => nat_text i | None => "-1" end.
  Fixpoint itext (t : itree) : string :=
    let 'ITree v leaf cs sp c count lv _ _ := t in
    if leaf then tabs lv ++ "Class value: " ++ sc c ++ tab ++ "Counts: " ++ sn count
    else tabs lv ++ "Feature " ++ var_text v ++
      (fix go (ch : list itree) (spl : list cell) {struct ch} : string :=
        match ch, spl with
        | t' :: ch', s :: spl' => nl ++ tabs lv ++ branch_name v ++ " = " ++ sx s ++ nl ++ itext t' ++ go ch' spl'
        | _, _ => ""
        end) cs sp ++ nl ++ tabs lv.
  Definition branches (v : option nat) (lv : Z) : list itree -> list cell -> string :=
    fix go (ch : list itree) (spl : list cell) {struct ch} : string :=
        match ch, spl with
        | t' :: ch', s :: spl' => nl ++ tabs lv ++ branch_name v ++ " = " ++ sx s ++ nl ++ itext t' ++ go ch' spl'
        | _, _ => ""
        end.
  Lemma itext_inner v cs sp c count lv e n : itext (ITree v false cs sp c count lv e n) = tabs lv ++ "Feature " ++ var_text v ++ branches v lv cs sp ++ nl ++ tabs lv.
  Proof. reflexivity. Qed.
  Lemma itext_ok t : iwf t -> itree_text features sc sx sn t = Ok (itext t).
  Proof.
    induction t as [v l cs sp c cc lv e n IH] using itree_ind'. cbn [iwf]. destruct l; [reflexivity|]. intros (V & L & _ & W).
    rewrite (@fold_and _ iwf) in W. rewrite itext_inner. cbn [itree_text].
    assert (G : forall rf, cs = [] \/ rf = Ok (branch_name v) -> forall spl, List.length cs = List.length spl ->
      (fix go (ch : list itree) (spl : list cell) {struct ch} : res string :=
      match ch, spl with
      | [], _ => Ok ""
      | _, [] => Err IndexError
      | t' :: ch', s :: spl' =>
          do f <- rf;
          do ct <- itree_text features sc sx sn t';
          do rest <- go ch' spl';
          Ok (nl ++ tabs lv ++ f ++ " = " ++ sx s ++ nl ++ ct ++ rest)
      end) cs spl = Ok (branches v lv cs spl)).
    { clear - IH W. intros rf [-> | ->]; [intros [|s spl] L; [reflexivity|discriminate]|].
      induction cs as [|c cs IC]; intros [|s spl] L; try discriminate; [reflexivity|].
      inversion IH as [|? ? H1 H2]; subst. inversion W as [|? ? W1 W2]; subst.
      cbn [bind]. rewrite (H1 W1). cbn [bind]. rewrite IC; [|assumption|assumption|cbn in L; congruence]. reflexivity. }
    rewrite G; [reflexivity| |exact L]. destruct V as [(_ & _ & V)|(i & f & -> & Hf)]; [auto|]. right. rewrite Hf. cbn [ret_opt]. unfold branch_name. rewrite (nth_error_nth _ _ _ Hf). reflexivity.
  Qed.

  Definition after (r : string) : Prop := r = "" \/ exists r', r = nl ++ r'.
  Lemma after_stops r : after r -> P_Text.stops 10 r.
  Proof. intros [->|[r' ->]]; [left; reflexivity|right; exists r'; reflexivity]. Qed.
  Definition iinjective (t : itree) : Prop := forall t' r r', iwf t -> iwf t' -> after r -> after r' -> itext t ++ r = itext t' ++ r' -> ibare t = ibare t' /\ r = r'.
  Lemma name_head v : (exists i f, v = Some i /\ nth_error features i = Some f) -> exists c s, branch_name v = String c s /\ c <> ascii_of_nat 9 /\ c <> ascii_of_nat 10 /\ ~ has 32 (branch_name v).
  Proof.
    intros (i & f & -> & Hf). unfold branch_name. rewrite (nth_error_nth _ _ _ Hf). destruct (fnames _ (nth_error_In _ _ Hf)) as (A & B & C & D).
    destruct f as [|c s]; [contradiction|]. exists c, s. rewrite has_cons in B, C. split; [reflexivity|]. split; [tauto|]. split; [tauto|assumption].
  Qed.
  Lemma tail_vs_branch lv v r q : (exists i f, v = Some i /\ nth_error features i = Some f) -> after r -> tabs lv ++ r = tabs lv ++ branch_name v ++ q -> False.
  Proof.
    intros V A E. apply sapp_inv_head in E. destruct (name_head V) as (c & s & H & C9 & C10 & _). rewrite H in E. destruct A as [->|[r' ->]]; cbn in E; [discriminate E|]. injection E as E _. exact (C10 (eq_sym E)).
  Qed.
  Lemma branches_inj v lv cs : Forall iinjective cs -> (exists i f, v = Some i /\ nth_error features i = Some f) ->
    forall cs' sp sp' r r', Forall iwf cs -> Forall iwf cs' -> Forall okx sp -> Forall okx sp' -> List.length cs = List.length sp -> List.length cs' = List.length sp' ->
    after r -> after r' -> branches v lv cs sp ++ nl ++ tabs lv ++ r = branches v lv cs' sp' ++ nl ++ tabs lv ++ r' ->
    map ibare cs = map ibare cs' /\ sp = sp' /\ r = r'.
  Proof.
    intros I V. induction cs as [|c cs IC]; intros cs' sp sp' r r' W W' K K' L L' A A' E.
    - destruct sp; [|discriminate]. destruct cs' as [|c' cs'], sp' as [|s' sp']; try discriminate.
      + cbn [branches append] in E. injection E as E. apply sapp_inv_head in E. auto.
      + exfalso. cbn [branches] in E. rewrite !sapp_assoc in E. apply (sapp_inv_head nl) in E. exact (@tail_vs_branch lv v r _ V A E).
    - destruct sp as [|s sp]; [discriminate|]. destruct cs' as [|c' cs'], sp' as [|s' sp']; try discriminate.
      + exfalso. cbn [branches] in E. rewrite !sapp_assoc in E. apply (sapp_inv_head nl) in E. symmetry in E. exact (@tail_vs_branch lv v r' _ V A' E).
      + cbn [branches] in E. rewrite !sapp_assoc in E. apply (sapp_inv_head nl), sapp_inv_head, sapp_inv_head, (sapp_inv_head " = ") in E.
        inversion K as [|? ? K1 K2]; subst. inversion K' as [|? ? K1' K2']; subst. inversion I as [|? ? I1 I2]; subst.
        inversion W as [|? ? W1 W2]; subst. inversion W' as [|? ? W1' W2']; subst.
        destruct (@cut 10 (sx s) (sx s') _ _ (sx_free K1) (sx_free K1') E) as [E1 E2]. apply sx_inj in E1; [subst s'|assumption|assumption].
        assert (AA : forall cs sp r, after (branches v lv cs sp ++ nl ++ tabs lv ++ r)).
        { intros [|? ?] [|? ?] q; right; cbn [branches]; [eexists; reflexivity|eexists; reflexivity|eexists; reflexivity|]. rewrite sapp_assoc. eexists. reflexivity. }
        destruct (I1 c' _ _ W1 W1' (AA cs sp r) (AA cs' sp' r') E2) as [B E3].
        destruct (IC I2 cs' sp sp' r r') as (B' & -> & ->); try assumption; [cbn in L; congruence|cbn in L'; congruence|].
        cbn [map]. rewrite B, B'. auto.
  Qed.
  Lemma itext_inj t : iinjective t.
  Proof.
    induction t as [v l cs sp c cc lv e n IH] using itree_ind'. intros [v' l' cs' sp' c' cc' lv' e' n'] r r' W W' A A' E. destruct l, l'.
    - cbn [itext] in E. unfold tabs in E. rewrite !sapp_assoc in E. apply tabs_cut in E; [|discriminate|discriminate]. destruct E as (_ & _ & E). apply (sapp_inv_head "lass value: ") in E.
      destruct (@cut 9 (sc c) (sc c') _ _ (@sc_free c) (@sc_free c') E) as [E1 E2]. apply sc_inj in E1. subst c'. apply (sapp_inv_head "Counts: ") in E2.
      destruct (@cut_stop 10 (sn cc) (sn cc') r r' (@sn_free _) (@sn_free _) (after_stops A) (after_stops A') E2) as [_ ->]. auto.
    - exfalso. rewrite itext_inner in E. cbn [itext] in E. unfold tabs in E. rewrite !sapp_assoc in E. apply tabs_cut in E; [|discriminate|discriminate]. destruct E as (_ & E & _). discriminate.
    - exfalso. rewrite itext_inner in E. cbn [itext] in E. unfold tabs in E. rewrite !sapp_assoc in E. apply tabs_cut in E; [|discriminate|discriminate]. destruct E as (_ & E & _). discriminate.
    - rewrite !itext_inner in E. cbn [iwf] in W, W'. destruct W as (V & L & K & W), W' as (V' & L' & K' & W'). rewrite (@fold_and _ iwf) in W, W'.
      unfold tabs in E at 1. unfold tabs in E at 2. rewrite !sapp_assoc in E.
      assert (E0 := E). apply tabs_cut in E0; [|discriminate|discriminate]. destruct E0 as (N & _ & E0). apply (sapp_inv_head "eature ") in E0.
      assert (T : tabs lv' = tabs lv) by (unfold tabs; rewrite N; reflexivity).
      assert (ST : forall v lv cs sp q, P_Text.stops 10 (branches v lv cs sp ++ nl ++ q)).
      { intros v0 lv0 [|? ?] [|? ?] q; right; eexists; cbn [branches]; [reflexivity|reflexivity|reflexivity|]. rewrite !sapp_assoc. reflexivity. }
      assert (VF : forall v, ~ has 10 (var_text v)).
      { intros [i|]; [apply nat_text_free; auto|]. cbn. intros [H|[H|[]]]; discriminate. }
      destruct (@cut_stop 10 (var_text v) (var_text v') _ _ (VF v) (VF v') (ST _ _ _ _ _) (ST _ _ _ _ _) E0) as [Ev Eb].
      assert (v = v').
      { destruct v as [i|], v' as [j|]; cbn [var_text] in Ev; [apply nat_text_inj in Ev; congruence| | |reflexivity]; exfalso.
        - apply (@nat_text_free 45 i); [auto|]. rewrite Ev. left. reflexivity.
        - apply (@nat_text_free 45 j); [auto|]. rewrite <- Ev. left. reflexivity. }
      subst v'. cbn [ibare].
      assert (BT : forall cs sp, branches v lv' cs sp = branches v lv cs sp).
      { clear - T. induction cs as [|c cs IC]; intros [|s sp]; cbn [branches]; try reflexivity. rewrite T, IC. reflexivity. }
      rewrite BT, T in Eb.
      destruct V as [(-> & -> & ->)|V].
      + destruct V' as [(_ & -> & ->)|(i & f & V' & _)]; [|discriminate]. cbn [branches append] in Eb. injection Eb as Eb. apply sapp_inv_head in Eb. auto.
      + destruct (@branches_inj v lv cs IH V cs' sp sp' r r' W W' K K' L L' A A' Eb) as (B & -> & ->). rewrite B. auto.
  Qed.
End Text.

Lemma trained_iwf cfg cls fts root X y t (okx : cell -> Prop) : id3_trained cfg cls fts root X y t -> (forall i v, occurs X i v -> okx v) -> iwf (i_features cfg) okx t.
Proof.
  intros HT OK. destruct (root_trained HT) as (SP & C & F). destruct HT as (TB & SO & _).
  revert F. generalize (S (List.length (i_features cfg))) as fuel. intros fuel F.
  refine (@fit_rect cfg cls fts SP (zunique y) SO (cx_nodup C) (cx_some C) (cx_sp C) (fun _ _ _ _ r => iwf (i_features cfg) okx r) _ _ fuel _ _ _ _ _ (cx_fine C) (cx_rows C) F).
  - intros D t0 depth erased r c k _ _ _ _ L _ _ _. destruct r as [v l cs sp c' cc lv e n]. cbn in L. subst l. exact I.
  - intros D t0 depth erased r c k best children fl _ _ _ _ L _ _ _ P G V S Ch _ _ _ IH. destruct r as [v l cs sp c' cc lv e n].
    cbn [i_leaf i_var i_splits i_children] in L, V, S, Ch. subst l v sp cs. cbn [iwf].
    assert (GL : List.length (splits_of best) = List.length children) by (eapply grown_length; exact G). split; [|split; [rewrite map_length; congruence|split]].
    + destruct (best_form best) as [[i E]|[E E']].
      * right. destruct (@picked_index cfg SP (cx_sp C) _ _ _ i (splits_of best) P E) as (_ & _ & _ & f & _ & Hf). exists i, f. rewrite E. auto.
      * left. rewrite E, E'. unfold grown in G. rewrite E in G. rewrite G. auto.
    + destruct (best_form best) as [[i E]|[E E']]; [|rewrite E'; constructor].
      destruct (@picked_index cfg SP (cx_sp C) _ _ _ i (splits_of best) P E) as (_ & SPI & _ & _). apply Forall_forall. intros x Hx. apply (OK i). apply (cx_occurs C i x SPI). exact Hx.
    + rewrite (@fold_and _ (iwf (i_features cfg) okx)). apply Forall_forall. intros ch Hc. apply in_map_iff in Hc. destruct Hc as [cn [<- Hc]].
      destruct (In_nth_error _ _ Hc) as [j J]. destruct (best_form best) as [[i E]|[E E']].
      * destruct (@picked_index cfg SP (cx_sp C) _ _ _ i (splits_of best) P E) as (_ & _ & _ & f & _ & Hf).
        destruct (nth_error (splits_of best) j) as [s|] eqn:Ss.
        -- destruct (IH i (splits_of best) j s cn f E Ss J Hf) as [[_ ->]|(_ & _ & Q)]; [exact I|exact Q].
        -- exfalso. apply nth_error_None in Ss. assert (J' : (j < List.length children)%nat) by (apply nth_error_Some; congruence). lia.
      * exfalso. unfold grown in G. rewrite E in G. subst children. destruct Hc.
Qed.
