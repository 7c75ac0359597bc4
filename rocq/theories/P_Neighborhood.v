(** * Proofs about neighbourhoods: life cycle *)
From Verif Require Import Prelude M_Fuzzy M_Discretize M_Rule M_FDT M_Counterfactual P_Counterfactual M_Explainer S_Explainer P_Explainer P_FuzzyVar M_Neighborhood S_Neighborhood Properties_Explainer.
From Coq Require Import Reals.
Set Implicit Arguments.
Open Scope Qc_scope.

Definition X_of (o : outcome) : option table :=
  match o_decoded o, o_Z o, o_target o, o_df o with Ok _, Ok _, Ok _, Ok X => Some X | _, _, _, _ => None end.
Definition y_of (o : outcome) : option (list Z) :=
  match X_of o, o_y o with Some _, Ok y => Some y | _, _ => None end.
Lemma X_of_spec o X : X_of o = Some X <-> makes_X o X.
Proof.
  unfold X_of, makes_X. split.
  - destruct (o_decoded o) as [d|]; [|discriminate]. destruct (o_Z o) as [z|]; [|discriminate]. destruct (o_target o) as [[]|]; [|discriminate]. destruct (o_df o); [|discriminate].
    intro H. injection H as ->. split; [eauto|]. split; [eauto|]. split; reflexivity.
  - intros ([d ->] & [z ->] & -> & ->). reflexivity.
Qed.
Lemma y_of_spec o y : y_of o = Some y <-> makes_y o y.
Proof.
  unfold y_of, makes_y. split.
  - destruct (X_of o) as [X|] eqn:E; [|discriminate]. destruct (o_y o); [|discriminate]. intro H. injection H as ->. exists X. split; [apply X_of_spec; assumption|reflexivity].
  - intros (X & H & Hy). apply X_of_spec in H. rewrite H, Hy. reflexivity.
Qed.
Lemma fit_X k s o : nb_X (fst (fit_of k s o)) = orelse (X_of o) (nb_X s).
Proof. unfold X_of. destruct k; cbn; unfold sampling_fit, lore_fit; destruct o as [a b c d e f]; destruct a, b, c, d, e, f; reflexivity. Qed.
Lemma fit_y k s o : nb_y (fst (fit_of k s o)) = orelse (y_of o) (nb_y s).
Proof. unfold y_of, X_of. destruct k; cbn; unfold sampling_fit, lore_fit; destruct o as [a b c d e f]; destruct a, b, c, d, e, f; reflexivity. Qed.
Lemma fit_Xy k s o : nb_Xy s = true \/ y_of o <> None -> nb_Xy (fst (fit_of k s o)) = true.
Proof. unfold y_of, X_of. destruct k; cbn; unfold sampling_fit, lore_fit; destruct o as [a b c d e f]; destruct a, b, c, d, e, f; cbn; tauto. Qed.
Lemma fit_fuzzy k s o : nb_vars (fst (fit_of k s o)) = nb_vars s /\ nb_XM (fst (fit_of k s o)) = nb_XM s /\ nb_IM (fst (fit_of k s o)) = nb_IM s.
Proof. destruct k; cbn; unfold sampling_fit, lore_fit; destruct o as [a b c d e f]; destruct a, b, c, d, e, f; cbn; auto. Qed.

Section Fuzz.
  Variables (cut : string -> list Qc -> Z -> option (list Qc * Qc) * option (list Qc * Qc)) (show : Qc -> string) (show_cell : cell -> string) (inst : list cell).
  Notation fuzzify k := (fuzzify_of cut show show_cell inst k).
  Definition same_data (s s' : nbhd) : Prop :=
    nb_X s' = nb_X s /\ nb_y s' = nb_y s /\ nb_Xy s' = nb_Xy s /\ nb_decoded s' = nb_decoded s /\ nb_y_decoded s' = nb_y_decoded s.
  (** the possible effects of fuzzify *)
  Inductive fuzz_effect (k : kind) (s : nbhd) (d : string) (kw : zargs) : nbhd -> option exn -> Prop :=
  | fe_args : k = Sampling -> z_inst kw <> None -> fuzz_effect k s d kw s (Some TypeError)
  | fe_vars e : fuzzy_vars cut show show_cell s d kw = Err e -> (k = Sampling -> z_inst kw = None) -> fuzz_effect k s d kw s (Some e)
  | fe_XM X vs e s' : fuzzy_vars cut show show_cell s d kw = Ok (X, vs) -> (k = Sampling -> z_inst kw = None) ->
      dataset_membership_opt (tb_rows X) vs = Err e -> same_data s s' -> nb_vars s' = Some vs -> nb_XM s' = nb_XM s -> nb_IM s' = nb_IM s -> fuzz_effect k s d kw s' (Some e)
  | fe_IM X vs xm e s' : fuzzy_vars cut show show_cell s d kw = Ok (X, vs) -> (k = Sampling -> z_inst kw = None) ->
      dataset_membership_opt (tb_rows X) vs = Ok xm -> same_data s s' -> nb_vars s' = Some vs -> nb_XM s' = Some xm ->
      fuzz_effect k s d kw s' (Some e)
  | fe_ok X vs xm dec im s' : fuzzy_vars cut show show_cell s d kw = Ok (X, vs) -> (k = Sampling -> z_inst kw = None) ->
      dataset_membership_opt (tb_rows X) vs = Ok xm -> nb_decoded s = Some dec -> dataset_membership_opt [dec] vs = Ok im ->
      same_data s s' -> nb_vars s' = Some vs -> nb_XM s' = Some xm -> nb_IM s' = Some (single im) -> fuzz_effect k s d kw s' None.
  Ltac fe := first [assumption|reflexivity|unfold same_data; splits; reflexivity|unfold same_data; splits; assumption|idtac].
  Lemma fuzzify_effect k s d kw : fuzz_effect k s d kw (fst (fuzzify k s d kw)) (snd (fuzzify k s d kw)).
  Proof.
    assert (B : forall w, (k = Sampling -> z_inst kw = None) ->
      fuzz_effect k s d kw (fst (decoded_membership (fuzzify_base cut show show_cell inst w s d kw))) (snd (decoded_membership (fuzzify_base cut show show_cell inst w s d kw)))).
    { intros w HK. unfold fuzzify_base. destruct (fuzzy_vars cut show show_cell s d kw) as [[X vs]|e] eqn:E; cbn [tryS]; [|cbn; apply fe_vars; assumption]. cbn [fst snd].
      destruct (dataset_membership_opt (tb_rows X) vs) as [xm|e] eqn:M; cbn [tryS].
      2:{ apply (@fe_XM k s d kw X vs e _ E HK M); fe. }
      assert (D : forall s', same_data s s' -> nb_vars s' = Some vs -> nb_XM s' = Some xm ->
        fuzz_effect k s d kw (fst (decoded_membership (s', None))) (snd (decoded_membership (s', None)))).
      { intros s' (D1 & D2 & D3 & D4 & D5) V M'. cbn [decoded_membership]. rewrite D4, V.
        destruct (nb_decoded s) as [dec|] eqn:ED; cbn [ret_opt tryS].
        - destruct (dataset_membership_opt [dec] vs) as [im|e] eqn:EI; cbn [tryS fst snd].
          + apply (@fe_ok k s d kw X vs xm dec im _ E HK M ED EI); fe. unfold same_data; cbn; splits; congruence.
          + apply (@fe_IM k s d kw X vs xm _ _ E HK M); fe. unfold same_data; cbn; splits; congruence.
        - cbn [fst snd]. apply (@fe_IM k s d kw X vs xm _ _ E HK M); fe. unfold same_data; cbn; splits; congruence. }
      destruct w.
      - destruct (if Nat.ltb (List.length (tb_cols X)) (List.length inst) then Err IndexError else dataset_membership_opt [inst] vs) as [im|e]; cbn [tryS].
        + apply D; fe.
        + cbn [decoded_membership fst snd]. apply (@fe_IM k s d kw X vs xm _ _ E HK M); fe.
      - apply D; fe. }
    destruct k; cbn [fuzzify_of].
    - unfold sampling_fuzzify. destruct (z_inst kw) eqn:Z; [apply fe_args; congruence|]. apply B. auto.
    - unfold lore_fuzzify. apply B. congruence.
  Qed.
  Lemma fuzzify_data k s d kw : same_data s (fst (fuzzify k s d kw)).
  Proof. destruct (fuzzify_effect k s d kw); try assumption; unfold same_data; splits; reflexivity. Qed.

  Notation hist k := (history cut show show_cell inst k).
  Notation step k := (apply_op (fit_of k) (fuzzify k)).
  Definition op_X (a : op) : option table := match a with Fit o => X_of o | Fuzzify _ _ => None end.
  Definition op_y (a : op) : option (list Z) := match a with Fit o => y_of o | Fuzzify _ _ => None end.
  Lemma after_ops_snoc f g s l a : after_ops f g s (l ++ [a]) = fst (apply_op f g (after_ops f g s l) a).
  Proof. revert s. induction l as [|b l IH]; intro s; [reflexivity|apply IH]. Qed.
  Lemma history_snoc k l a : hist k (l ++ [a]) = fst (step k (hist k l) a).
  Proof. apply after_ops_snoc. Qed.
  Lemma history_X k l : nb_X (hist k l) = last_some (map op_X l).
  Proof.
    induction l as [|a l IH] using rev_ind; [reflexivity|]. rewrite history_snoc, map_app. cbn [map]. rewrite last_some_snoc, <- IH. destruct a as [o|d kw]; cbn [apply_op op_X].
    - apply fit_X.
    - cbn [orelse]. apply fuzzify_data.
  Qed.
  Lemma history_y k l : nb_y (hist k l) = last_some (map op_y l).
  Proof.
    induction l as [|a l IH] using rev_ind; [reflexivity|]. rewrite history_snoc, map_app. cbn [map]. rewrite last_some_snoc, <- IH. destruct a as [o|d kw]; cbn [apply_op op_y].
    - apply fit_y.
    - cbn [orelse]. apply fuzzify_data.
  Qed.
  (** predictions are only set together with a table *)
  Lemma history_Xy k l : nb_y (hist k l) <> None -> nb_Xy (hist k l) = true /\ nb_X (hist k l) <> None.
  Proof.
    induction l as [|a l IH] using rev_ind; [intro H; exfalso; apply H; reflexivity|]. rewrite history_snoc. destruct a as [o|d kw]; cbn [apply_op].
    - rewrite fit_y, fit_X. intro H. destruct (y_of o) as [y|] eqn:E; cbn [orelse] in H.
      + split; [apply fit_Xy; right; congruence|]. unfold y_of in E. destruct (X_of o); [discriminate|discriminate].
      + destruct (IH H) as [A B]. split; [apply fit_Xy; auto|]. destruct (X_of o); [discriminate|exact B].
    - destruct (fuzzify_data k (hist k l) d kw) as (D1 & D2 & D3 & _). rewrite D1, D2, D3. exact IH.
  Qed.

  (** dataset_membership with optional variables *)
  Lemma membership_some X vs xm : dataset_membership_opt X vs = Ok xm -> exists vars, vs = map Some vars /\ dataset_membership X vars = Ok xm.
  Proof.
    unfold dataset_membership_opt, dataset_membership. intro H.
    match type of H with bind ?r _ = _ => destruct r as [l|] eqn:E; [|discriminate] end. cbn [bind] in H. injection H as <-.
    assert (G : forall k l, mapM (fun iv : nat * option fvar => let '(i, ov) := iv in
        match ov with None => Err AttributeError | Some v => do col <- column X i; do d <- var_membership v col; Ok (fv_name v, d) end) (zip (seq k (List.length vs)) vs) = Ok l ->
      exists vars, vs = map Some vars /\ mapM (fun iv : nat * fvar => let '(i, v) := iv in do col <- column X i; do d <- var_membership v col; Ok (fv_name v, d))
        (zip (seq k (List.length vars)) vars) = Ok l).
    { clear. induction vs as [|o vs IH]; intros k l H; [exists []; split; [reflexivity|exact H]|]. change (zip (seq k (List.length (o :: vs))) (o :: vs)) with ((k, o) :: zip (seq (S k) (List.length vs)) vs) in H.
      cbn [mapM] in H. destruct o as [v|]; [|discriminate]. match type of H with bind ?r _ = _ => destruct r as [p|] eqn:E1; [|discriminate] end.
      cbn [bind] in H. match type of H with bind ?r _ = _ => destruct r as [l'|] eqn:E2; [|discriminate] end. destruct (IH _ _ E2) as (vars & -> & Hv). exists (v :: vars). split; [reflexivity|].
      change (zip (seq k (List.length (v :: vars))) (v :: vars)) with ((k, v) :: zip (seq (S k) (List.length vars)) vars). cbn [mapM]. rewrite E1. cbn [bind]. rewrite Hv. exact H. }
    unfold enumerate in E. destruct (G _ _ E) as (vars & -> & Hv). exists vars. split; [reflexivity|]. unfold enumerate. rewrite Hv. reflexivity.
  Qed.
  Lemma membership_opt_map X vars : dataset_membership_opt X (map Some vars) = dataset_membership X vars.
  Proof.
    unfold dataset_membership_opt, dataset_membership, enumerate. rewrite map_length.
    match goal with |- bind ?a _ = bind ?b _ => assert (a = b) as ->; [|reflexivity] end.
    generalize 0%nat as k. induction vars as [|v vars IH]; intro k; [reflexivity|].
    change (zip (seq k (List.length (v :: vars))) (map Some (v :: vars))) with ((k, Some v) :: zip (seq (S k) (List.length vars)) (map Some vars)).
    change (zip (seq k (List.length (v :: vars))) (v :: vars)) with ((k, v) :: zip (seq (S k) (List.length vars)) vars). cbn [mapM]. rewrite IH. reflexivity.
  Qed.

  (** the membership of the neighbourhood comes from the last fuzzify that reached it *)
  Definition makes_XM (k : kind) (s : nbhd) (d : string) (kw : zargs) (xm : xmem) : Prop :=
    exists X vars, get_X s = Ok X /\ dataset_membership (tb_rows X) vars = Ok xm /\
      get_vars (fst (fuzzify k s d kw)) = Ok (map Some vars) /\ get_X_membership (fst (fuzzify k s d kw)) = Ok xm.
  Lemma fuzzy_vars_X s d kw X vs : fuzzy_vars cut show show_cell s d kw = Ok (X, vs) -> nb_X s = Some X.
  Proof.
    unfold fuzzy_vars. intro H. destruct (nb_X s) as [X'|]; [|discriminate]. destruct (nb_y s); [|discriminate]. destruct (nb_Xy s); [|discriminate].
    match type of H with (if ?b then _ else _) = _ => destruct b; [discriminate|] end. destruct (z_num kw); [|discriminate]. destruct (z_cat kw); [|discriminate].
    match type of H with bind ?r _ = _ => destruct r; [|discriminate] end. cbn [bind] in H. destruct (z_verbose kw); [discriminate|].
    match type of H with bind ?r _ = _ => destruct r; [|discriminate] end. cbn [bind] in H. match type of H with bind ?r _ = _ => destruct r; [|discriminate] end. cbn [bind] in H.
    match type of H with bind ?r _ = _ => destruct r; [|discriminate] end. cbn [bind] in H. injection H as <- _. reflexivity.
  Qed.
  Lemma fuzzify_XM k s d kw : nb_XM (fst (fuzzify k s d kw)) = nb_XM s \/ exists xm, makes_XM k s d kw xm.
  Proof.
    unfold makes_XM. assert (F := fuzzify_effect k s d kw). remember (fst (fuzzify k s d kw)) as s1. remember (snd (fuzzify k s d kw)) as e1. clear Heqs1 Heqe1.
    destruct F as [| |X vs e s' V _ M D VS XM IM|X vs xm e s' V _ M D VS XM|X vs xm dec im s' V _ M DE MI D VS XM IM]; auto; right; exists xm;
    apply fuzzy_vars_X in V; destruct (membership_some _ _ M) as (vars & -> & M'); exists X, vars; unfold get_X, get_vars, get_X_membership; rewrite V, VS, XM; auto.
  Qed.
  Lemma history_XM k l : nb_XM (hist k l) = None \/ exists l1 d kw l2 xm, l = l1 ++ Fuzzify d kw :: l2 /\ makes_XM k (hist k l1) d kw xm /\
    (forall l3 l4, l2 = l3 ++ l4 -> nb_XM (hist k (l1 ++ Fuzzify d kw :: l3)) = Some xm).
  Proof.
    induction l as [|a l IH] using rev_ind; [left; reflexivity|]. rewrite history_snoc.
    assert (K : nb_XM (fst (step k (hist k l) a)) = nb_XM (hist k l) ->
      nb_XM (fst (step k (hist k l) a)) = None \/ exists l1 d kw l2 xm, l ++ [a] = l1 ++ Fuzzify d kw :: l2 /\ makes_XM k (hist k l1) d kw xm /\
    (forall l3 l4, l2 = l3 ++ l4 -> nb_XM (hist k (l1 ++ Fuzzify d kw :: l3)) = Some xm)).
    { intros E. destruct IH as [IH|(l1 & d & kw & l2 & xm & -> & H1 & H2)]; [left; rewrite E; assumption|]. right. exists l1, d, kw, (l2 ++ [a]), xm.
      split; [rewrite <- app_assoc; reflexivity|]. split; [assumption|]. intros l3 l4 S. destruct l4 as [|b l4 _] using rev_ind.
      - rewrite app_nil_r in S. subst l3. rewrite app_comm_cons, app_assoc, history_snoc, E. apply (H2 l2 []). symmetry. apply app_nil_r.
      - rewrite app_assoc in S. apply app_inj_tail in S. destruct S as [-> ->]. eapply H2. reflexivity. }
    destruct a as [o|d kw]; [apply K, fit_fuzzy|]. cbn [apply_op] in K |- *. destruct (fuzzify_XM k (hist k l) d kw) as [E|[xm M]]; [apply K, E|].
    right. exists l, d, kw, [], xm. split; [reflexivity|]. split; [assumption|]. intros [|] l4 S; [|discriminate]. rewrite history_snoc. cbn [apply_op].
    destruct M as (X & vars & _ & _ & _ & M). unfold get_X_membership in M. destruct (nb_XM (fst (fuzzify k (hist k l) d kw))); [|discriminate]. injection M as ->. reflexivity.
  Qed.

  (** a successful fuzzify *)
  Lemma fuzzify_ok k s d kw s' : fuzzify k s d kw = (s', None) ->
    exists X vars xm dec im, nb_X s = Some X /\ fuzzy_vars cut show show_cell s d kw = Ok (X, map Some vars) /\ dataset_membership (tb_rows X) vars = Ok xm /\
      nb_decoded s = Some dec /\ dataset_membership [dec] vars = Ok im /\ same_data s s' /\
      nb_vars s' = Some (map Some vars) /\ nb_XM s' = Some xm /\ nb_IM s' = Some (single im).
  Proof.
    intro H. assert (F := fuzzify_effect k s d kw). rewrite H in F. cbn [fst snd] in F. inversion F as [| | | |X vs xm dec im s0 V _ M DE MI D VS XM IM]; subst.
    destruct (membership_some _ _ M) as (vars & -> & M'). rewrite membership_opt_map in MI. exists X, vars, xm, dec, im.
    split; [exact (fuzzy_vars_X _ _ _ V)|]. split; [assumption|]. split; [assumption|]. split; [assumption|]. split; [assumption|]. split; [assumption|]. split; [assumption|]. split; assumption.
  Qed.
  Lemma fuzzify_err k s d kw e : (k = Sampling -> z_inst kw = None) -> fuzzy_vars cut show show_cell s d kw = Err e -> fuzzify k s d kw = (s, Some e).
  Proof.
    intros HK E. destruct k; cbn [fuzzify_of].
    - unfold sampling_fuzzify. rewrite HK by reflexivity. unfold fuzzify_base. rewrite E. reflexivity.
    - unfold lore_fuzzify, fuzzify_base. rewrite E. reflexivity.
  Qed.
End Fuzz.
