(** * Proofs: a fuzzy decision tree reads its table only through degrees *)
From Verif Require Import Prelude M_Fuzzy M_Discretize M_Rule M_FDT S_FDT P_FDT3 S_Degrees.
From Coq Require Import Reals Lra.
Local Notation eqb := Prelude.eqb.
Open Scope Qc_scope.

Definition rmap {A B} (f : A -> B) (r : res A) : res B := match r with Ok x => Ok (f x) | Err e => Err e end.

Lemma Forall2_length A B (R : A -> B -> Prop) l l' : Forall2 R l l' -> List.length l = List.length l'.
Proof. intro H. induction H; cbn; congruence. Qed.
Arguments Forall2_length {A B R l l'} H.

Section Degrees.
  Variable vars vars' : list fvar.
  Hypothesis HN : same_names vars vars'.

  Lemma names_nth a : match nth_error vars a, nth_error vars' a with
    | Some v, Some v' => fv_name v = fv_name v' /\ map fs_name (fv_sets v) = map fs_name (fv_sets v') | None, None => True | _, _ => False end.
  Proof.
    revert a. assert (H := HN). clear HN. unfold same_names in H. induction H as [|v v' l l' H F IH]; intros [|a]; cbn [nth_error]; auto. apply IH.
  Qed.
  Lemma names_length : List.length vars' = List.length vars.
  Proof. symmetry. exact (Forall2_length HN). Qed.
  Lemma names_map : map fv_name vars' = map fv_name vars.
  Proof. assert (H := HN). clear HN. unfold same_names in H. induction H as [|v v' l l' [H _] F IH]; [reflexivity|]. cbn [map]. rewrite H, IH. reflexivity. Qed.
  Lemma sets_nth (v v' : fvar) i : map fs_name (fv_sets v) = map fs_name (fv_sets v') -> match nth_error (fv_sets v) i, nth_error (fv_sets v') i with
    | Some s, Some s' => fs_name s = fs_name s' | None, None => True | _, _ => False end.
  Proof.
    intro E. apply (f_equal (fun l => nth_error l i)) in E. rewrite !nth_error_map in E. destruct (nth_error (fv_sets v) i), (nth_error (fv_sets v') i); cbn [option_map] in E; try discriminate; [congruence|exact I].
  Qed.

  (** ** columns and membership tables *)
  Definition alike (X X' : list (list cell)) : Prop := Forall2 (same_degrees vars vars') X X'.
  Lemma alike_column X X' a v v' : alike X X' -> nth_error vars a = Some v -> nth_error vars' a = Some v' ->
    match column X a, column X' a with
    | Ok col, Ok col' => forall i s s', nth_error (fv_sets v) i = Some s -> nth_error (fv_sets v') i = Some s' -> membership_col s col = membership_col s' col'
    | Err e, Err e' => e = e'
    | _, _ => False
    end.
  Proof.
    intros A V V'. unfold column. induction A as [|row row' X X' H A IH]; [cbn; reflexivity|]. cbn [mapM]. specialize (H a v v' V V').
    destruct (nth_error row a) as [x|], (nth_error row' a) as [x'|]; cbn [ret_opt bind]; try contradiction; [|reflexivity].
    destruct (mapM _ X) as [col|], (mapM _ X') as [col'|]; cbn [bind]; try contradiction; try assumption.
    intros i s s' S S'. unfold membership_col in *. cbn [mapM]. rewrite (H i s s' S S'), (IH i s s' S S'). reflexivity.
  Qed.
  Lemma mapM_two A B C (f : A -> res C) (f' : B -> res C) l l' : List.length l = List.length l' ->
    (forall i x x', nth_error l i = Some x -> nth_error l' i = Some x' -> f x = f' x') -> mapM f l = mapM f' l'.
  Proof.
    revert l'. induction l as [|x l IH]; intros [|x' l'] L H; cbn in L; try discriminate; [reflexivity|]. cbn [mapM]. rewrite (H 0%nat x x' eq_refl eq_refl). rewrite (IH l'); [reflexivity|lia|].
    intros i y y' Y Y'. exact (H (S i) y y' Y Y').
  Qed.
  Lemma alike_membership X X' : alike X X' -> dataset_membership X vars = dataset_membership X' vars'.
  Proof.
    intro A. unfold dataset_membership.
    match goal with |- bind ?a _ = bind ?b _ => assert (E : a = b) end; [|rewrite E; reflexivity].
    unfold enumerate. rewrite names_length.
    assert (G : forall (l l' : list fvar) k, List.length l' = List.length l -> (forall i v v', nth_error l i = Some v -> nth_error l' i = Some v' -> nth_error vars (k + i) = Some v /\ nth_error vars' (k + i) = Some v') ->
      mapM (fun iv : nat * fvar => let '(i, v) := iv in do col <- column X i; do d <- var_membership v col; Ok (fv_name v, d)) (zip (seq k (List.length l)) l) =
      mapM (fun iv : nat * fvar => let '(i, v) := iv in do col <- column X' i; do d <- var_membership v col; Ok (fv_name v, d)) (zip (seq k (List.length l)) l')).
    { induction l as [|v l IH]; intros [|v' l'] k L H; cbn in L; try discriminate; [reflexivity|]. change (zip (seq k (List.length (v :: l))) (v :: l)) with ((k, v) :: zip (seq (S k) (List.length l)) l).
      change (zip (seq k (List.length (v :: l))) (v' :: l')) with ((k, v') :: zip (seq (S k) (List.length l)) l'). cbn [mapM].
      destruct (H 0%nat v v' eq_refl eq_refl) as [V V']. rewrite Nat.add_0_r in V, V'. assert (C := alike_column X X' k v v' A V V'). assert (NM := names_nth k). rewrite V, V' in NM. destruct NM as [N1 N2].
      rewrite (IH l' (S k)); [|lia|intros i w w' W W'; specialize (H (S i) w w' W W'); rewrite <- plus_n_Sm in H; exact H].
      destruct (column X k) as [col|], (column X' k) as [col'|]; cbn [bind]; try contradiction; [|rewrite C; reflexivity].
      assert (M : var_membership v col = var_membership v' col').
      { unfold var_membership. match goal with |- bind ?a _ = bind ?b _ => assert (E : a = b) end; [|rewrite E; reflexivity].
        apply mapM_two; [rewrite <- (map_length fs_name (fv_sets v)), N2, map_length; reflexivity|]. intros i s s' S S'. rewrite (C i s s' S S'). assert (Q := sets_nth v v' i N2). rewrite S, S' in Q. rewrite Q. reflexivity. }
      rewrite M, N1. reflexivity. }
    rewrite <- names_length at 2. rewrite names_length. apply (G vars vars' 0%nat names_length). intros i v v' V V'. split; assumption.
  Qed.

  (** ** the tree with the other variables in it *)
  Fixpoint swap (t : tree) : tree :=
    let 'Tree l cs cv lv va vr mu := t in
    Tree l (map swap cs) cv lv va (match va with Some (a, _) => nth_error vars' a | None => vr end) mu.
  (** every node holds the variable its value refers to *)
  Inductive stored : tree -> Prop :=
  | stored_node l cs cv lv va vr mu : Forall stored cs -> (forall a i, va = Some (a, i) -> vr = nth_error vars a /\ vr <> None) ->
      stored (Tree l cs cv lv va vr mu).
  Lemma f_positions_same : f_positions vars' = f_positions vars.
  Proof.
    unfold f_positions, enumerate. rewrite names_length. f_equal. generalize (seq 0 (List.length vars)) as ks. assert (HM := names_map). clear HN. revert vars HM. induction vars' as [|v' l' IH]; intros [|v l] HM ks; cbn [map] in HM; try discriminate; [destruct ks; reflexivity|].
    destruct ks as [|k ks]; [reflexivity|]. injection HM as E HM. change (zip (k :: ks) (v' :: l')) with ((k, v') :: zip ks l'). change (zip (k :: ks) (v :: l)) with ((k, v) :: zip ks l). cbn [map fst snd]. rewrite E, (IH l HM). reflexivity.
  Qed.
  Lemma mapM_rmap A B (f f' : A -> res B) (h : B -> B) l : (forall x, f' x = rmap h (f x)) -> mapM f' l = rmap (map h) (mapM f l).
  Proof.
    intro H. induction l as [|x l IH]; [reflexivity|]. cbn [mapM]. rewrite H, IH. destruct (f x); cbn [rmap bind]; [|reflexivity]. destruct (mapM f l); reflexivity.
  Qed.
  Variable cfg cfg' : fdt_cfg.
  Hypothesis Hcfg : f_vars cfg = vars.
  Hypothesis Hcfg' : cfg' = mkFDT vars' (f_threshold cfg) (f_max_depth cfg) (f_min_examples cfg) (f_tnorm cfg) (f_voting cfg).
  Lemma swap_partial_fit ord XM y : forall fuel node path feats depth,
    partial_fit fuel cfg' ord XM y (swap node) path feats depth = rmap swap (partial_fit fuel cfg ord XM y node path feats depth).
  Proof.
    induction fuel as [|fuel IH]; intros node path feats depth; [reflexivity|]. cbn [partial_fit].
    destruct node as [l cs cv lv va vr mu]. cbn [swap t_mu t_children t_value t_var t_class].
    destruct (max_f_gain qmin mu (ord path feats) XM y) as [[[att g] cm]|]; cbn [bind rmap]; [|reflexivity].
    replace (stop_met cfg' g (masked mu y) depth) with (stop_met cfg g (masked mu y) depth) by (rewrite Hcfg'; reflexivity).
    destruct (stop_met cfg g (masked mu y) depth).
    { destruct (get_class_value mu y); cbn [bind rmap swap]; reflexivity. }
    destruct (dget att XM) as [sets|]; cbn [ret_opt bind rmap]; [|reflexivity].
    match goal with |- bind (mapM ?f' ?l) _ = rmap _ (bind (mapM ?f ?l) _) => rewrite (mapM_rmap _ _ f f' swap l) end.
    - match goal with |- bind (rmap _ ?m) _ = _ => destruct m as [ts|] end; cbn [rmap bind swap]; [|reflexivity]. rewrite map_app. reflexivity.
    - intros [i value]. destruct (negb (memb att feats)); [reflexivity|]. rewrite Hcfg'. cbn [f_vars]. rewrite Hcfg, f_positions_same.
      destruct (dget att (f_positions vars)) as [a|]; cbn [ret_opt bind rmap]; [|reflexivity]. assert (NM := names_nth a).
      destruct (nth_error vars a) as [v|] eqn:V, (nth_error vars' a) as [v'|] eqn:V'; cbn [ret_opt bind rmap]; try contradiction; [|reflexivity].
      destruct (dget value cm) as [m|]; cbn [ret_opt bind rmap]; [|reflexivity]. cbv zeta. destruct (qltb 0 (qsum m)).
      + rewrite <- Hcfg'. rewrite <- IH. unfold new_tree. cbn [swap map]. rewrite V'. reflexivity.
      + destruct (get_class_value mu y); cbn [bind rmap swap map]; [rewrite V'|]; reflexivity.
  Qed.
  Lemma swap_fit ord root X X' y : alike X X' -> fit cfg' ord (swap root) X' y = rmap swap (fit cfg ord root X y).
  Proof.
    intro A. unfold fit. assert (L := Forall2_length A). rewrite <- L. destruct (_ || _); [reflexivity|].
    assert (E : f_vars cfg' = vars') by (rewrite Hcfg'; reflexivity). rewrite E, Hcfg, <- (alike_membership _ _ A).
    destruct (dataset_membership X vars) as [XM|]; cbn [bind rmap]; [|reflexivity].
    assert (F : f_features cfg' = f_features cfg) by (unfold f_features; rewrite E, Hcfg, names_map; reflexivity). rewrite F.
    rewrite <- swap_partial_fit. destruct root. reflexivity.
  Qed.
  Lemma stored_partial_fit ord XM y : forall fuel node path feats depth t, stored node -> partial_fit fuel cfg ord XM y node path feats depth = Ok t -> stored t.
  Proof.
    induction fuel as [|fuel IH]; intros node path feats depth t St H; [discriminate|]. cbn [partial_fit] in H. inversion St as [l cs cv lv va vr mu Sc Sv]; subst node.
    cbn [t_mu t_children t_value t_var t_class] in H.
    destruct (max_f_gain qmin mu (ord path feats) XM y) as [[[att g] cm]|]; cbn [bind] in H; [|discriminate].
    destruct (stop_met cfg g (masked mu y) depth).
    { destruct (get_class_value mu y) as [c|]; cbn [bind] in H; [|discriminate]. assert (E : t = Tree true cs (Some c) depth va vr mu) by congruence. rewrite E. constructor; assumption. }
    destruct (dget att XM) as [sets|]; cbn [ret_opt bind] in H; [|discriminate].
    match type of H with bind ?m _ = _ => destruct m as [ts|] eqn:E; [|discriminate] end. cbn [bind] in H. assert (E' : t = Tree false (cs ++ ts) cv depth va vr mu) by congruence. rewrite E'. constructor; [|assumption].
    apply Forall_app. split; [assumption|]. apply mapM_ok in E. clear E' H. induction E as [|[i value] z ls ts F E IHE]; constructor; [|assumption].
    destruct (negb (memb att feats)); [discriminate|]. destruct (dget att (f_positions (f_vars cfg))) as [a|]; cbn [ret_opt bind] in F; [|discriminate].
    destruct (nth_error (f_vars cfg) a) as [v|] eqn:V; cbn [ret_opt bind] in F; [|discriminate]. rewrite Hcfg in V. destruct (dget value cm) as [m|]; cbn [ret_opt bind] in F; [|discriminate]. cbv zeta in F.
    assert (VV : forall b k : nat, Some (a, i) = Some (b, k) -> Some v = nth_error vars b /\ Some v <> None) by (intros b k Q; assert (b = a) by congruence; subst b; split; [congruence|discriminate]).
    destruct (qltb 0 (qsum m)).
    - apply IH in F; [assumption|]. unfold new_tree. constructor; [constructor|exact VV].
    - destruct (get_class_value mu y) as [c|]; cbn [bind] in F; [|discriminate]. assert (Q : z = Tree true [] (Some c) (-1) (Some (a, i)) (Some v) m) by congruence. rewrite Q. constructor; [constructor|exact VV].
  Qed.
  Lemma stored_fit ord root X y t : stored root -> fit cfg ord root X y = Ok t -> stored t.
  Proof.
    intros St H. unfold fit in H. destruct (_ || _); [discriminate|]. destruct (dataset_membership X (f_vars cfg)) as [XM|]; cbn [bind] in H; [|discriminate].
    eapply stored_partial_fit; [|exact H]. inversion St; subst. cbn [t_leaf t_children t_class t_level t_value t_var]. constructor; assumption.
  Qed.
  Lemma stored_fresh : stored fresh_root.
  Proof. constructor; [constructor|]. intros; discriminate. Qed.

  (** ** predictions and rules *)
  Lemma swap_predict tn X X' : alike X X' -> forall t, stored t -> forall mu, partial_predict tn X' mu (swap t) = partial_predict tn X mu t.
  Proof.
    intros A. induction t as [l cs cv lv va vr m IH] using tree_ind'. intros St mu. inversion St as [? ? ? ? ? ? ? Sc Sv]; subst. cbn [swap partial_predict].
    match goal with |- bind ?a _ = bind ?b _ => assert (E : a = b) end.
    { destruct va as [[a i]|]; [|reflexivity]. destruct (Sv a i eq_refl) as [V NV]. rewrite V in *. assert (NM := names_nth a). destruct (nth_error vars a) as [v|] eqn:EV; [|congruence].
      destruct (nth_error vars' a) as [v'|] eqn:EV'; [|contradiction]. cbn [ret_opt bind]. destruct NM as [_ N2]. assert (Q := sets_nth v v' i N2).
      destruct (nth_error (fv_sets v) i) as [s|] eqn:S, (nth_error (fv_sets v') i) as [s'|] eqn:S'; cbn [ret_opt bind]; try contradiction; [|reflexivity].
      assert (C := alike_column X X' a v v' A EV EV'). destruct (column X a) as [col|], (column X' a) as [col'|]; cbn [bind]; try contradiction; [|rewrite C; reflexivity].
      rewrite (C i s s' S S'). reflexivity. }
    rewrite E. match goal with |- bind ?a _ = _ => destruct a as [nm|] end; cbn [bind]; [|reflexivity]. destruct l; [reflexivity|]. destruct cs as [|c cs]; [reflexivity|]. cbn [map].
    assert (M : mapM (partial_predict tn X' nm) (map swap (c :: cs)) = mapM (partial_predict tn X nm) (c :: cs)).
    { revert IH Sc. generalize (c :: cs) as l0. clear. induction l0 as [|x l0 IH']; intros IH Sc; [reflexivity|]. inversion IH; subst. inversion Sc; subst. cbn [map mapM]. rewrite H1 by assumption. rewrite IH' by assumption. reflexivity. }
    cbn [map] in M. rewrite M. reflexivity.
  Qed.
  Lemma swap_rules th : forall t, stored t -> forall prefix, get_rules (swap t) prefix th = get_rules t prefix th.
  Proof.
    induction t as [l cs cv lv va vr m IH] using tree_ind'. intros St prefix. inversion St as [? ? ? ? ? ? ? Sc Sv]; subst. cbn [swap get_rules].
    match goal with |- bind ?a _ = bind ?b _ => assert (E : a = b) end.
    { destruct va as [[a i]|]; [|reflexivity]. destruct (Sv a i eq_refl) as [V NV]. rewrite V in *. assert (NM := names_nth a). destruct (nth_error vars a) as [v|]; [|congruence].
      destruct (nth_error vars' a) as [v'|]; [|contradiction]. cbn [ret_opt bind]. destruct NM as [N1 N2]. assert (Q := sets_nth v v' i N2).
      destruct (nth_error (fv_sets v) i) as [s|], (nth_error (fv_sets v') i) as [s'|]; cbn [ret_opt bind]; try contradiction; [|reflexivity]. rewrite N1, Q. reflexivity. }
    rewrite E. match goal with |- bind ?a _ = _ => destruct a as [nr|] end; cbn [bind]; [|reflexivity]. destruct l; [reflexivity|].
    assert (M : mapM (fun c => get_rules c nr th) (map swap cs) = mapM (fun c => get_rules c nr th) cs).
    { revert IH Sc. clear. induction cs as [|x l0 IH']; intros IH Sc; [reflexivity|]. inversion IH; subst. inversion Sc; subst. cbn [map mapM]. rewrite H1 by assumption. rewrite IH' by assumption. reflexivity. }
    rewrite M. reflexivity.
  Qed.
End Degrees.
