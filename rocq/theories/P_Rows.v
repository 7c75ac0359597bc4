(** * Proofs: reordering and repeating the training rows *)
From Verif Require Import Prelude M_Fuzzy M_Discretize M_Rule M_FDT S_FDT P_Entropy P_FuzzyVar P_FDT P_FDT3 M_FBDT S_Rows.
From Coq Require Import Reals Lra.
Local Notation eqb := Prelude.eqb.
Open Scope Qc_scope.

(** ** lists read at a list of positions *)
Section Reindex.
  Variable k n : nat.
  Variable idx : list nat.
  Hypothesis Hk : (0 < k)%nat.
  Hypothesis Hidx : Permutation idx (List.concat (repeat (seq 0 n) k)).

  Definition re {A} (d : A) (l : list A) : list A := map (fun i => nth i l d) idx.

  Lemma idx_lt i : In i idx -> (i < n)%nat.
  Proof.
    intro H. apply (Permutation_in _ Hidx) in H. apply in_concat in H. destruct H as [l [H1 H2]]. apply repeat_spec in H1. subst l.
    apply in_seq in H2. lia.
  Qed.
  Lemma lt_idx i : (i < n)%nat -> In i idx.
  Proof.
    intro H. apply (Permutation_in _ (Permutation_sym Hidx)). apply in_concat. exists (seq 0 n). split; [|apply in_seq; lia].
    destruct k; [lia|]. left. reflexivity.
  Qed.
  Lemma seq_nth_id A (d : A) l : map (fun i => nth i l d) (seq 0 (List.length l)) = l.
  Proof.
    apply nth_ext with (d := d) (d' := d); [rewrite map_length, seq_length; reflexivity|].
    intros i Hi. rewrite map_length, seq_length in Hi. rewrite (nth_indep _ d (nth 0 l d)) by (rewrite map_length, seq_length; assumption).
    rewrite (map_nth (fun i => nth i l d)). rewrite seq_nth by assumption. reflexivity.
  Qed.
  Lemma concat_repeat_map A B (f : A -> B) l m : map f (List.concat (repeat l m)) = List.concat (repeat (map f l) m).
  Proof. induction m as [|m IH]; [reflexivity|]. cbn [repeat List.concat]. rewrite map_app, IH. reflexivity. Qed.
  Lemma concat_repeat_filter A (f : A -> bool) l m : filter f (List.concat (repeat l m)) = List.concat (repeat (filter f l) m).
  Proof. induction m as [|m IH]; [reflexivity|]. cbn [repeat List.concat]. rewrite filter_app, IH. reflexivity. Qed.
  Lemma re_perm A (d : A) l : List.length l = n -> Permutation (re d l) (List.concat (repeat l k)).
  Proof.
    intro L. unfold re. rewrite (Permutation_map _ Hidx). rewrite concat_repeat_map. rewrite <- L. rewrite seq_nth_id. reflexivity.
  Qed.
  Lemma re_length A (d : A) l : List.length (re d l) = List.length idx.
  Proof. apply map_length. Qed.
  Lemma re_In A (d : A) l x : List.length l = n -> (In x (re d l) <-> In x l).
  Proof.
    intro L. unfold re. rewrite in_map_iff. split.
    - intros [i [<- Hi]]. apply nth_In. rewrite L. apply idx_lt. assumption.
    - intro H. apply (In_nth _ _ d) in H. destruct H as [i [Hi E]]. exists i. split; [assumption|]. apply lt_idx. lia.
  Qed.
  Lemma qsum_times l m : qsum (List.concat (repeat l m)) = qn m * qsum l.
  Proof. induction m as [|m IH]; [cbn; rewrite qn_0; ring|]. cbn [repeat List.concat]. rewrite qsum_app, IH, qn_S. ring. Qed.
  Lemma re_qsum l : List.length l = n -> qsum (re 0 l) = qn k * qsum l.
  Proof. intro L. rewrite (qsum_perm (re_perm _ 0 l L)). apply qsum_times. Qed.
  Lemma re_map2 A B C (f : A -> B -> C) d e g l l' : List.length l = n -> List.length l' = n -> map2 f (re d l) (re e l') = re g (map2 f l l').
  Proof.
    intros L L'. unfold re. assert (H : forall i, In i idx -> (i < n)%nat) by apply idx_lt. revert H. generalize idx as ix. induction ix as [|i ix IH]; intro H; [reflexivity|].
    cbn [map map2]. rewrite IH by (intros; apply H; right; assumption). f_equal.
    assert (Hi := H i (or_introl eq_refl)). rewrite <- L in Hi. rewrite <- L in L'. clear - Hi L'.
    revert l' i Hi L'. induction l as [|x l IH]; intros [|y l'] [|i] Hi L'; cbn [map2 nth List.length] in *; try lia; try reflexivity; try discriminate.
    apply IH; lia.
  Qed.
  Lemma re_zip A B d e (l : list A) (l' : list B) : List.length l = n -> List.length l' = n -> zip (re d l) (re e l') = re (d, e) (zip l l').
  Proof.
    intros L L'. unfold re. clear - L L'. induction idx as [|i ix IH]; [reflexivity|].
    cbn [map]. change (zip (nth i l d :: map (fun i => nth i l d) ix) (nth i l' e :: map (fun i => nth i l' e) ix)) with ((nth i l d, nth i l' e) :: zip (map (fun i => nth i l d) ix) (map (fun i => nth i l' e) ix)).
    rewrite IH. f_equal. symmetry. apply combine_nth. congruence.
  Qed.
  Lemma re_map A B (f : A -> B) d e l : List.length l = n -> map f (re d l) = re e (map f l).
  Proof.
    intro L. unfold re. rewrite map_map. apply map_ext_in. intros i Hi. apply idx_lt in Hi. rewrite (nth_indep _ e (f d)) by (rewrite map_length; lia). symmetry. apply map_nth.
  Qed.
  Lemma re_repeat A (x : A) d : re d (repeat x n) = repeat x (List.length idx).
  Proof.
    unfold re. assert (H : forall i, In i idx -> (i < n)%nat) by apply idx_lt. revert H. generalize idx as ix. induction ix as [|i ix IH]; intro H; [reflexivity|]. cbn [map List.length repeat].
    rewrite IH by (intros; apply H; right; assumption). f_equal. assert (Hi := H i (or_introl eq_refl)).
    assert (In (nth i (repeat x n) d) (repeat x n)) by (apply nth_In; rewrite repeat_length; assumption). eapply repeat_spec; eassumption.
  Qed.

  Lemma kpos : 0 < qn k. Proof. apply qn_pos. assumption. Qed.
  Lemma zip_len A B (l : list A) (l' : list B) : List.length l = n -> List.length l' = n -> List.length (zip l l') = n.
  Proof. intros. unfold zip. rewrite combine_length. lia. Qed.
  Lemma re_class_card mu y c d : List.length mu = n -> List.length y = n -> class_card (re 0 mu) (re d y) c = qn k * class_card mu y c.
  Proof.
    intros L L'. unfold class_card. rewrite re_zip by assumption.
    rewrite (qsum_perm (Permutation_map fst (@filter_perm _ _ _ _ (re_perm _ (0, d) _ (zip_len _ _ _ _ L L'))))).
    rewrite concat_repeat_filter, concat_repeat_map. apply qsum_times.
  Qed.
  Lemma re_zunique y d : List.length y = n -> zunique (re d y) = zunique y.
  Proof. intro L. apply zunique_ext. intro x. apply re_In. assumption. Qed.
  Lemma qn_neq0 : qn k <> 0. Proof. intro E. assert (K := kpos). rewrite E in K. discriminate. Qed.
  Lemma scale_div a b : qn k * a / (qn k * b) = a / b.
  Proof.
    destruct (Qc_eq_dec b 0) as [->|N].
    - rewrite Qcmult_0_r. unfold Qcdiv. replace (/ 0) with 0 by reflexivity. ring.
    - field. split; [apply N|apply qn_neq0].
  Qed.
  Lemma scale_pos a : qltb 0 (qn k * a) = qltb 0 a.
  Proof.
    assert (K := kpos). destruct (qltb 0 a) eqn:E.
    - apply qltb_lt. apply qltb_lt in E. apply Qcmult_pos; assumption.
    - apply qltb_ge. apply qltb_ge in E. replace 0 with (qn k * 0) by ring. rewrite !(Qcmult_comm (qn k)). apply Qcmult_le_compat_r; [assumption|]. qlra.
  Qed.
  Lemma scale_zero a : qeqb (qn k * a) 0 = qeqb a 0.
  Proof.
    destruct (qeqb_spec a 0) as [->|N]; [apply qeqb_eq; ring|]. apply qeqb_neq. intro E. apply Qcmult_integral in E. destruct E as [E|E]; [exact (qn_neq0 E)|exact (N E)].
  Qed.
  Lemma re_entropy mu y d : List.length mu = n -> List.length y = n -> fuzzy_entropy (re 0 mu) (re d y) = fuzzy_entropy mu y.
  Proof.
    intros L L'. unfold fuzzy_entropy. rewrite re_zunique by assumption. apply rsum_map_ext. intros c _. unfold entropy_term.
    rewrite re_class_card, re_qsum by assumption. rewrite scale_pos, scale_div. reflexivity.
  Qed.
  Lemma re_masked mu y d : List.length mu = n -> List.length y = n -> Permutation (masked (re 0 mu) (re d y)) (List.concat (repeat (masked mu y) k)).
  Proof.
    intros L L'. unfold masked. rewrite re_zip by assumption.
    rewrite (Permutation_map snd (@filter_perm _ _ _ _ (re_perm _ (0, d) _ (zip_len _ _ _ _ L L')))).
    rewrite concat_repeat_filter, concat_repeat_map. reflexivity.
  Qed.
  Lemma concat_repeat_length A (l : list A) m : List.length (List.concat (repeat l m)) = (m * List.length l)%nat.
  Proof. induction m as [|m IH]; [reflexivity|]. cbn [repeat List.concat]. rewrite app_length, IH. reflexivity. Qed.
  Lemma concat_repeat_In A (l : list A) x : In x (List.concat (repeat l k)) <-> In x l.
  Proof.
    rewrite in_concat. split.
    - intros [l' [H1 H2]]. apply repeat_spec in H1. subst. assumption.
    - intro H. exists l. split; [|assumption]. destruct k; [lia|]. left. reflexivity.
  Qed.
  Definition times (cfg : fdt_cfg) : fdt_cfg :=
    mkFDT (f_vars cfg) (f_threshold cfg) (f_max_depth cfg) (Z.of_nat k * f_min_examples cfg) (f_tnorm cfg) (f_voting cfg).
  Lemma re_stop cfg g mu y d depth : List.length mu = n -> List.length y = n ->
    stop_met (times cfg) g (masked (re 0 mu) (re d y)) depth = stop_met cfg g (masked mu y) depth.
  Proof.
    intros L L'. assert (P := re_masked mu y d L L'). unfold stop_met. cbn [times f_min_examples f_max_depth f_threshold].
    rewrite (zunique_ext (masked (re 0 mu) (re d y)) (masked mu y)).
    2:{ intro x. rewrite <- (concat_repeat_In _ (masked mu y) x). split; [apply Permutation_in; exact P|apply Permutation_in, Permutation_sym; exact P]. }
    rewrite (Permutation_length P), concat_repeat_length. f_equal. f_equal. f_equal.
    rewrite Nat2Z.inj_mul. destruct (Z.ltb_spec (Z.of_nat (List.length (masked mu y))) (f_min_examples cfg)); [apply Z.ltb_lt|apply Z.ltb_ge]; nia.
  Qed.
  Lemma re_class_value mu y d : List.length mu = n -> List.length y = n -> get_class_value (re 0 mu) (re d y) = get_class_value mu y.
  Proof.
    intros L L'. unfold get_class_value. rewrite re_qsum by assumption. rewrite scale_zero. destruct (qeqb (qsum mu) 0); [reflexivity|]. f_equal.
    rewrite re_zunique by assumption. apply map_ext. intro c. rewrite re_class_card by assumption. rewrite scale_div. reflexivity.
  Qed.

  (** ** membership tables *)
  Definition re_sets (d : dict string (list Qc)) : dict string (list Qc) := map (fun nv => (fst nv, re 0 (snd nv))) d.
  Definition re_mem (XM : xmem) : xmem := map (fun nv => (fst nv, re_sets (snd nv))) XM.
  Definition sized_sets (d : dict string (list Qc)) : Prop := forall s v, In (s, v) d -> List.length v = n.
  Definition sized (XM : xmem) : Prop := forall f d, In (f, d) XM -> sized_sets d.
  Lemma dget_map V W (f : V -> W) s (d : dict string V) : dget s (map (fun nv => (fst nv, f (snd nv))) d) = option_map f (dget s d).
  Proof. induction d as [|[a v] d IH]; [reflexivity|]. cbn [map dget fst snd]. destruct (eqb s a); [reflexivity|exact IH]. Qed.
  Lemma re_dget XM f : dget f (re_mem XM) = option_map re_sets (dget f XM).
  Proof. apply dget_map. Qed.
  Lemma re_sets_get d s : dget s (re_sets d) = option_map (re 0) (dget s d).
  Proof. apply dget_map. Qed.
  Lemma re_sets_keys d : dkeys (re_sets d) = dkeys d.
  Proof. unfold dkeys, re_sets. rewrite map_map. reflexivity. Qed.
  Lemma re_child_mus mu sets : List.length mu = n -> sized_sets sets -> child_mus qmin (re 0 mu) (re_sets sets) = re_sets (child_mus qmin mu sets).
  Proof.
    intros L S. unfold child_mus, re_sets. rewrite !map_map. apply map_ext_in. intros [s v] H. cbn [fst snd]. rewrite (re_map2 _ _ _ qmin 0 0 0) by (assumption || exact (S s v H)). reflexivity.
  Qed.
  Lemma child_sized mu sets : List.length mu = n -> sized_sets sets -> sized_sets (child_mus qmin mu sets).
  Proof.
    intros L S s v H. unfold child_mus in H. apply in_map_iff in H. destruct H as [[s' v'] [E H]]. injection E as <- <-. cbn [fst snd]. rewrite map2_length, (S _ _ H). lia.
  Qed.
  Lemma re_gain mu XM y d f : List.length mu = n -> List.length y = n -> sized XM ->
    feature_gain qmin (re 0 mu) (re_mem XM) (re d y) f =
    match feature_gain qmin mu XM y f with Ok (g, cm) => Ok (g, re_sets cm) | Err e => Err e end.
  Proof.
    intros L L' S. unfold feature_gain. cbv zeta. rewrite re_dget. destruct (dget f XM) as [sets|] eqn:E; cbn [option_map ret_opt bind]; [|reflexivity].
    assert (SS : sized_sets sets) by (exact (S f sets (dget_In _ _ E))).
    rewrite re_child_mus by assumption. rewrite re_qsum, scale_zero by assumption. destruct (qeqb (qsum mu) 0) eqn:Q; [reflexivity|].
    apply qeqb_neq in Q. rewrite re_entropy by assumption. f_equal. f_equal. f_equal.
    assert (CS := child_sized mu sets L SS).
    assert (W : rsum (map (fun nv => (qr (qsum (snd nv)) * fuzzy_entropy (snd nv) (re d y))%R) (re_sets (child_mus qmin mu sets))) =
                (INR k * rsum (map (fun nv => (qr (qsum (snd nv)) * fuzzy_entropy (snd nv) y)%R) (child_mus qmin mu sets)))%R).
    { unfold re_sets. rewrite map_map. rewrite <- rsum_map_mult. apply rsum_map_ext. intros [s v] H. cbn [fst snd].
      assert (V := CS s v H). rewrite re_qsum, re_entropy by assumption. rewrite qr_mult, qr_qn. ring. }
    rewrite W, qr_mult, qr_qn.
    assert (K : INR k <> 0%R) by (apply not_0_INR; lia).
    assert (M : qr (qsum mu) <> 0%R). { rewrite <- qr_0. intro E'. apply qr_inj in E'. contradiction. }
    field. split; assumption.
  Qed.
  Lemma re_max mu XM y d l : List.length mu = n -> List.length y = n -> sized XM ->
    max_f_gain qmin (re 0 mu) l (re_mem XM) (re d y) =
    match max_f_gain qmin mu l XM y with Ok (a, g, cm) => Ok (a, g, re_sets cm) | Err e => Err e end.
  Proof.
    intros L L' S. unfold max_f_gain. change (@nil (string * list Qc)) with (re_sets []) at 1. generalize ""%string as a, 0%R as g, (@nil (string * list Qc)) as cm.
    induction l as [|f l IH]; intros a g cm; [reflexivity|]. cbn [foldM fst snd]. rewrite re_gain by assumption.
    destruct (feature_gain qmin mu XM y f) as [[g' cm']|e]; cbn [bind]; [|reflexivity]. cbn [fst snd].
    destruct (Rltb g g'); cbn [bind]; apply IH.
  Qed.
  Lemma max_sized mu XM y l a g cm : List.length mu = n -> sized XM -> max_f_gain qmin mu l XM y = Ok (a, g, cm) -> sized_sets cm.
  Proof.
    intros L S. unfold max_f_gain. assert (N : sized_sets []) by (intros s v []). revert N. generalize ""%string as a0, 0%R as g0, (@nil (string * list Qc)) as cm0.
    induction l as [|f l IH]; intros a0 g0 cm0 N E; cbn [foldM] in E; [injection E as <- <- <-; exact N|].
    destruct (feature_gain qmin mu XM y f) as [[g' cm']|e] eqn:F; cbn [bind] in E; [|discriminate]. cbn [fst snd] in E.
    destruct (Rltb g0 g'); cbn [bind] in E; [|exact (IH _ _ _ N E)]. refine (IH _ _ _ _ E).
    unfold feature_gain in F. destruct (dget f XM) as [sets|] eqn:D; cbn [ret_opt bind] in F; [|discriminate].
    destruct (qeqb (qsum mu) 0); [discriminate|]. assert (cm' = child_mus qmin mu sets) by congruence. subst cm'.
    apply child_sized; [assumption|]. exact (S f sets (dget_In _ _ D)).
  Qed.

  (** ** the recursion of FDT *)
  Definition same_tree (r r' : res tree) : Prop :=
    match r, r' with Ok t, Ok t' => shape t = shape t' | Err e, Err e' => e = e' | _, _ => False end.
  Definition same_trees (r r' : res (list tree)) : Prop :=
    match r, r' with Ok ts, Ok ts' => map shape ts = map shape ts' | Err e, Err e' => e = e' | _, _ => False end.
  Lemma mapM_same A (f g : A -> res tree) l : (forall x, In x l -> same_tree (f x) (g x)) -> same_trees (mapM f l) (mapM g l).
  Proof.
    unfold same_trees. induction l as [|x l IH]; intro H; [reflexivity|]. cbn [mapM]. assert (Hx := H x (or_introl eq_refl)). unfold same_tree in Hx.
    destruct (f x), (g x); cbn [bind]; try contradiction; [|assumption].
    specialize (IH (fun z Hz => H z (or_intror Hz))). destruct (mapM f l), (mapM g l); cbn [bind]; try contradiction; [|assumption]. cbn [map]. congruence.
  Qed.
  Lemma re_partial_fit cfg ord XM y d : List.length y = n -> sized XM -> forall fuel node node' path feats depth,
    shape node = shape node' -> List.length (t_mu node) = n -> t_mu node' = re 0 (t_mu node) ->
    same_tree (partial_fit fuel cfg ord XM y node path feats depth) (partial_fit fuel (times cfg) ord (re_mem XM) (re d y) node' path feats depth).
  Proof.
    intros L' S. induction fuel as [|fuel IH]; intros node node' path feats depth Sh L Mu; [reflexivity|].
    cbn [partial_fit]. rewrite Mu, re_max by assumption.
    destruct (max_f_gain qmin (t_mu node) (ord path feats) XM y) as [[[att g] cm]|e] eqn:E; cbn [bind]; [|reflexivity].
    assert (CS := max_sized _ _ _ _ _ _ _ L S E). rewrite re_stop, re_class_value by assumption.
    destruct node as [l cs cv lv va vr mu], node' as [l' cs' cv' lv' va' vr' mu']. cbn [t_children t_value t_var t_class t_mu] in *.
    cbn [shape] in Sh. assert (SC : map shape cs = map shape cs') by congruence. assert (cv = cv') by congruence. assert (va = va') by congruence. assert (vr = vr') by congruence. clear Sh. subst cv' va' vr'.
    destruct (stop_met cfg g (masked mu y) depth).
    { destruct (get_class_value mu y); cbn [bind same_tree]; [|reflexivity]. cbn [shape]. rewrite SC. reflexivity. }
    rewrite re_dget. destruct (dget att XM) as [sets|] eqn:D; cbn [option_map ret_opt bind]; [|reflexivity]. rewrite re_sets_keys.
    assert (Ch : same_trees (mapM (fun iv : nat * string => let '(i, value) := iv in
          if negb (memb att feats) then Err KeyError else
          do a <- ret_opt KeyError (dget att (f_positions (f_vars cfg)));
          do v <- ret_opt IndexError (nth_error (f_vars cfg) a);
          do m <- ret_opt KeyError (dget value cm);
          let child := new_tree (Some (a, i)) (Some v) m in
          if qltb 0 (qsum m) then
            partial_fit fuel cfg ord XM y child (path ++ [(a, i)]) (remove string_dec att feats) (depth + 1)
          else
            do cv <- get_class_value mu y;
            Ok (Tree true [] (Some cv) (-1) (Some (a, i)) (Some v) m)) (enumerate (dkeys sets)))
        (mapM (fun iv : nat * string => let '(i, value) := iv in
          if negb (memb att feats) then Err KeyError else
          do a <- ret_opt KeyError (dget att (f_positions (f_vars (times cfg))));
          do v <- ret_opt IndexError (nth_error (f_vars (times cfg)) a);
          do m <- ret_opt KeyError (dget value (re_sets cm));
          let child := new_tree (Some (a, i)) (Some v) m in
          if qltb 0 (qsum m) then
            partial_fit fuel (times cfg) ord (re_mem XM) (re d y) child (path ++ [(a, i)]) (remove string_dec att feats) (depth + 1)
          else
            do cv <- get_class_value mu y;
            Ok (Tree true [] (Some cv) (-1) (Some (a, i)) (Some v) m)) (enumerate (dkeys sets)))).
    { apply mapM_same. intros [i value] _. destruct (negb (memb att feats)); [reflexivity|]. cbn [times f_vars].
      destruct (dget att (f_positions (f_vars cfg))) as [a|]; cbn [ret_opt bind]; [|reflexivity].
      destruct (nth_error (f_vars cfg) a) as [v|]; cbn [ret_opt bind]; [|reflexivity].
      rewrite re_sets_get. destruct (dget value cm) as [m|] eqn:G; cbn [option_map ret_opt bind]; [|reflexivity].
      assert (Lm : List.length m = n) by (exact (CS value m (dget_In _ _ G))).
      rewrite re_qsum, scale_pos by assumption. cbv zeta. destruct (qltb 0 (qsum m)).
      - apply IH; [reflexivity|exact Lm|reflexivity].
      - destruct (get_class_value mu y); cbn [bind same_tree]; reflexivity. }
    match type of Ch with same_trees ?a ?b => destruct a as [ts|], b as [ts'|] end; cbn [same_trees] in Ch; cbn [bind same_tree]; try contradiction; [|assumption].
    cbn [shape]. rewrite !map_app, SC, Ch. reflexivity.
  Qed.
  (** ** the membership table of the read rows *)
  Lemma re_mapM A B (f : A -> res B) d e l ys : List.length l = n -> mapM f l = Ok ys -> mapM f (re d l) = Ok (re e ys).
  Proof.
    intros L H. apply mapM_ok in H. apply mapM_ok. unfold re. assert (I : forall i, In i idx -> (i < n)%nat) by apply idx_lt. revert I. generalize idx as ix.
    induction ix as [|i ix IH]; intro I; [constructor|]. cbn [map]. constructor; [|apply IH; intros; apply I; right; assumption].
    assert (Hi := I i (or_introl eq_refl)). rewrite <- L in Hi. clear - H Hi. revert i Hi. induction H as [|x z l ys F H IH]; intros [|i] Hi; cbn [List.length nth] in *; try lia; [assumption|]. apply IH. lia.
  Qed.
  Lemma dset_map V W (f : V -> W) s v (d : dict string V) : dset s (f v) (map (fun nv => (fst nv, f (snd nv))) d) = map (fun nv => (fst nv, f (snd nv))) (dset s v d).
  Proof. induction d as [|[a w] d IH]; [reflexivity|]. cbn [map dset fst snd]. destruct (eqb s a); [reflexivity|]. cbn [map fst snd]. rewrite IH. reflexivity. Qed.
  Lemma dict_of_map V W (f : V -> W) (l : list (string * V)) : dict_of (map (fun nv => (fst nv, f (snd nv))) l) = map (fun nv => (fst nv, f (snd nv))) (dict_of l).
  Proof.
    unfold dict_of. change (@nil (string * W)) with (map (fun nv : string * V => (fst nv, f (snd nv))) []) at 1. generalize (@nil (string * V)) as d.
    induction l as [|[a v] l IH]; intro d; [reflexivity|]. cbn [map fold_left fst snd]. rewrite dset_map. apply IH.
  Qed.
  Lemma dict_of_In V (l : list (string * V)) x : In x (dict_of l) -> In x l.
  Proof.
    unfold dict_of. assert (G : forall d, In x (fold_left (fun d kv => dset (fst kv) (snd kv) d) l d) -> In x l \/ In x d).
    { induction l as [|[a v] l IH]; intros d H; [right; exact H|]. cbn [fold_left fst snd] in H. destruct (IH _ H) as [K|K]; [left; right; exact K|].
      assert (D : forall d : dict string V, In x (dset a v d) -> x = (a, v) \/ In x d).
      { clear. induction d as [|[b w] d IH]; cbn [dset]; [intros [E|[]]; left; auto|].
        destruct (eqb a b) eqn:E.
        - apply Prelude.eqb_eq in E. subst b. intros [H|H]; [left; auto|right; right; exact H].
        - intros [H|H]; [right; left; exact H|]. destruct (IH H); [left; assumption|right; right; assumption]. }
      destruct (D _ K) as [->|K']; [left; left; reflexivity|right; exact K']. }
    intro H. destruct (G _ H) as [K|[]]. exact K.
  Qed.
  Lemma re_mapM_rel A B (f g : A -> res B) (h : B -> B) l ys : (forall x z, In x l -> f x = Ok z -> g x = Ok (h z)) -> mapM f l = Ok ys -> mapM g l = Ok (map h ys).
  Proof.
    intros H E. apply mapM_ok in E. apply mapM_ok. revert H. induction E as [|x z l ys F E IH]; intro H; [constructor|]. cbn [map]. constructor.
    - apply H; [left; reflexivity|assumption].
    - apply IH. intros; apply H; [right|]; assumption.
  Qed.
  Lemma re_membership X vars XM : List.length X = n -> dataset_membership X vars = Ok XM ->
    dataset_membership (re [] X) vars = Ok (re_mem XM) /\ sized XM.
  Proof.
    intros L H. unfold dataset_membership in *.
    match type of H with bind ?r _ = _ => destruct r as [l|] eqn:E; [|discriminate] end. cbn [bind] in H. assert (XM = dict_of l) by congruence. subst XM. clear H.
    assert (Col : forall i col, column X i = Ok col -> column (re [] X) i = Ok (re (CNum 0) col) /\ List.length col = n).
    { intros i col H. split; [exact (re_mapM _ _ _ [] (CNum 0) X col L H)|]. unfold column in H. apply mapM_length in H. congruence. }
    assert (Var : forall v col d, List.length col = n -> var_membership v col = Ok d -> var_membership v (re (CNum 0) col) = Ok (re_sets d) /\ sized_sets d).
    { intros v col d Lc H. unfold var_membership in *. match type of H with bind ?r _ = _ => destruct r as [ds|] eqn:F; [|discriminate] end. cbn [bind] in H. assert (d = dict_of ds) by congruence. subst d. split.
      - rewrite (re_mapM_rel _ _ _ (fun s => do m <- membership_col s (re (CNum 0) col); Ok (fs_name s, m)) (fun nv => (fst nv, re 0 (snd nv))) _ _ ) with (2 := F); [cbn [bind]; f_equal; apply dict_of_map|].
        intros s z _ G. unfold membership_col in *. destruct (mapM (membership s) col) as [m|] eqn:M; cbn [bind] in G; [|discriminate]. rewrite (re_mapM _ _ _ (CNum 0) 0 col m Lc M). cbn [bind]. assert (z = (fs_name s, m)) by congruence. subst z. reflexivity.
      - intros s w I. apply dict_of_In in I. apply mapM_ok in F. clear H. induction F as [|x z ls ds Fx F IH]; [destruct I|]. destruct I as [->|I]; [|exact (IH I)].
        unfold membership_col in Fx. destruct (mapM (membership x) col) as [m|] eqn:M; cbn [bind] in Fx; [|discriminate]. apply mapM_length in M. assert (w = m) by congruence. subst w. congruence. }
    assert (Row : forall iv z, (let '(i, v) := iv in do col <- column X i; do d <- var_membership v col; Ok (fv_name v, d)) = Ok z ->
       (let '(i, v) := iv in do col <- column (re [] X) i; do d <- var_membership v col; Ok (fv_name v, d)) = Ok (fst z, re_sets (snd z)) /\ sized_sets (snd z)).
    { intros [i v] z H. destruct (column X i) as [col|] eqn:C; cbn [bind] in H; [|discriminate]. destruct (Col i col C) as [C' Lc]. rewrite C'. cbn [bind].
      destruct (var_membership v col) as [d|] eqn:D; cbn [bind] in H; [|discriminate]. destruct (Var v col d Lc D) as [D' S]. rewrite D'. cbn [bind]. assert (z = (fv_name v, d)) by congruence. subst z. split; [reflexivity|exact S]. }
    split.
    - rewrite (re_mapM_rel _ _ _ (fun iv => let '(i, v) := iv in do col <- column (re [] X) i; do d <- var_membership v col; Ok (fv_name v, d)) (fun nv => (fst nv, re_sets (snd nv))) _ _) with (2 := E); [cbn [bind]; f_equal; apply dict_of_map|].
      intros iv z _ H. exact (proj1 (Row iv z H)).
    - intros f d I. apply dict_of_In in I. apply mapM_ok in E. induction E as [|x z ls l Fx E IH]; [destruct I|]. destruct I as [->|I]; [|exact (IH I)].
      exact (proj2 (Row x (f, d) Fx)).
  Qed.
  Lemma idx_length : List.length idx = (k * n)%nat.
  Proof. rewrite (Permutation_length Hidx), concat_repeat_length, seq_length. reflexivity. Qed.
  Lemma re_fit cfg ord root root' X y t : List.length X = n -> List.length y = n -> shape root = shape root' -> fit cfg ord root X y = Ok t ->
    exists t', fit (times cfg) ord root' (re [] X) (re 0%Z y) = Ok t' /\ shape t' = shape t.
  Proof.
    intros L L' Sh H. unfold fit in *. destruct (_ || _) eqn:G; [discriminate|]. apply orb_false_iff in G. destruct G as [G1 G2].
    rewrite L' in G2. apply Nat.eqb_neq in G2. rewrite !re_length, idx_length. rewrite Nat.eqb_refl. cbn [negb orb].
    replace (Nat.eqb (k * n) 0) with false by (symmetry; apply Nat.eqb_neq; nia).
    destruct (dataset_membership X (f_vars cfg)) as [XM|] eqn:M; cbn [bind] in H; [|discriminate]. destruct (re_membership _ _ _ L M) as [M' S].
    change (f_vars (times cfg)) with (f_vars cfg). rewrite M'. cbn [bind]. change (f_features (times cfg)) with (f_features cfg).
    destruct root as [l cs cv lv va vr mu], root' as [l' cs' cv' lv' va' vr' mu']. cbn [t_leaf t_children t_value t_var t_class t_level] in *.
    match type of H with partial_fit ?fu _ _ _ _ ?nd _ _ _ = _ =>
      assert (Q := re_partial_fit cfg ord XM y 0%Z L' S fu nd (Tree l' cs' cv' lv' va' vr' (repeat 1 (k * n))) [] (f_features cfg) 0%Z) end.
    rewrite H in Q. cbn [t_mu] in Q. rewrite repeat_length in Q. specialize (Q ltac:(cbn [shape] in Sh |- *; exact Sh) L').
    rewrite <- idx_length in *. specialize (Q ltac:(rewrite L'; symmetry; apply re_repeat)).
    destruct (partial_fit _ (times cfg) _ _ _ _ _ _ _) as [t'|]; cbn [same_tree] in Q; [|destruct Q]. exists t'. split; [reflexivity|]. symmetry. exact Q.
  Qed.
End Reindex.

(** ** from permutations to positions *)
Lemma rows_reindex (X X' : list (list cell)) y y' k : rows_times k X y X' y' ->
  exists idx, Permutation idx (List.concat (repeat (seq 0 (List.length y)) k)) /\ X' = re idx [] X /\ y' = re idx 0%Z y.
Proof.
  intros (L & L' & P).
  assert (E : combine X y = map (fun i => (nth i X [], nth i y 0%Z)) (seq 0 (List.length y))).
  { rewrite <- (seq_nth_id _ ([], 0%Z) (combine X y)) at 1. rewrite combine_length, L, Nat.min_id. apply map_ext. intro i. apply combine_nth. assumption. }
  rewrite E, <- concat_repeat_map in P. apply Permutation_map_inv in P. destruct P as [idx [P1 P2]]. exists idx. split; [symmetry; assumption|].
  split; [apply (f_equal (map fst)) in P1|apply (f_equal (map snd)) in P1]; [rewrite map_fst_combine in P1 by assumption|rewrite map_snd_combine in P1 by assumption]; rewrite P1, map_map; reflexivity.
Qed.

(** ** predictions and rules do not read what was recorded of the training rows *)
Lemma shape_predict tn X t : forall mu, partial_predict tn X mu (shape t) = partial_predict tn X mu t.
Proof.
  induction t as [l cs cv lv va vr mu IH] using tree_ind'. intro m. cbn [shape partial_predict].
  match goal with |- bind ?r _ = bind ?r' _ => change r' with r; destruct r as [nm|] end; cbn [bind]; [|reflexivity].
  destruct l; [reflexivity|]. destruct cs as [|c cs]; [reflexivity|]. cbn [map].
  assert (E : mapM (partial_predict tn X nm) (map shape (c :: cs)) = mapM (partial_predict tn X nm) (c :: cs)).
  { clear - IH. induction IH as [|x l Hx _ IH]; [reflexivity|]. cbn [map mapM]. rewrite Hx, IH. reflexivity. }
  cbn [map] in E. rewrite E. reflexivity.
Qed.
Lemma shape_rules th t : forall prefix, get_rules (shape t) prefix th = get_rules t prefix th.
Proof.
  induction t as [l cs cv lv va vr mu IH] using tree_ind'. intro pr. cbn [shape get_rules].
  match goal with |- bind ?r _ = bind ?r' _ => change r' with r; destruct r as [nm|] end; cbn [bind]; [|reflexivity].
  destruct l; [reflexivity|].
  assert (E : mapM (fun c => get_rules c nm th) (map shape cs) = mapM (fun c => get_rules c nm th) cs).
  { clear - IH. induction IH as [|x l Hx _ IH]; [reflexivity|]. cbn [map mapM]. rewrite Hx, IH. reflexivity. }
  rewrite E. reflexivity.
Qed.
Lemma same_shape_predict cfg t t' X : shape t = shape t' -> predict cfg t X = predict cfg t' X.
Proof. intro S. unfold predict. rewrite <- (shape_predict _ _ t), <- (shape_predict _ _ t'), S. reflexivity. Qed.
Lemma same_shape_rules t t' th : shape t = shape t' -> tree_rules t th = tree_rules t' th.
Proof. intro S. unfold tree_rules. rewrite <- (shape_rules _ t), <- (shape_rules _ t'), S. reflexivity. Qed.
Lemma times_predict k cfg t X : predict (times k cfg) t X = predict cfg t X.
Proof. reflexivity. Qed.
