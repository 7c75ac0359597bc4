(** * One step of ID3 training *)
From Verif Require Import Prelude M_Fuzzy M_Discretize M_Rule M_ID3 S_ID3 P_Entropy P_FuzzySet P_FuzzyVar P_Rule P_FDT P_ID3.
From Coq Require Import Reals Lra OrderedTypeEx.
Set Implicit Arguments.
Open Scope Qc_scope.

Definition majority (D : list (list cell * Z)) (c : Z) (k : nat) : Prop :=
  In c (map snd D) /\ k = times c D /\ forall c', (times c' D <= k)%nat.

Lemma i_positions_get features i f : NoDup features -> nth_error features i = Some f -> dget f (i_positions features) = Some i.
Proof.
  intros N H. unfold i_positions. apply dict_of_get_nodup.
  - rewrite map_map. cbn [fst]. rewrite (map_enumerate (fun x => x)). rewrite map_id. assumption.
  - apply in_map_iff. exists (i, f). split; [reflexivity|]. apply enumerate_In. assumption.
Qed.
Lemma max_by_ext A (l : list A) : forall lt lt' : A -> A -> bool, (forall a b, lt a b = lt' a b) -> max_by lt l = max_by lt' l.
Proof.
  intros lt lt' E. destruct l as [|x l]; [reflexivity|]. cbn. f_equal. revert x. induction l as [|y l IH]; intro x; [reflexivity|].
  cbn. rewrite E. apply IH.
Qed.
Lemma max_count (L : list (Z * nat)) m : max_by (fun a b : Z * nat => Nat.ltb (snd a) (snd b)) L = Some m ->
  In m L /\ forall x, In x L -> (snd x <= snd m)%nat.
Proof.
  intro H. rewrite (@max_by_ext _ L _ (fun a b => qltb (qn (snd a)) (qn (snd b)))) in H.
  - apply (max_by_spec (fun a : Z * nat => qn (snd a))) in H. destruct H as (I & M & _). split; [assumption|].
    intros x Hx. apply qn_le. apply M. assumption.
  - intros a b. destruct (Nat.ltb_spec (snd a) (snd b)) as [H1|H1]; symmetry.
    + apply qltb_lt, qn_lt. assumption.
    + apply qltb_ge, qn_le. assumption.
Qed.
Lemma np_unique_spec col : (forall c, In c col -> exists q, c = CNum q) \/ (forall c, In c col -> exists s, c = CStr s) ->
  exists u, np_unique col = Ok u /\ NoDup u /\ forall c, In c u <-> In c col.
Proof.
  intro H. unfold np_unique. destruct H as [H|H].
  - assert (S : flat_map cstr col = []).
    { clear - H. induction col as [|c col IH]; [reflexivity|]. cbn. destruct (H c) as [q ->]; [left; reflexivity|]. cbn. apply IH. intros; apply H; right; assumption. }
    assert (N : col = map CNum (flat_map cnum col)).
    { clear - H. induction col as [|c col IH]; [reflexivity|]. cbn. destruct (H c) as [q ->]; [left; reflexivity|]. cbn. f_equal. apply IH. intros; apply H; right; assumption. }
    rewrite S. exists (map CNum (qunique (flat_map cnum col))). split; [destruct (flat_map cnum col); reflexivity|]. split.
    + apply FinFun.Injective_map_NoDup; [intros a b E; injection E; auto|apply qunique_NoDup].
    + intro c. rewrite N at 2. rewrite !in_map_iff. split; intros [x [E I]]; exists x; (split; [assumption|]); apply qunique_In; assumption.
  - assert (S : flat_map cnum col = []).
    { clear - H. induction col as [|c col IH]; [reflexivity|]. cbn. destruct (H c) as [q ->]; [left; reflexivity|]. cbn. apply IH. intros; apply H; right; assumption. }
    assert (N : col = map CStr (flat_map cstr col)).
    { clear - H. induction col as [|c col IH]; [reflexivity|]. cbn. destruct (H c) as [q ->]; [left; reflexivity|]. cbn. f_equal. apply IH. intros; apply H; right; assumption. }
    rewrite S. exists (map CStr (unique_by String.ltb (flat_map cstr col))).
    assert (T : forall a b c, String.ltb a b = true -> String.ltb b c = true -> String.ltb a c = true).
    { intros a b c A B. unfold String.ltb in *. destruct (String.compare a b) eqn:E1; try discriminate. destruct (String.compare b c) eqn:E2; try discriminate.
      apply String_as_OT.cmp_lt in E1. apply String_as_OT.cmp_lt in E2.
      assert (E3 := String_as_OT.lt_trans _ _ _ E1 E2). apply String_as_OT.cmp_lt in E3. unfold String_as_OT.cmp in E3. rewrite E3. reflexivity. }
    assert (R : forall a, String.ltb a a = false).
    { intro a. unfold String.ltb. assert (E : String.compare a a = Eq) by (apply (proj2 (String_as_OT.cmp_eq a a)); reflexivity). rewrite E. reflexivity. }
    assert (TT : forall a b, String.ltb a b = false -> String.ltb b a = false -> a = b).
    { intros a b A B. unfold String.ltb in *. assert (AS := String_as_OT.cmp_antisym a b). unfold String_as_OT.cmp in AS.
      destruct (String.compare a b) eqn:E1; [apply (proj1 (String_as_OT.cmp_eq a b)); assumption|discriminate|].
      destruct (String.compare b a); cbn in AS; discriminate. }
    split; [destruct (flat_map cstr col); reflexivity|]. split.
    + apply FinFun.Injective_map_NoDup; [intros a b E; injection E; auto|]. apply unique_by_NoDup; assumption.
    + intro c. rewrite N at 2. rewrite !in_map_iff. split; intros [x [E I]]; exists x; (split; [assumption|]); apply (unique_by_In _ TT); assumption.
Qed.

(** prediction at an inner node *)
Definition walk (x : list cell) (v : cell) := fix go (ch : list itree) (spl : list cell) {struct ch} : res (option Z) :=
  match ch, spl with
  | _, [] => Ok None
  | [], _ => if memb v spl then Err IndexError else Ok None
  | c :: ch', s :: spl' => if eqb v s then id3_tree_predict c x else go ch' spl'
  end.
Lemma walk_hit x v ch : forall spl j c, NoDup spl -> nth_error spl j = Some v -> nth_error ch j = Some c -> walk x v ch spl = id3_tree_predict c x.
Proof.
  induction ch as [|c0 ch IH]; intros [|s spl] [|j] c N S C; try discriminate; cbn in S, C; cbn [walk].
  - injection S as ->. injection C as ->. rewrite eqb_refl. reflexivity.
  - inversion N as [|? ? Ns Nl]; subst. destruct (eqb v s) eqn:E; [|apply (IH spl j c); assumption].
    rewrite eqb_eq in E. subst. exfalso. apply Ns. eapply nth_error_In; eassumption.
Qed.
Lemma walk_miss x v ch : forall spl, ~ In v spl -> walk x v ch spl = Ok None.
Proof.
  induction ch as [|c0 ch IH]; intros [|s spl] H; cbn [walk]; try reflexivity.
  - replace (memb v (s :: spl)) with false; [reflexivity|]. symmetry. apply memb_not_In. assumption.
  - replace (eqb v s) with false; [apply IH; intro; apply H; right; assumption|]. symmetry. apply eqb_neq. intros ->. apply H. left; reflexivity.
Qed.
Lemma predict_leaf t x : i_leaf t = true -> id3_tree_predict t x = Ok (Some (i_class t)).
Proof. destruct t as [v [|] ch spl c cc l e n]; cbn; [reflexivity|discriminate]. Qed.
Lemma predict_inner t i x v : i_leaf t = false -> i_var t = Some i -> nth_error x i = Some v ->
  id3_tree_predict t x = walk x v (i_children t) (i_splits t).
Proof.
  destruct t as [var [|] ch spl c cc l e n]; cbn [i_leaf i_var i_children i_splits]; [discriminate|]. intros _ -> H. cbn [id3_tree_predict].
  destruct spl as [|s spl]; [destruct ch; reflexivity|]. rewrite H. cbn [ret_opt bind]. reflexivity.
Qed.
Lemma predict_childless t x : i_leaf t = false -> i_splits t = [] -> id3_tree_predict t x = Ok None.
Proof. destruct t as [var [|] ch spl c cc l e n]; cbn [i_leaf i_splits]; [discriminate|]. intros _ ->. reflexivity. Qed.

(** rules of an inner node *)
Definition rules_go (features : list string) (var : option nat) (conditions : list (string * cell)) :=
  fix go (ch : list itree) (spl : list cell) {struct ch} : res (list (rule cell)) :=
     match ch, spl with
     | _, [] => Ok []
     | [], _ => Err IndexError
     | t' :: ch', s :: spl' =>
         do f <- ret_opt IndexError match var with Some i => nth_error features i | None => nth_error features (List.length features - 1) end;
         do rs <- id3_get_rules features t' (conditions ++ [(f, s)]);
         do rs' <- go ch' spl';
         Ok (rs ++ rs')
     end.
Lemma rules_inner features t conds : i_leaf t = false ->
  id3_get_rules features t conds = rules_go features (i_var t) conds (i_children t) (i_splits t).
Proof. destruct t as [var [|] ch spl c cc l e n]; cbn [i_leaf]; [discriminate|]. reflexivity. Qed.
Lemma rules_leaf features t conds : i_leaf t = true -> id3_get_rules features t conds = Ok [mkR conds (i_class t) 1].
Proof. destruct t as [var [|] ch spl c cc l e n]; cbn [i_leaf]; [reflexivity|discriminate]. Qed.
Definition rules_from (conds : list (string * cell)) (L : list (list (string * cell) * Z)) : list (rule cell) :=
  map (fun sc => mkR (conds ++ fst sc) (snd sc) 1) L.
(** exactly one branch of [L] holds, with class [c] *)
Definition one_holds (sat : string * cell -> Prop) (L : list (list (string * cell) * Z)) (c : Z) : Prop :=
  exists L1 sc L2, L = L1 ++ sc :: L2 /\ snd sc = c /\ Forall sat (fst sc) /\
    Forall (fun sc' => ~ Forall sat (fst sc')) L1 /\ Forall (fun sc' => ~ Forall sat (fst sc')) L2.
Definition none_holds (sat : string * cell -> Prop) (L : list (list (string * cell) * Z)) : Prop :=
  Forall (fun sc' => ~ Forall sat (fst sc')) L.
Definition prefixed (fs : string * cell) (L : list (list (string * cell) * Z)) := map (fun sc : list (string * cell) * Z => (fs :: fst sc, snd sc)) L.
Lemma prefixed_rules conds fs L : rules_from conds (prefixed fs L) = rules_from (conds ++ [fs]) L.
Proof. unfold rules_from, prefixed. rewrite map_map. apply map_ext. intros [a b]. cbn. rewrite <- app_assoc. reflexivity. Qed.
Lemma prefixed_none (sat : string * cell -> Prop) fs L : ~ sat fs -> none_holds sat (prefixed fs L).
Proof. intro H. unfold none_holds, prefixed. apply Forall_forall. intros sc I. apply in_map_iff in I. destruct I as [z [<- _]]. intro Q. inversion Q. contradiction. Qed.
Lemma prefixed_none' (sat : string * cell -> Prop) fs L : none_holds sat L -> none_holds sat (prefixed fs L).
Proof.
  unfold none_holds, prefixed. rewrite !Forall_forall. intros H sc I. apply in_map_iff in I. destruct I as [z [<- I]]. intro Q. inversion Q; subst. apply (H z I). assumption.
Qed.
Lemma prefixed_one (sat : string * cell -> Prop) fs L c : sat fs -> one_holds sat L c -> one_holds sat (prefixed fs L) c.
Proof.
  intros S (L1 & sc & L2 & -> & Hc & Hs & H1 & H2). exists (prefixed fs L1), (fs :: fst sc, snd sc), (prefixed fs L2).
  split; [unfold prefixed; rewrite map_app; reflexivity|]. split; [assumption|]. split; [constructor; assumption|].
  split; apply prefixed_none'; assumption.
Qed.
Lemma one_app_l (sat : string * cell -> Prop) L L' c : one_holds sat L c -> none_holds sat L' -> one_holds sat (L ++ L') c.
Proof.
  intros (L1 & sc & L2 & -> & Hc & Hs & H1 & H2) N. exists L1, sc, (L2 ++ L'). rewrite <- app_assoc. split; [reflexivity|]. split; [assumption|]. split; [assumption|].
  split; [assumption|]. apply Forall_app. auto.
Qed.
Lemma one_app_r (sat : string * cell -> Prop) L L' c : none_holds sat L -> one_holds sat L' c -> one_holds sat (L ++ L') c.
Proof.
  intros N (L1 & sc & L2 & -> & Hc & Hs & H1 & H2). exists (L ++ L1), sc, L2. rewrite <- app_assoc. split; [reflexivity|]. split; [assumption|]. split; [assumption|].
  split; [|assumption]. apply Forall_app. auto.
Qed.

Section Fit.
  Variables (cfg : id3_cfg) (cls : list Z -> list Z) (fts : list string -> list string) (SP : list (list cell)) (yc : list Z).
  Hypothesis Ho : set_orders cfg cls fts.
  Hypothesis ND : NoDup (i_features cfg).
  Hypothesis NE : i_features cfg <> [].
  Hypothesis HSP : forall i, (i < List.length (i_features cfg))%nat -> exists spl, nth_error SP i = Some spl /\ NoDup spl.

  (** every row has, for every feature, one of the values of that feature *)
  Definition fine (D : list (list cell * Z)) : Prop :=
    forall xy, In xy D -> forall i spl, (i < List.length (i_features cfg))%nat -> nth_error SP i = Some spl ->
      exists v, nth_error (fst xy) i = Some v /\ In v spl.
  Definition cellat (i : nat) (xy : list cell * Z) : cell := nth i (fst xy) (CNum 0).

  Lemma fine_having D i v : fine D -> fine (having i v D).
  Proof. intros F xy Hxy. unfold having in Hxy. apply filter_In in Hxy. apply F, Hxy. Qed.
  Lemma fine_at D i spl xy : fine D -> In xy D -> (i < List.length (i_features cfg))%nat -> nth_error SP i = Some spl ->
    nth_error (fst xy) i = Some (cellat i xy) /\ In (cellat i xy) spl.
  Proof.
    intros F I L S. destruct (F xy I i spl L S) as [v [H1 H2]]. unfold cellat. rewrite (nth_error_nth _ _ (CNum 0) H1). auto.
  Qed.
  Lemma column_fine D i : fine D -> (i < List.length (i_features cfg))%nat -> column (map fst D) i = Ok (map (cellat i) D).
  Proof.
    intros F L. destruct (HSP L) as [spl [S _]]. unfold column. induction D as [|xy D IH]; [reflexivity|]. cbn [map mapM].
    destruct (@fine_at (xy :: D) i spl xy F (or_introl eq_refl) L S) as [H _]. rewrite H. cbn [ret_opt bind].
    rewrite IH; [reflexivity|]. intros z Hz. apply F. right; assumption.
  Qed.
  Lemma labels_having D i s : fine D -> (i < List.length (i_features cfg))%nat ->
    labels_at (map (cellat i) D) (map snd D) s = map snd (having i s D).
  Proof.
    intros F L. destruct (HSP L) as [spl [S _]]. unfold labels_at, having, zip, has_value. induction D as [|xy D IH]; [reflexivity|].
    cbn [map combine filter fst]. destruct (@fine_at (xy :: D) i spl xy F (or_introl eq_refl) L S) as [H _]. rewrite H.
    assert (IH' := IH (fun z Hz => F z (or_intror Hz))).
    assert (E : eqb (Some (cellat i xy)) (Some s) = eqb (cellat i xy) s).
    { destruct (eqb (cellat i xy) s) eqn:E; [rewrite eqb_eq in E; rewrite E; apply eqb_refl|]. rewrite eqb_neq in *. congruence. }
    rewrite E. destruct (eqb (cellat i xy) s); cbn [map snd]; rewrite IH'; reflexivity.
  Qed.
  Lemma rows_having D i s : fine D -> (i < List.length (i_features cfg))%nat ->
    map snd (filter (fun p => eqb (fst p) s) (zip (map (cellat i) D) (zip (map fst D) (map snd D)))) = having i s D.
  Proof.
    intros F L. destruct (HSP L) as [spl [S _]]. unfold having, zip, has_value. induction D as [|xy D IH]; [reflexivity|].
    cbn [map combine filter fst]. destruct (@fine_at (xy :: D) i spl xy F (or_introl eq_refl) L S) as [H _]. rewrite H.
    assert (IH' := IH (fun z Hz => F z (or_intror Hz))).
    assert (E : eqb (Some (cellat i xy)) (Some s) = eqb (cellat i xy) s).
    { destruct (eqb (cellat i xy) s) eqn:E; [rewrite eqb_eq in E; rewrite E; apply eqb_refl|]. rewrite eqb_neq in *. congruence. }
    rewrite E. destruct (eqb (cellat i xy) s); cbn [map snd]; rewrite IH'; [|reflexivity]. destruct xy; reflexivity.
  Qed.
  Lemma values_at D i : fine D -> (i < List.length (i_features cfg))%nat ->
    flat_map (fun xy : list cell * Z => match nth_error (fst xy) i with Some v => [v] | None => [] end) D = map (cellat i) D.
  Proof.
    intros F L. destruct (HSP L) as [spl [S _]]. induction D as [|xy D IH]; [reflexivity|]. cbn [flat_map map].
    destruct (@fine_at (xy :: D) i spl xy F (or_introl eq_refl) L S) as [H _]. rewrite H. cbn [app]. f_equal. apply IH.
    intros z Hz. apply F. right; assumption.
  Qed.
  Lemma cls_props y : NoDup (cls y) /\ (forall c, In c (cls y) <-> In c y).
  Proof.
    destruct Ho as [H _]. split; [apply (Permutation_NoDup (Permutation_sym (H y))), NoDup_nodup|].
    intro c. rewrite <- (nodup_In Z.eq_dec y). split; apply Permutation_in; [apply H|apply Permutation_sym, H].
  Qed.
  Lemma fts_props erased : NoDup (fts erased) /\ forall f, In f (fts erased) <-> In f (i_features cfg) /\ ~ In f erased.
  Proof.
    destruct Ho as [_ H]. assert (P := H erased). split.
    - apply (Permutation_NoDup (Permutation_sym P)). apply NoDup_filter, NoDup_nodup.
    - intro f. assert (E : In f (filter (fun f => negb (memb f erased)) (nodup string_dec (i_features cfg))) <-> In f (i_features cfg) /\ ~ In f erased).
      { rewrite filter_In, nodup_In, negb_true_iff, memb_not_In. reflexivity. }
      rewrite <- E. split; apply Permutation_in; [assumption|apply Permutation_sym; assumption].
  Qed.
  Lemma having_empty D i s : fine D -> (i < List.length (i_features cfg))%nat -> ~ In s (map (cellat i) D) -> having i s D = [].
  Proof.
    intros F L N. destruct (HSP L) as [spl [S _]]. unfold having. destruct (filter _ D) as [|xy l] eqn:E; [reflexivity|exfalso].
    assert (H : In xy (filter (fun xy => has_value i s (fst xy)) D)) by (rewrite E; left; reflexivity).
    apply filter_In in H. destruct H as [H1 H2]. unfold has_value in H2. rewrite eqb_eq in H2.
    destruct (@fine_at D i spl xy F H1 L S) as [Q _]. apply N. apply in_map_iff. exists xy. split; [congruence|assumption].
  Qed.
  (** the code's gain is the information gain *)
  Lemma gain_exact D i spl : fine D -> D <> [] -> (i < List.length (i_features cfg))%nat -> nth_error SP i = Some spl ->
    id3_gain (cls (map snd D)) (map (cellat i) D) (map snd D) spl (List.length D) = information_gain D i.
  Proof.
    intros F NE' L S. destruct (HSP L) as [spl' [S' NS]]. rewrite S' in S. injection S as ->.
    destruct (cls_props (map snd D)) as [NC IC].
    assert (LR : (0 < INR (List.length D))%R) by (apply lt_0_INR; destruct D; [congruence|cbn; lia]).
    unfold id3_gain, information_gain. rewrite (@class_entropy_bits _ D NC (fun c H => proj2 (IC c) H) NE'). f_equal.
    rewrite (@values_at D i F L).
    rewrite (@rsum_superset cell _ (nodup eq_dec (map (cellat i) D)) spl).
    - apply rsum_map_ext. intros s _. unfold split_term. rewrite (@labels_having D i s F L).
      destruct (having i s D) as [|xy R] eqn:E; [cbn; unfold Rdiv; ring|]. cbn [map].
      change (snd xy :: map snd R) with (map snd (xy :: R)). rewrite <- E. rewrite map_length.
      rewrite (@class_entropy_bits _ (having i s D) NC).
      + field. lra.
      + intros c Hc. apply IC. apply in_map_iff in Hc. destruct Hc as [z [<- Hz]]. unfold having in Hz. apply filter_In in Hz. apply in_map, Hz.
      + rewrite E. discriminate.
    - apply NoDup_nodup.
    - assumption.
    - intros v Hv. rewrite nodup_In in Hv. apply in_map_iff in Hv. destruct Hv as [xy [<- Hxy]]. eapply fine_at; eassumption.
    - intros v _ Hv. rewrite nodup_In in Hv. rewrite (@having_empty D i v F L Hv). cbn [List.length INR]. unfold Rdiv. ring.
  Qed.
  Lemma information_gain_nonneg D i : fine D -> D <> [] -> (i < List.length (i_features cfg))%nat -> (0 <= information_gain D i)%R.
  Proof.
    intros F NE' L. destruct (HSP L) as [spl [S NS]]. rewrite <- (@gain_exact D i spl F NE' L S).
    destruct (cls_props (map snd D)) as [NC IC]. rewrite <- (map_length snd D). apply gain_nonneg; [assumption| | |assumption| |rewrite !map_length; reflexivity].
    - intros c Hc. apply IC. assumption.
    - destruct D; [congruence|discriminate].
    - intros v Hv. apply in_map_iff in Hv. destruct Hv as [xy [<- Hxy]]. eapply fine_at; eassumption.
  Qed.

  (** the first feature of [tested] with the largest gain *)
  Definition picked (D : list (list cell * Z)) (tested : list string) (best : option (nat * list cell) * R) : Prop :=
    match fst best with
    | None => tested = [] /\ snd best = (-1)%R
    | Some (i, spl) => exists f l1 l2, tested = l1 ++ f :: l2 /\ nth_error (i_features cfg) i = Some f /\ nth_error SP i = Some spl /\
        snd best = information_gain D i /\
        (forall f' j, In f' l1 -> nth_error (i_features cfg) j = Some f' -> (information_gain D j < information_gain D i)%R) /\
        (forall f' j, In f' l2 -> nth_error (i_features cfg) j = Some f' -> (information_gain D j <= information_gain D i)%R)
    end.
  Lemma feature_index_inj i j f : nth_error (i_features cfg) i = Some f -> nth_error (i_features cfg) j = Some f -> i = j.
  Proof.
    intros A B. rewrite NoDup_nth_error in ND. apply ND; [apply nth_error_Some; congruence|congruence].
  Qed.
  Lemma best_feature_ok D to_test : fine D -> D <> [] -> incl to_test (i_features cfg) ->
    exists best, best_feature (i_positions (i_features cfg)) SP (map fst D) (map snd D) (cls (map snd D)) to_test = Ok best /\ picked D to_test best.
  Proof.
    intros F NE' I. unfold best_feature.
    match goal with |- context [foldM ?f _ _] => remember f as step eqn:Es end.
    assert (G : forall l2 l1 b, incl l2 (i_features cfg) -> picked D l1 b -> exists best, foldM step b l2 = Ok best /\ picked D (l1 ++ l2) best).
    { induction l2 as [|f l2 IH]; intros l1 b I2 P.
      - exists b. rewrite app_nil_r. split; [reflexivity|assumption].
      - cbn [foldM].
        assert (Q : exists i, nth_error (i_features cfg) i = Some f /\ step b f =
          if Rltb (snd b) (information_gain D i) then Ok (Some (i, nth i SP []), information_gain D i) else Ok b).
        { destruct (In_nth_error (i_features cfg) f) as [i Hi]; [apply I2; left; reflexivity|].
        exists i. split; [assumption|]. rewrite Es.
        rewrite (i_positions_get _ ND Hi). cbn [ret_opt bind]. assert (L : (i < List.length (i_features cfg))%nat) by (apply nth_error_Some; congruence).
        rewrite (@column_fine D i F L). cbn [bind]. destruct (HSP L) as [spl [S NS]]. rewrite S. cbn [ret_opt bind].
        rewrite !map_length, Nat.eqb_refl. cbn [negb]. cbn zeta. rewrite (@gain_exact D i spl F NE' L S).
        rewrite (nth_error_nth _ _ [] S). reflexivity. }
        destruct Q as (i & Hi & Q). rewrite Q. clear Q.
        assert (L : (i < List.length (i_features cfg))%nat) by (apply nth_error_Some; congruence).
        destruct (HSP L) as [spl [S NS]]. rewrite (nth_error_nth _ _ [] S).
        assert (E : l1 ++ f :: l2 = (l1 ++ [f]) ++ l2) by (rewrite <- app_assoc; reflexivity). rewrite E.
        destruct (Rltb (snd b) (information_gain D i)) eqn:R; cbn [bind]; apply IH; try (intros z Hz; apply I2; right; assumption).
        + apply Rltb_lt in R. unfold picked. cbn [fst snd]. exists f, l1, []. split; [reflexivity|]. split; [assumption|]. split; [assumption|]. split; [reflexivity|].
          split; [|intros ? ? []]. intros f' j Hf' Hj. unfold picked in P. destruct (fst b) as [[i0 spl0]|].
          * destruct P as (f0 & a & c & Q1 & Q2 & Q3 & Q4 & Q5 & Q6). rewrite Q1 in Hf'. apply in_app_iff in Hf'. destruct Hf' as [H|[<-|H]].
            -- assert (B := Q5 f' j H Hj). lra.
            -- rewrite (feature_index_inj _ _ Hj Q2). lra.
            -- assert (B := Q6 f' j H Hj). lra.
          * destruct P as [-> _]. destruct Hf'.
        + apply Rltb_ge in R. unfold picked in *. destruct (fst b) as [[i0 spl0]|].
          * destruct P as (f0 & a & c & Q1 & Q2 & Q3 & Q4 & Q5 & Q6). exists f0, a, (c ++ [f]). rewrite Q1, <- app_assoc. split; [reflexivity|].
            split; [assumption|]. split; [assumption|]. split; [assumption|]. split; [assumption|]. intros f' j Hf' Hj. apply in_app_iff in Hf'. destruct Hf' as [H|[<-|[]]].
            -- apply (Q6 f' j H Hj).
            -- rewrite (feature_index_inj _ _ Hj Hi). lra.
          * destruct P as [_ P]. assert (H := @information_gain_nonneg D i F NE' L). rewrite P in R. lra. }
    destruct (G to_test [] (None, (-1)%R) I) as [best [B1 B2]]; [split; reflexivity|]. exists best. split; [exact B1|exact B2].
  Qed.
  Lemma picked_nil D best : picked D [] best -> fst best = None.
  Proof.
    unfold picked. destruct (fst best) as [[i spl]|]; [|reflexivity]. intros (f & l1 & l2 & H & _). destruct l1; discriminate.
  Qed.
  Lemma picked_some D f l best : picked D (f :: l) best -> exists i spl g, fst best = Some (i, spl) /\ In g (f :: l) /\
    nth_error (i_features cfg) i = Some g /\ nth_error SP i = Some spl.
  Proof.
    unfold picked. destruct (fst best) as [[i spl]|]; [|intros [H _]; discriminate]. intros (g & l1 & l2 & H & H1 & H2 & _). exists i, spl, g.
    split; [reflexivity|]. split; [rewrite H; apply in_or_app; right; left; reflexivity|auto].
  Qed.
  Lemma majority_ok D : D <> [] ->
    exists c k, max_by (fun a b : Z * nat => Nat.ltb (snd a) (snd b)) (map (fun c => (c, count_class c (map snd D))) (cls (map snd D))) = Some (c, k) /\ majority D c k.
  Proof.
    intro NE'. destruct (cls_props (map snd D)) as [NC IC].
    destruct (max_by _ _) as [[c k]|] eqn:E.
    - exists c, k. split; [reflexivity|]. apply max_count in E. destruct E as [I M]. apply in_map_iff in I. destruct I as [c' [H I]]. injection H as -> <-.
      split; [apply IC; assumption|]. split; [symmetry; apply times_count|]. intro c'. rewrite times_count.
      destruct (in_dec Z.eq_dec c' (map snd D)) as [H|H]; [|rewrite count_zero by assumption; lia].
      apply (M (c', count_class c' (map snd D))). apply in_map_iff. exists c'. split; [reflexivity|]. apply IC. assumption.
    - exfalso. destruct D as [|[x a] D]; [congruence|]. assert (I : In a (cls (map snd ((x, a) :: D)))) by (apply IC; left; reflexivity).
      destruct (cls (map snd ((x, a) :: D))); [destruct I|discriminate].
  Qed.

  Definition fitn (fuel : nat) (D : list (list cell * Z)) (t : itree) (depth : Z) (erased : list string) : res itree :=
    id3_partial_fit fuel cfg cls fts SP yc (map fst D) (map snd D) t depth erased.
  Definition sub (fuel : nat) (c : Z) (i : nat) (depth : Z) (erased : list string) (D : list (list cell * Z)) (s : cell) : res (itree * nat) :=
    match having i s D with
    | [] => Ok (empty_child c (depth + 1), 0%nat)
    | _ => do child <- fitn fuel (having i s D) new_itree (depth + 1) erased; Ok (child, List.length (having i s D))
    end.
  Definition node_error (k n : nat) : Qc := 1 - qn k / qn n.
  Definition sub_error (children : list (itree * nat)) (n : nat) : Qc :=
    qsum (map (fun cn => i_error (fst cn) * (qn (snd cn) / qn n)) children).
  Definition finish (t : itree) (c : Z) (k n : nat) (depth : Z) (var : option nat) (spl : list cell) (children : list (itree * nat)) : res itree :=
    let error := sub_error children n in
    let num_leaf := (i_numleaf t + List.length spl)%nat in
    let inner := ITree var false (map fst children) spl c (Some (n, k)) depth error num_leaf in
    if i_prunning cfg then
      let d := qz (Z.of_nat num_leaf - 1) in
      if qeqb d 0 then Err ZeroDivisionError
      else if qltb ((node_error k n - error) / d) (i_th cfg)
      then Ok (ileaf inner c (n, k) depth (node_error k n))
      else Ok inner
    else Ok inner.
  Definition stops (depth : Z) (n : nat) : bool := Z.leb (i_max_depth cfg) depth || Z.ltb (Z.of_nat n) (i_min_examples cfg).
  Lemma step_eq fuel D t depth erased : fine D -> D <> [] ->
    exists c k best name, majority D c k /\ picked D (fts erased) best /\
      match fst best with Some (i, _) => nth_error (i_features cfg) i = Some name | None => True end /\
      fitn (S fuel) D t depth erased =
        if stops depth (List.length D) then Ok (ileaf t c (List.length D, k) depth (node_error k (List.length D)))
        else do children <- match fst best with Some (i, spl) => mapM (sub fuel c i depth (erased ++ [name]) D) spl | None => Ok [] end;
             finish t c k (List.length D) depth (option_map fst (fst best)) (match fst best with Some (_, s) => s | None => [] end) children.
  Proof.
    intros F NE'. destruct (majority_ok NE') as (c & k & EM & M).
    destruct (@best_feature_ok D (fts erased) F NE') as (best & EB & P); [intros f Hf; apply fts_props in Hf; apply Hf|].
    assert (L : Nat.eqb (List.length D) 0 = false) by (destruct D; [congruence|reflexivity]).
    assert (NAME : exists name, match fst best with Some (i, _) => nth_error (i_features cfg) i = Some name
        | None => nth_error (i_features cfg) (List.length (i_features cfg) - 1) = Some name end).
    { destruct (fst best) as [[i spl]|] eqn:E.
      - unfold picked in P. rewrite E in P. destruct P as (f & ? & ? & _ & H & _). exists f. assumption.
      - destruct (nth_error (i_features cfg) (List.length (i_features cfg) - 1)) as [f|] eqn:Q; [exists f; reflexivity|].
        apply nth_error_None in Q. destruct (i_features cfg); [congruence|cbn in Q; lia]. }
    destruct NAME as [name HN]. exists c, k, best, name. split; [assumption|]. split; [assumption|]. split; [destruct (fst best) as [[i spl]|]; auto|].
    unfold fitn at 1. cbn [id3_partial_fit]. cbn zeta. rewrite EM. rewrite map_length, L.
    unfold stops. destruct (Z.leb (i_max_depth cfg) depth); cbn [orb]; [reflexivity|].
    destruct (Z.ltb (Z.of_nat (List.length D)) (i_min_examples cfg)); [reflexivity|].
    rewrite EB. cbn [bind].
    destruct (fst best) as [[i spl]|] eqn:E; cbn [option_map fst] in *.
    - rewrite HN. cbn [ret_opt bind].
      assert (LI : (i < List.length (i_features cfg))%nat) by (apply nth_error_Some; congruence).
      match goal with |- bind ?a _ = bind ?b _ => assert (EM' : a = b) end.
      { apply mapM_ext. intros s _. rewrite (@column_fine D i F LI). cbn [bind]. cbn zeta. rewrite (@rows_having D i s F LI). unfold sub, fitn. reflexivity. }
      rewrite EM'. clear EM'. match goal with |- bind ?a _ = bind ?b _ => destruct b as [children|e] end; cbn [bind]; [|reflexivity].
      rewrite !map_length. reflexivity.
    - rewrite HN. cbn [ret_opt bind mapM map]. reflexivity.
  Qed.

  Definition splits_of (best : option (nat * list cell) * R) : list cell := match fst best with Some (_, s) => s | None => [] end.
  Definition grown (fuel : nat) (D : list (list cell * Z)) (c : Z) (depth : Z) (erased : list string)
      (best : option (nat * list cell) * R) (children : list (itree * nat)) : Prop :=
    match fst best with
    | Some (i, spl) => exists name, nth_error (i_features cfg) i = Some name /\
        Forall2 (fun s cn => sub fuel c i depth (erased ++ [name]) D s = Ok cn) spl children
    | None => children = []
    end.
  Lemma step_ok fuel D t depth erased r : fine D -> D <> [] -> fitn (S fuel) D t depth erased = Ok r ->
    exists c k, majority D c k /\ i_class r = c /\ i_count r = Some (List.length D, k) /\ i_level r = depth /\
      ((i_leaf r = true /\ i_error r = node_error k (List.length D) /\ i_numleaf r = 1%nat) \/
       (i_leaf r = false /\ stops depth (List.length D) = false /\ exists best children,
          picked D (fts erased) best /\ grown fuel D c depth erased best children /\
          i_var r = option_map fst (fst best) /\ i_splits r = splits_of best /\ i_children r = map fst children /\
          i_error r = sub_error children (List.length D) /\ i_numleaf r = (i_numleaf t + List.length (splits_of best))%nat /\
          (i_prunning cfg = true -> i_numleaf r <> 1%nat /\
             i_th cfg <= (node_error k (List.length D) - i_error r) / qz (Z.of_nat (i_numleaf r) - 1)))).
  Proof.
    intros F NE' H. destruct (@step_eq fuel D t depth erased F NE') as (c & k & best & name & M & P & N & E). rewrite E in H. clear E.
    exists c, k. split; [assumption|]. destruct (stops depth (List.length D)) eqn:St.
    - injection H as <-. cbn. auto 7.
    - destruct (match fst best with Some (i, spl) => mapM (sub fuel c i depth (erased ++ [name]) D) spl | None => Ok [] end) as [children|e] eqn:EC; cbn [bind] in H; [|discriminate].
      assert (G : grown fuel D c depth erased best children).
      { unfold grown. destruct (fst best) as [[i spl]|]; [|injection EC as <-; reflexivity]. exists name. split; [assumption|]. apply mapM_ok. assumption. }
      unfold finish in H. cbn zeta in H. fold (splits_of best) in H.
      assert (I : forall x, x = ITree (option_map fst (fst best)) false (map fst children) (splits_of best) c (Some (List.length D, k)) depth
          (sub_error children (List.length D)) (i_numleaf t + List.length (splits_of best)) ->
         (i_prunning cfg = true -> i_numleaf x <> 1%nat /\ i_th cfg <= (node_error k (List.length D) - i_error x) / qz (Z.of_nat (i_numleaf x) - 1)) ->
         i_class x = c /\ i_count x = Some (List.length D, k) /\ i_level x = depth /\
         ((i_leaf x = true /\ i_error x = node_error k (List.length D) /\ i_numleaf x = 1%nat) \/
         (i_leaf x = false /\ false = false /\ exists best0 children0,
          picked D (fts erased) best0 /\ grown fuel D c depth erased best0 children0 /\
          i_var x = option_map fst (fst best0) /\ i_splits x = splits_of best0 /\ i_children x = map fst children0 /\
          i_error x = sub_error children0 (List.length D) /\ i_numleaf x = (i_numleaf t + List.length (splits_of best0))%nat /\
          (i_prunning cfg = true -> i_numleaf x <> 1%nat /\
             i_th cfg <= (node_error k (List.length D) - i_error x) / qz (Z.of_nat (i_numleaf x) - 1))))).
      { intros x -> Q. cbn in *. split; [reflexivity|]. split; [reflexivity|]. split; [reflexivity|]. right. split; [reflexivity|]. split; [reflexivity|].
        exists best, children. auto 10. }
      destruct (i_prunning cfg) eqn:Pr.
      + destruct (qeqb _ 0) eqn:Z0 in H; [discriminate|]. destruct (qltb _ (i_th cfg)) eqn:T in H; injection H as <-.
        * cbn. auto 7.
        * apply I; [reflexivity|]. intros _. cbn. split.
          -- intro Q. rewrite Q in Z0. cbn in Z0. vm_compute in Z0. discriminate.
          -- apply qltb_ge in T. exact T.
      + injection H as <-. apply I; [reflexivity|]. discriminate.
  Qed.
  Lemma grown_nth fuel D c depth erased best children i spl j s : grown fuel D c depth erased best children -> fst best = Some (i, spl) ->
    nth_error spl j = Some s -> exists name cn, nth_error (i_features cfg) i = Some name /\ nth_error children j = Some cn /\ sub fuel c i depth (erased ++ [name]) D s = Ok cn.
  Proof.
    unfold grown. intros G E H. rewrite E in G. destruct G as (name & HN & G). exists name. clear E. revert j H. induction G as [|a b l m G1 G2 IH]; intros [|j] H; cbn in H; try discriminate.
    - injection H as <-. exists b. auto.
    - destruct (IH j H) as [cn Q]. exists cn. auto.
  Qed.
  Lemma sub_cases fuel c i depth erased D s cn : sub fuel c i depth erased D s = Ok cn ->
    (having i s D = [] /\ cn = (empty_child c (depth + 1), 0%nat)) \/
    (having i s D <> [] /\ fitn fuel (having i s D) new_itree (depth + 1) erased = Ok (fst cn) /\ snd cn = List.length (having i s D)).
  Proof.
    unfold sub. destruct (having i s D) as [|xy R] eqn:E; intro H; [left; injection H as <-; auto|right].
    destruct (fitn _ _ _ _ _) as [t'|e] eqn:Q; cbn [bind] in H; [|discriminate]. injection H as <-. split; [discriminate|]. auto.
  Qed.
  Lemma grown_length fuel D c depth erased best children : grown fuel D c depth erased best children ->
    List.length (splits_of best) = List.length children.
  Proof.
    unfold grown, splits_of. destruct (fst best) as [[i spl]|]; [|intros ->; reflexivity]. intros (name & _ & G). apply Forall2_len in G. assumption.
  Qed.
  Lemma picked_index D tested best i spl : picked D tested best -> fst best = Some (i, spl) ->
    (i < List.length (i_features cfg))%nat /\ nth_error SP i = Some spl /\ NoDup spl /\ exists f, In f tested /\ nth_error (i_features cfg) i = Some f.
  Proof.
    unfold picked. intros P E. rewrite E in P. destruct P as (f & l1 & l2 & H & H1 & H2 & _).
    assert (L : (i < List.length (i_features cfg))%nat) by (apply nth_error_Some; congruence).
    split; [assumption|]. split; [assumption|]. split.
    - destruct (HSP L) as [spl' [S N]]. congruence.
    - exists f. split; [rewrite H; apply in_or_app; right; left; reflexivity|assumption].
  Qed.

  (** every node is the result of training on the rows reaching it *)
  Lemma on_path_having i s p D : filter (fun xy : list cell * Z => on_path p (fst xy)) (having i s D) = filter (fun xy => on_path ((i, s) :: p) (fst xy)) D.
  Proof.
    unfold having. induction D as [|xy D IH]; [reflexivity|]. cbn [filter].
    change (on_path ((i, s) :: p) (fst xy)) with (has_value i s (fst xy) && on_path p (fst xy)).
    destruct (has_value i s (fst xy)); cbn [filter andb]; [|exact IH]. destruct (on_path p (fst xy)); rewrite IH; reflexivity.
  Qed.
  Lemma node_fit r p n : inode_at r p n -> forall fuel D t depth erased, fine D -> D <> [] -> fitn fuel D t depth erased = Ok r ->
    let R := filter (fun xy => on_path p (fst xy)) D in
    (R <> [] -> exists fuel' t', fitn (S fuel') R t' (depth + Z.of_nat (List.length p))
         (erased ++ map (fun iv => nth (fst iv) (i_features cfg) ""%string) p) = Ok n /\ (p <> [] -> t' = new_itree) /\ (p = [] -> t' = t)) /\
    (R = [] -> exists q iv par, p = q ++ [iv] /\ inode_at r q par /\ filter (fun xy => on_path q (fst xy)) D <> [] /\
         n = empty_child (i_class par) (depth + Z.of_nat (List.length p))).
  Proof.
    induction 1 as [r|r i s j c p n Lf V S C N IH]; intros fuel D t depth erased F NE' H R.
    - assert (E : R = D). { unfold R. clear. induction D as [|a D IH]; [reflexivity|]. cbn. f_equal. assumption. }
      rewrite E. split; [|contradiction]. intros _. destruct fuel as [|fuel]; [discriminate|]. exists fuel, t. cbn [List.length map]. rewrite app_nil_r, Z.add_0_r. split; [assumption|]. split; [congruence|reflexivity].
    - destruct fuel as [|fuel]; [discriminate|]. destruct (@step_ok fuel D t depth erased r F NE' H) as (cc & k & M & Cl & Cc & Lv & [(L1 & _)|(_ & St & best & children & P & G & V' & S' & C' & Er & NL & Pr)]); [congruence|].
      rewrite V' in V. destruct (fst best) as [[i0 spl]|] eqn:E; [|discriminate]. injection V as ->.
      unfold splits_of in S'. rewrite E in S'. rewrite S' in S. rewrite C' in C.
      destruct (@grown_nth fuel D cc depth erased best children i spl j s G E S) as (name & cn & HN & HC & HS).
      rewrite nth_error_map, HC in C. cbn in C. injection C as <-.
      unfold R. rewrite <- on_path_having. destruct (sub_cases _ _ _ _ _ _ _ HS) as [[HE ->]|(HE & Hf & _)].
      + rewrite HE. cbn [filter]. split; [congruence|]. intros _. inversion N as [|? ? ? ? ? ? ? Q]; subst; [|discriminate Q].
        exists [], (i, s), r. split; [reflexivity|]. split; [constructor|]. split.
        * cbn. clear - NE'. induction D; [congruence|]. cbn. discriminate.
        * cbn [fst]. reflexivity.
      + destruct (IH fuel (having i s D) new_itree (depth + 1)%Z (erased ++ [name]) (@fine_having D i s F) HE Hf) as [IH1 IH2].
        assert (ED : (depth + 1 + Z.of_nat (List.length p))%Z = (depth + Z.of_nat (List.length ((i, s) :: p)))%Z) by (cbn [List.length]; lia).
        split; intro HR.
        * destruct (IH1 HR) as (fuel' & t' & Q & Q1 & Q2). exists fuel', t'. rewrite <- ED. cbn [map fst].
          rewrite (nth_error_nth _ _ ""%string HN). rewrite <- app_assoc in Q. split; [exact Q|]. split; [|discriminate].
          intros _. destruct p; [apply Q2; reflexivity|apply Q1; discriminate].
        * destruct (IH2 HR) as (q & iv & par & Q & Q1 & Q2 & Q3). exists ((i, s) :: q), iv, par. rewrite Q. split; [reflexivity|]. split.
          -- eapply iat_child; [exact Lf|rewrite V'; reflexivity|rewrite S'; exact S| |exact Q1]. rewrite C', nth_error_map, HC. reflexivity.
          -- split; [rewrite <- on_path_having; assumption|]. rewrite <- Q, <- ED. exact Q3.
  Qed.

  (** induction over trained nodes *)
  Lemma fit_rect (Q : list (list cell * Z) -> itree -> Z -> list string -> itree -> Prop) :
    (forall D t depth erased r c k, fine D -> D <> [] -> majority D c k -> i_class r = c -> i_leaf r = true ->
       i_count r = Some (List.length D, k) -> i_level r = depth -> i_error r = node_error k (List.length D) -> Q D t depth erased r) ->
    (forall D t depth erased r c k best children fuel, fine D -> D <> [] -> majority D c k -> i_class r = c -> i_leaf r = false ->
       i_count r = Some (List.length D, k) -> i_level r = depth -> stops depth (List.length D) = false ->
       picked D (fts erased) best -> grown fuel D c depth erased best children ->
       i_var r = option_map fst (fst best) -> i_splits r = splits_of best -> i_children r = map fst children ->
       i_error r = sub_error children (List.length D) -> i_numleaf r = (i_numleaf t + List.length (splits_of best))%nat ->
       (i_prunning cfg = true -> i_numleaf r <> 1%nat /\
             i_th cfg <= (node_error k (List.length D) - i_error r) / qz (Z.of_nat (i_numleaf r) - 1)) ->
       (forall i spl j s cn name, fst best = Some (i, spl) -> nth_error spl j = Some s -> nth_error children j = Some cn -> nth_error (i_features cfg) i = Some name ->
          (having i s D = [] /\ cn = (empty_child c (depth + 1), 0%nat)) \/
          (having i s D <> [] /\ snd cn = List.length (having i s D) /\ Q (having i s D) new_itree (depth + 1)%Z (erased ++ [name]) (fst cn))) ->
       Q D t depth erased r) ->
    forall fuel D t depth erased r, fine D -> D <> [] -> fitn fuel D t depth erased = Ok r -> Q D t depth erased r.
  Proof.
    intros HL HI. induction fuel as [|fuel IH]; intros D t depth erased r F NE' H; [discriminate|].
    destruct (@step_ok fuel D t depth erased r F NE' H) as (cc & k & M & Cl & Cc & Lv & [(L1 & L2 & L3)|(L1 & St & best & children & P & G & V' & S' & C' & Er & NL & Pr)]).
    - eapply HL; eassumption.
    - eapply HI with (best := best) (children := children); try eassumption. intros i spl j s cn name E S C HN.
      destruct (@grown_nth fuel D cc depth erased best children i spl j s G E S) as (name' & cn' & HN' & HC & HS).
      assert (cn' = cn) by congruence. assert (name' = name) by congruence. subst cn' name'.
      destruct (sub_cases _ _ _ _ _ _ _ HS) as [[HE ->]|(HE & Hf & Hl)]; [left; auto|right]. split; [assumption|]. split; [assumption|].
      apply IH; [apply fine_having; assumption|assumption|assumption].
  Qed.
  Lemma inner_child fuel D c depth erased best children r i x v : grown fuel D c depth erased best children -> picked D (fts erased) best ->
    i_leaf r = false -> i_var r = option_map fst (fst best) -> i_splits r = splits_of best -> i_children r = map fst children ->
    fst best = Some (i, splits_of best) -> nth_error x i = Some v ->
    (exists j cn name, nth_error (splits_of best) j = Some v /\ nth_error children j = Some cn /\ nth_error (i_features cfg) i = Some name /\
        id3_tree_predict r x = id3_tree_predict (fst cn) x) \/
    (~ In v (splits_of best) /\ id3_tree_predict r x = Ok None).
  Proof.
    intros G P L V S C E X. rewrite E in V. cbn in V. rewrite (@predict_inner r i x v L V X). destruct (@picked_index _ _ _ i (splits_of best) P E) as (LI & SPI & N & _).
    destruct (in_dec eq_dec v (splits_of best)) as [I|I].
    - left. destruct (In_nth_error _ _ I) as [j J]. destruct (@grown_nth fuel D c depth erased best children i (splits_of best) j v G E J) as (name & cn & HN & HC & _).
      exists j, cn, name. split; [assumption|]. split; [assumption|]. split; [assumption|]. rewrite S, C. apply (@walk_hit x v (map fst children) _ j); [assumption|assumption|]. rewrite nth_error_map, HC. reflexivity.
    - right. split; [assumption|]. rewrite S. apply walk_miss. assumption.
  Qed.
  Lemma best_form (best : option (nat * list cell) * R) : (exists i, fst best = Some (i, splits_of best)) \/ (fst best = None /\ splits_of best = []).
  Proof. unfold splits_of. destruct (fst best) as [[i spl]|]; [left; exists i; reflexivity|right; auto]. Qed.

  (** predictions are labels of the rows reaching the node *)
  Lemma predict_label fuel D t depth erased r : fine D -> D <> [] -> fitn fuel D t depth erased = Ok r ->
    forall x c, id3_tree_predict r x = Ok (Some c) -> In c (map snd D).
  Proof.
    revert fuel D t depth erased r. apply (fit_rect (fun D _ _ _ r => forall x c, id3_tree_predict r x = Ok (Some c) -> In c (map snd D))).
    - intros D t depth erased r c k F NE' M C L _ _ _ x c' H. rewrite (predict_leaf _ _ L) in H. injection H as <-. rewrite C. apply M.
    - intros D t depth erased r c k best children fuel F NE' M C L Cc Lv St P G V S Ch Er NL Pr IH x c' H.
      destruct (best_form best) as [[i E]|[E E']]; [|rewrite (@predict_childless r x L) in H; [discriminate|congruence]].
      destruct (nth_error x i) as [v|] eqn:X.
      + destruct (@inner_child fuel D c depth erased best children r i x v G P L V S Ch E X) as [(j & cn & name & J1 & J2 & J3 & J4)|[_ J]]; [|rewrite J in H; discriminate].
        rewrite J4 in H. destruct (IH i _ j v cn name E J1 J2 J3) as [[_ ->]|(HE & _ & Q)].
        * cbn in H. injection H as <-. apply M.
        * apply Q in H. apply in_map_iff in H. destruct H as [xy [<- H]]. unfold having in H. apply filter_In in H. apply in_map, H.
      + exfalso. rewrite E in V. cbn in V. destruct r as [var [|] ch spl cl cc l e n]; cbn in L, V; try discriminate. subst var. cbn in H.
        destruct spl; [discriminate|]. rewrite X in H. discriminate.
  Qed.
  (** a row of known values is classified by a pruned tree *)
  Lemma predict_known fuel D t depth erased r : i_prunning cfg = true -> 0 < i_th cfg -> fine D -> D <> [] -> fitn fuel D t depth erased = Ok r ->
    (i_numleaf t = 0%nat \/ fts erased <> []) ->
    forall x, (forall i spl, (i < List.length (i_features cfg))%nat -> nth_error SP i = Some spl -> exists v, nth_error x i = Some v /\ In v spl) ->
    exists c, id3_tree_predict r x = Ok (Some c).
  Proof.
    intros PR TH. revert fuel D t depth erased r. apply (fit_rect (fun D t _ erased r => (i_numleaf t = 0%nat \/ fts erased <> []) ->
      forall x, (forall i spl, (i < List.length (i_features cfg))%nat -> nth_error SP i = Some spl -> exists v, nth_error x i = Some v /\ In v spl) ->
      exists c, id3_tree_predict r x = Ok (Some c))).
    - intros D t depth erased r c k F NE' M C L _ _ _ _ x _. exists (i_class r). apply predict_leaf. assumption.
    - intros D t depth erased r c k best children fuel F NE' M C L Cc Lv St P G V S Ch Er NL Pr IH H0 x KN.
      destruct (best_form best) as [[i E]|[E E']].
      + destruct (@picked_index _ _ _ i (splits_of best) P E) as (LI & SPI & N & _). destruct (KN i _ LI SPI) as [v [X I]].
        destruct (@inner_child fuel D c depth erased best children r i x v G P L V S Ch E X) as [(j & cn & name & J1 & J2 & J3 & J4)|[J _]]; [|contradiction].
        rewrite J4. destruct (IH i _ j v cn name E J1 J2 J3) as [[_ ->]|(HE & _ & Q)]; [eexists; reflexivity|]. apply Q; [left; reflexivity|assumption].
      + exfalso. destruct H0 as [H0|H0].
        * destruct (Pr PR) as [_ T]. rewrite NL, E', H0 in T. cbn [List.length Nat.add] in T. change (Z.of_nat 0 - 1)%Z with (-1)%Z in T.
          assert (Er' : i_error r = 0).
          { rewrite Er. unfold grown in G. rewrite E in G. subst children. reflexivity. }
          rewrite Er' in T. assert (N0 : 0 <= node_error k (List.length D)).
          { unfold node_error. destruct M as (M1 & -> & M3). unfold times.
            assert (LD : (0 < List.length D)%nat) by (destruct D; [congruence|cbn; lia]).
            destruct (@Qcdiv_01 (qn (List.length (filter (fun xy : list cell * Z => Z.eqb (snd xy) c) D))) (qn (List.length D))) as [_ A].
            - apply qn_nonneg.
            - apply qn_le. apply (countb_le (fun xy : list cell * Z => Z.eqb (snd xy) c)).
            - apply qn_pos. assumption.
            - qlra. }
          replace ((node_error k (List.length D) - 0) / qz (-1)) with (- node_error k (List.length D)) in T; [qlra|].
          change (qz (-1)) with (- (1))%Qc. field. discriminate.
        * unfold picked in P. rewrite E in P. destruct P as [P _]. contradiction.
  Qed.
  (** rows that get a wrong class *)
  Definition wrong (r : itree) (xy : list cell * Z) : bool :=
    match id3_tree_predict r (fst xy) with Ok (Some c) => negb (Z.eqb c (snd xy)) | _ => false end.
  Lemma partition_count (D : list (list cell * Z)) i spl (g : list cell * Z -> bool) : fine D -> (i < List.length (i_features cfg))%nat -> nth_error SP i = Some spl -> NoDup spl ->
    qsum (map (fun s => qn (countb g (having i s D))) spl) = qn (countb g D).
  Proof.
    intros F L S N. induction D as [|xy D IH].
    - rewrite qsum_map_zero; reflexivity.
    - assert (F' : fine D) by (intros z Hz; apply F; right; assumption).
      destruct (@fine_at (xy :: D) i spl xy F (or_introl eq_refl) L S) as [X I].
      assert (EC : forall E : list (list cell * Z), countb g (xy :: E) = ((if g xy then 1 else 0) + countb g E)%nat).
      { intro E. unfold countb. cbn [filter]. destruct (g xy); reflexivity. }
      rewrite (map_ext _ (fun s => qn (if g xy then 1 else 0) * qn (if eqb (cellat i xy) s then 1 else 0) + qn (countb g (having i s D)))).
      + rewrite qsum_map_plus, IH by assumption. rewrite (qsum_map_mult (fun s => qn (if eqb (cellat i xy) s then 1 else 0))).
        assert (O : qsum (map (fun s => qn (if eqb (cellat i xy) s then 1 else 0)) spl) = 1).
        { apply qr_inj. rewrite qr_qsum, map_map, qr_1. rewrite (rsum_map_ext _ (fun s => INR (if eqb (cellat i xy) s then 1 else 0))) by (intros; apply qr_qn).
          apply indicator_sum_gen; assumption. }
        rewrite O, EC, qn_plus. ring.
      + intro s. unfold having at 1. cbn [filter]. fold (having i s D).
        assert (HV : has_value i s (fst xy) = eqb (cellat i xy) s).
        { unfold has_value. rewrite X. destruct (eqb (cellat i xy) s) eqn:E; [rewrite eqb_eq in E; rewrite E; apply eqb_refl|]. rewrite eqb_neq in *. congruence. }
        rewrite HV. destruct (eqb (cellat i xy) s); [rewrite EC, qn_plus; change (qn 1) with 1%Qc; ring|change (qn 0) with 0%Qc; ring].
  Qed.
  Lemma countb_ext A (f g : A -> bool) l : (forall a, In a l -> f a = g a) -> countb f l = countb g l.
  Proof.
    clear. intro H. unfold countb. f_equal. induction l as [|a l IH]; [reflexivity|]. cbn. rewrite (H a (or_introl eq_refl)).
    rewrite IH by (intros; apply H; right; assumption). reflexivity.
  Qed.
  Lemma countb_negb A (f : A -> bool) l : (countb f l + countb (fun a => negb (f a)) l = List.length l)%nat.
  Proof. clear. unfold countb. induction l as [|a l IH]; [reflexivity|]. cbn [filter]. destruct (f a); cbn [negb List.length]; lia. Qed.
  (** the recorded error is the share of wrongly classified training rows *)
  Lemma error_rate fuel D t depth erased r : fine D -> D <> [] -> fitn fuel D t depth erased = Ok r ->
    i_error r = qn (countb (wrong r) D) / qn (List.length D).
  Proof.
    revert fuel D t depth erased r. apply (fit_rect (fun D _ _ _ r => i_error r = qn (countb (wrong r) D) / qn (List.length D))).
    - intros D t depth erased r c k F NE' M C L _ _ Er. rewrite Er. unfold node_error. destruct M as (_ & -> & _).
      assert (LQ : qn (List.length D) <> 0). { intro E. change 0 with (qn 0) in E. apply qn_inj in E. destruct D; [congruence|discriminate]. }
      assert (E : countb (wrong r) D = countb (fun xy => negb (Z.eqb (snd xy) c)) D).
      { apply countb_ext. intros xy _. unfold wrong. rewrite (predict_leaf _ _ L), C, Z.eqb_sym. reflexivity. }
      rewrite E. assert (T := countb_negb (fun xy : list cell * Z => Z.eqb (snd xy) c) D). unfold times. fold (countb (fun xy : list cell * Z => Z.eqb (snd xy) c) D).
      rewrite <- T in *. rewrite qn_plus in *. field. assumption.
    - intros D t depth erased r c k best children fuel F NE' M C L Cc Lv St P G V S Ch Er NL Pr IH. rewrite Er.
      assert (LQ : qn (List.length D) <> 0). { intro E. change 0 with (qn 0) in E. apply qn_inj in E. destruct D; [congruence|discriminate]. }
      destruct (best_form best) as [[i E]|[E E']].
      + destruct (@picked_index _ _ _ i (splits_of best) P E) as (LI & SPI & N & _).
        assert (T : sub_error children (List.length D) = qsum (map (fun s => qn (countb (wrong r) (having i s D)) / qn (List.length D)) (splits_of best))).
        { unfold sub_error. assert (LE := @grown_length _ _ _ _ _ _ _ G).
          assert (PW : forall j s cn, nth_error (splits_of best) j = Some s -> nth_error children j = Some cn ->
             i_error (fst cn) * (qn (snd cn) / qn (List.length D)) = qn (countb (wrong r) (having i s D)) / qn (List.length D)).
          { intros j s cn J1 J2. destruct (@grown_nth fuel D c depth erased best children i (splits_of best) j s G E J1) as (name & cn0 & HN & _).
            assert (W : forall xy, In xy (having i s D) -> wrong r xy = wrong (fst cn) xy).
            { intros xy Hxy. unfold having in Hxy. apply filter_In in Hxy. destruct Hxy as [_ Hv]. unfold has_value in Hv. rewrite eqb_eq in Hv.
              destruct (@inner_child fuel D c depth erased best children r i (fst xy) s G P L V S Ch E Hv) as [(j' & cn' & _ & K1 & K2 & _ & K4)|[K _]].
              - assert (j' = j). { rewrite NoDup_nth_error in N. apply N; [apply nth_error_Some; congruence|congruence]. } subst j'.
                assert (cn' = cn) by congruence. subst cn'. unfold wrong. rewrite K4. reflexivity.
              - exfalso. apply K. eapply nth_error_In; eassumption. }
            rewrite (@countb_ext _ (wrong r) (wrong (fst cn)) (having i s D) W).
            destruct (IH i _ j s cn name E J1 J2 HN) as [[HE ->]|(HE & Hl & Q)].
            - rewrite HE. cbn [snd fst countb filter List.length]. change (qn 0) with 0%Qc. field. assumption.
            - rewrite Hl, Q. assert (qn (List.length (having i s D)) <> 0).
              { intro Z0. change 0 with (qn 0) in Z0. apply qn_inj in Z0. destruct (having i s D); [congruence|discriminate]. }
              field. split; assumption. }
          clear - LE PW. revert children LE PW. generalize (splits_of best) as spl. induction spl as [|s spl IHs]; intros [|cn children] LE PW; try discriminate; [reflexivity|].
          cbn [map]. rewrite !qsum_cons. rewrite (PW 0%nat s cn eq_refl eq_refl). f_equal. apply IHs; [injection LE; auto|]. intros j s' cn' A B. apply (PW (Datatypes.S j)); assumption. }
        rewrite T. rewrite (map_ext _ (fun s => (/ qn (List.length D)) * qn (countb (wrong r) (having i s D)))) by (intro; field; assumption).
        rewrite (qsum_map_mult (fun s => qn (countb (wrong r) (having i s D)))), (@partition_count D i _ (wrong r) F LI SPI N). field. assumption.
      + unfold grown in G. rewrite E in G. subst children.
        assert (W : countb (wrong r) D = 0%nat).
        { rewrite (@countb_ext _ (wrong r) (fun _ => false)); [unfold countb; clear; induction D; [reflexivity|assumption]|].
          intros xy _. unfold wrong. rewrite (@predict_childless r (fst xy) L); [reflexivity|congruence]. }
        rewrite W. unfold sub_error. cbn. change (qn 0) with 0%Qc. field. assumption.
  Qed.

  Lemma condition_at x i f s : nth_error (i_features cfg) i = Some f -> (test_holds (i_features cfg) x (f, s) <-> nth_error x i = Some s).
  Proof.
    intro H. unfold test_holds. cbn [fst snd]. split.
    - intros (j & A & B). rewrite (feature_index_inj _ _ H A). assumption.
    - intro B. exists i. auto.
  Qed.
  (** exactly one rule applies when the tree gives a class, none otherwise *)
  Lemma rules_exact fuel D t depth erased r : fine D -> D <> [] -> fitn fuel D t depth erased = Ok r ->
    exists L, (forall conds, id3_get_rules (i_features cfg) r conds = Ok (rules_from conds L)) /\
      forall x, (List.length (i_features cfg) <= List.length x)%nat ->
        (exists c, id3_tree_predict r x = Ok (Some c) /\ one_holds (test_holds (i_features cfg) x) L c) \/
        (id3_tree_predict r x = Ok None /\ none_holds (test_holds (i_features cfg) x) L).
  Proof.
    revert fuel D t depth erased r. apply (fit_rect (fun D _ _ _ r => exists L, (forall conds, id3_get_rules (i_features cfg) r conds = Ok (rules_from conds L)) /\
      forall x, (List.length (i_features cfg) <= List.length x)%nat ->
        (exists c, id3_tree_predict r x = Ok (Some c) /\ one_holds (test_holds (i_features cfg) x) L c) \/
        (id3_tree_predict r x = Ok None /\ none_holds (test_holds (i_features cfg) x) L))).
    - intros D t depth erased r c k F NE' M C L _ _ _. exists [([], i_class r)]. split.
      + intro conds. rewrite rules_leaf by exact L. unfold rules_from. cbn. rewrite app_nil_r. reflexivity.
      + intros x _. left. exists (i_class r). split; [apply predict_leaf; assumption|]. exists [], ([], i_class r), []. cbn. auto 7.
    - intros D t depth erased r c k best children fuel F NE' M C L Cc Lv St P G V S Ch Er NL Pr IH.
      destruct (best_form best) as [[i E]|[E E']].
      + destruct (@picked_index _ _ _ i (splits_of best) P E) as (LI & SPI & N & f & _ & Hf). rewrite E in V. cbn in V.
        assert (LE := @grown_length _ _ _ _ _ _ _ G).
        assert (CH : forall j s cn, nth_error (splits_of best) j = Some s -> nth_error children j = Some cn ->
          exists L, (forall conds, id3_get_rules (i_features cfg) (fst cn) conds = Ok (rules_from conds L)) /\
          forall x, (List.length (i_features cfg) <= List.length x)%nat ->
          (exists c, id3_tree_predict (fst cn) x = Ok (Some c) /\ one_holds (test_holds (i_features cfg) x) L c) \/
          (id3_tree_predict (fst cn) x = Ok None /\ none_holds (test_holds (i_features cfg) x) L)).
        { intros j s cn J1 J2. destruct (IH i _ j s cn f E J1 J2 Hf) as [[_ ->]|(_ & _ & Q)]; [|exact Q].
          exists [([], c)]. split; [intro conds; unfold rules_from; cbn; rewrite app_nil_r; reflexivity|].
          intros x _. left. exists c. split; [reflexivity|]. exists [], ([], c), []. cbn. auto 7. }
        assert (GO : exists L, (forall conds, rules_go (i_features cfg) (Some i) conds (map fst children) (splits_of best) = Ok (rules_from conds L)) /\
          forall x v, (List.length (i_features cfg) <= List.length x)%nat -> nth_error x i = Some v ->
          (exists c, walk x v (map fst children) (splits_of best) = Ok (Some c) /\ one_holds (test_holds (i_features cfg) x) L c) \/
          (walk x v (map fst children) (splits_of best) = Ok None /\ none_holds (test_holds (i_features cfg) x) L)).
        { clear - LE CH N Hf ND. revert children LE CH N. generalize (splits_of best) as spl. induction spl as [|s spl IHs]; intros [|cn children] LE CH N; try discriminate.
          - exists []. split; [intro; reflexivity|]. intros x v _ _. right. split; [reflexivity|constructor].
          - inversion N as [|? ? Ns Nl]; subst. destruct (CH 0%nat s cn eq_refl eq_refl) as (L0 & R0 & X0).
            destruct (IHs children) as (L' & R' & X'); [injection LE; auto|intros j; apply (CH (Datatypes.S j))|assumption|].
            exists (prefixed (f, s) L0 ++ L'). split.
            + intro conds. cbn [map rules_go]. rewrite Hf. cbn [ret_opt bind]. rewrite R0. cbn [bind].
              fold (rules_go (i_features cfg) (Some i) conds). rewrite R'. cbn [bind]. unfold rules_from. rewrite map_app. f_equal. f_equal.
              symmetry. apply prefixed_rules.
            + intros x v W X. cbn [map walk]. fold (walk x v). assert (CS := @condition_at x i f s Hf). destruct (eqb v s) eqn:Q.
              * rewrite eqb_eq in Q. subst v. assert (N' : none_holds (test_holds (i_features cfg) x) L').
                { destruct (X' x s W X) as [(c & A & _)|[_ A]]; [|assumption]. rewrite walk_miss in A by assumption. discriminate. }
                assert (K : test_holds (i_features cfg) x (f, s)) by (apply CS; assumption).
                destruct (X0 x W) as [(c & A & B)|[A B]].
                -- left. exists c. split; [assumption|]. apply one_app_l; [apply prefixed_one; assumption|assumption].
                -- right. split; [assumption|]. apply Forall_app. split; [apply prefixed_none'; assumption|assumption].
              * rewrite eqb_neq in Q. assert (K : ~ test_holds (i_features cfg) x (f, s)) by (rewrite CS; congruence).
                destruct (X' x v W X) as [(c & A & B)|[A B]].
                -- left. exists c. split; [assumption|]. apply one_app_r; [apply prefixed_none; assumption|assumption].
                -- right. split; [assumption|]. apply Forall_app. split; [apply prefixed_none; assumption|assumption]. }
        destruct GO as (L0 & R0 & X0). exists L0. split.
        * intro conds. rewrite rules_inner by exact L; rewrite V, S, Ch. apply R0.
        * intros x W. destruct (nth_error x i) as [v|] eqn:X; [|exfalso; apply nth_error_None in X; lia].
          rewrite (@predict_inner r i x v L V X), S, Ch. apply X0; assumption.
      + exists []. split.
        * intro conds. rewrite rules_inner by exact L; rewrite S, Ch, E'. unfold grown in G. rewrite E in G. subst children. reflexivity.
        * intros x _. right. split; [apply predict_childless; [assumption|congruence]|constructor].
  Qed.

  (** termination: the features still to test bound the depth *)
  Lemma fts_child erased name : In name (fts erased) -> List.length (fts erased) = Datatypes.S (List.length (fts (erased ++ [name]))).
  Proof.
    intro I. destruct (fts_props erased) as [N1 H1]. destruct (fts_props (erased ++ [name])) as [N2 H2].
    assert (P : Permutation (fts erased) (name :: fts (erased ++ [name]))).
    { apply NoDup_Permutation; [assumption| |].
      - constructor; [|assumption]. rewrite H2. intros [_ A]. apply A. apply in_or_app. right. left. reflexivity.
      - intro f. cbn [In]. rewrite H1, H2, in_app_iff. cbn [In]. destruct (string_dec name f) as [<-|D].
        + split; [auto|]. intros _. apply H1. assumption.
        + split; [intros [A B]; right; split; [assumption|intros [C|[C|[]]]; contradiction]|intros [C|[A B]]; [contradiction|]]. split; [assumption|]. intro C. apply B. auto. }
    apply Permutation_length in P. exact P.
  Qed.
  Lemma mapM_cases A B (f : A -> res B) l (e0 : exn) : (forall x, In x l -> (exists b, f x = Ok b) \/ f x = Err e0) ->
    (exists bs, mapM f l = Ok bs) \/ mapM f l = Err e0.
  Proof.
    clear. induction l as [|a l IH]; intro H; [left; exists []; reflexivity|]. cbn. destruct (H a (or_introl eq_refl)) as [[b ->]| ->]; cbn; [|right; reflexivity].
    destruct IH as [[bs ->]| ->]; [intros; apply H; right; assumption| |]; cbn; [left; eexists; reflexivity|right; reflexivity].
  Qed.
  Lemma mapM_one_error A B (f : A -> res B) l (e0 : exn) x : (forall x, In x l -> (exists b, f x = Ok b) \/ f x = Err e0) -> In x l -> f x = Err e0 -> mapM f l = Err e0.
  Proof.
    clear. induction l as [|a l IH]; intros H I E; [destruct I|]. cbn. destruct (H a (or_introl eq_refl)) as [[b Q]|Q]; rewrite Q; cbn; [|reflexivity].
    destruct I as [->|I]; [congruence|]. rewrite IH; [reflexivity|intros; apply H; right; assumption|assumption|assumption].
  Qed.
  Lemma finish_cases t c k n depth var spl children : (exists r, finish t c k n depth var spl children = Ok r) \/
    (finish t c k n depth var spl children = Err ZeroDivisionError /\ i_prunning cfg = true /\ (i_numleaf t + List.length spl = 1)%nat).
  Proof.
    unfold finish. cbn zeta. destruct (i_prunning cfg); [|left; eexists; reflexivity]. destruct (qeqb _ 0) eqn:E.
    - right. split; [reflexivity|]. split; [reflexivity|]. rewrite qeqb_eq in E. change 0 with (qz 0) in E. apply qz_inj in E. lia.
    - left. destruct (qltb _ _); eexists; reflexivity.
  Qed.
  Lemma fit_outcome fuel : forall D t depth erased, fine D -> D <> [] -> (List.length (fts erased) < fuel)%nat ->
    (exists r, fitn fuel D t depth erased = Ok r) \/ fitn fuel D t depth erased = Err ZeroDivisionError.
  Proof.
    induction fuel as [|fuel IH]; intros D t depth erased F NE' L; [lia|].
    destruct (@step_eq fuel D t depth erased F NE') as (c & k & best & name & M & P & N & E). rewrite E. clear E.
    destruct (stops depth (List.length D)); [left; eexists; reflexivity|].
    assert (C : (exists ch, match fst best with Some (i, spl) => mapM (sub fuel c i depth (erased ++ [name]) D) spl | None => Ok [] end = Ok ch) \/
       match fst best with Some (i, spl) => mapM (sub fuel c i depth (erased ++ [name]) D) spl | None => Ok [] end = Err ZeroDivisionError).
    { destruct (fst best) as [[i spl]|] eqn:E; [|left; exists []; reflexivity]. apply mapM_cases. intros s _. unfold sub.
      destruct (@picked_index _ _ _ i spl P E) as (LI & SPI & NS & f & If & Hf). assert (f = name) by congruence. subst f.
      assert (LC := @fts_child erased name If).
      destruct (having i s D) as [|xy R] eqn:EH; [left; eexists; reflexivity|]. rewrite <- EH.
      destruct (IH (having i s D) new_itree (depth + 1)%Z (erased ++ [name])) as [[r' ->]| ->]; [apply fine_having; assumption|congruence|lia| |]; cbn; [left; eexists; reflexivity|right; reflexivity]. }
    destruct C as [[ch ->]| ->]; cbn [bind]; [|right; reflexivity].
    match goal with |- context [finish t c k (List.length D) depth ?v ?s ch] => destruct (finish_cases t c k (List.length D) depth v s ch) as [Q|(Q & _)] end; auto.
  Qed.
  (** training succeeds when no column is constant, or without pruning *)
  Lemma fit_succeeds fuel : (i_prunning cfg = true -> forall i spl, (i < List.length (i_features cfg))%nat -> nth_error SP i = Some spl -> (2 <= List.length spl)%nat) ->
    forall D t depth erased, fine D -> D <> [] -> (List.length (fts erased) < fuel)%nat -> (i_numleaf t = 0%nat \/ fts erased <> []) ->
    exists r, fitn fuel D t depth erased = Ok r.
  Proof.
    intro H2. induction fuel as [|fuel IH]; intros D t depth erased F NE' L H0; [lia|].
    destruct (@step_eq fuel D t depth erased F NE') as (c & k & best & name & M & P & N & E). rewrite E. clear E.
    destruct (stops depth (List.length D)); [eexists; reflexivity|].
    assert (C : exists ch, match fst best with Some (i, spl) => mapM (sub fuel c i depth (erased ++ [name]) D) spl | None => Ok [] end = Ok ch).
    { destruct (fst best) as [[i spl]|] eqn:E; [|exists []; reflexivity]. apply mapM_total. intros s _. unfold sub.
      destruct (@picked_index _ _ _ i spl P E) as (LI & SPI & NS & f & If & Hf). assert (f = name) by congruence. subst f.
      assert (LC := @fts_child erased name If).
      destruct (having i s D) as [|xy R] eqn:EH; [eexists; reflexivity|]. rewrite <- EH.
      destruct (IH (having i s D) new_itree (depth + 1)%Z (erased ++ [name])) as [r' ->]; [apply fine_having; assumption|congruence|lia|left; reflexivity|]; cbn. eexists; reflexivity. }
    destruct C as [ch ->]. cbn [bind].
    match goal with |- context [finish t c k (List.length D) depth ?v ?s ch] => destruct (finish_cases t c k (List.length D) depth v s ch) as [Q|(_ & Q1 & Q2)] end; [assumption|exfalso].
    destruct (fst best) as [[i spl]|] eqn:E.
    - destruct (@picked_index _ _ _ i spl P E) as (LI & SPI & _). assert (A := H2 Q1 i spl LI SPI). lia.
    - unfold picked in P. rewrite E in P. destruct P as [P _]. destruct H0 as [H0|H0]; [|contradiction]. cbn in Q2. lia.
  Qed.
  (** pruning divides by zero once a constant column is reached *)
  Lemma fit_constant fuel j0 v0 : i_prunning cfg = true -> (i_min_examples cfg <= 1)%Z -> (j0 < List.length (i_features cfg))%nat -> nth_error SP j0 = Some [v0] ->
    forall D depth erased, fine D -> D <> [] -> (List.length (fts erased) < fuel)%nat -> (depth + Z.of_nat (List.length (fts erased)) <= i_max_depth cfg)%Z ->
    (forall f, nth_error (i_features cfg) j0 = Some f -> ~ In f erased) ->
    fitn fuel D new_itree depth erased = Err ZeroDivisionError.
  Proof.
    intros PR MN LJ SJ. induction fuel as [|fuel IH]; intros D depth erased F NE' L DP HJ; [lia|].
    destruct (@step_eq fuel D new_itree depth erased F NE') as (c & k & best & name & M & P & N & E). rewrite E. clear E.
    assert (exists f0, nth_error (i_features cfg) j0 = Some f0) as [f0 Hf0].
    { destruct (nth_error (i_features cfg) j0) eqn:Q; [eexists; reflexivity|]. apply nth_error_None in Q. lia. }
    assert (I0 : In f0 (fts erased)). { apply fts_props. split; [eapply nth_error_In; eassumption|apply HJ; assumption]. }
    assert (LP : (0 < List.length (fts erased))%nat) by (destruct (fts erased); [destruct I0|cbn; lia]).
    assert (LD : (0 < List.length D)%nat) by (destruct D; [congruence|cbn; lia]).
    assert (St : stops depth (List.length D) = false).
    { unfold stops. apply orb_false_iff. split; [apply Z.leb_gt; lia|apply Z.ltb_ge; lia]. }
    rewrite St. destruct (fst best) as [[i spl]|] eqn:E.
    2: { unfold picked in P. rewrite E in P. destruct P as [P _]. rewrite P in I0. destruct I0. }
    destruct (@picked_index _ _ _ i spl P E) as (LI & SPI & NS & f & If & Hf). assert (f = name) by congruence. subst f.
    assert (LC := @fts_child erased name If).
    assert (MC : forall s, In s spl -> (exists b, sub fuel c i depth (erased ++ [name]) D s = Ok b) \/ sub fuel c i depth (erased ++ [name]) D s = Err ZeroDivisionError).
    { intros s _. unfold sub. destruct (having i s D) as [|xy R] eqn:EH; [left; eexists; reflexivity|]. rewrite <- EH.
      destruct (@fit_outcome fuel (having i s D) new_itree (depth + 1)%Z (erased ++ [name])) as [[r' ->]| ->]; [apply fine_having; assumption|congruence|lia| |]; cbn; [left; eexists; reflexivity|right; reflexivity]. }
    destruct (Nat.eq_dec i j0) as [->|Dij].
    - assert (spl = [v0]) by congruence. subst spl.
      destruct (@mapM_cases _ _ _ _ _ MC) as [[ch ->]| ->]; cbn [bind]; [|reflexivity].
      match goal with |- finish ?t c k ?n depth ?v ?s ch = _ => destruct (finish_cases t c k n depth v s ch) as [[r Q]|(Q & _)] end; [|assumption].
      exfalso. unfold finish in Q. cbn zeta in Q. rewrite PR in Q. cbn [option_map i_numleaf new_itree List.length] in Q. vm_compute in Q. discriminate.
    - destruct D as [|xy D]; [congruence|]. destruct (@fine_at (xy :: D) i spl xy F (or_introl eq_refl) LI SPI) as [X IX].
      rewrite (@mapM_one_error _ _ _ spl ZeroDivisionError (cellat i xy)); [reflexivity|assumption|assumption|].
      unfold sub. assert (HH : having i (cellat i xy) (xy :: D) <> []).
      { unfold having. cbn [filter]. unfold has_value at 1. rewrite X, eqb_refl. discriminate. }
      destruct (having i (cellat i xy) (xy :: D)) as [|z R] eqn:EH; [congruence|]. rewrite <- EH.
      rewrite IH; [reflexivity|apply fine_having; assumption|congruence|lia|lia|].
      intros f Hf' I. apply in_app_iff in I. destruct I as [I|[<-|[]]]; [apply (HJ f Hf' I)|]. apply Dij. eapply feature_index_inj; eassumption.
  Qed.
  (** without pruning, a depth limit above the number of features leaves every training row
      without a class *)
  Lemma fit_dead_end fuel D t depth erased r : i_prunning cfg = false -> (i_min_examples cfg <= 1)%Z -> fine D -> D <> [] ->
    fitn fuel D t depth erased = Ok r -> (depth + Z.of_nat (List.length (fts erased)) < i_max_depth cfg)%Z ->
    forall xy, In xy D -> id3_tree_predict r (fst xy) = Ok None.
  Proof.
    intros PR MN. revert fuel D t depth erased r. 
    assert (G : forall fuel D t depth erased r, fine D -> D <> [] -> fitn fuel D t depth erased = Ok r -> (depth + Z.of_nat (List.length (fts erased)) < i_max_depth cfg)%Z ->
      forall xy, In xy D -> id3_tree_predict r (fst xy) = Ok None); [|intros; eapply G; eassumption].
    induction fuel as [|fuel IH]; intros D t depth erased r F NE' H DP xy Hxy; [discriminate|].
    destruct (@step_eq fuel D t depth erased F NE') as (c & k & best & name & M & P & N & E). rewrite E in H. clear E.
    assert (LD : (0 < List.length D)%nat) by (destruct D; [congruence|cbn; lia]).
    assert (St : stops depth (List.length D) = false).
    { unfold stops. apply orb_false_iff. split; [apply Z.leb_gt; lia|apply Z.ltb_ge; lia]. }
    rewrite St in H. destruct (fst best) as [[i spl]|] eqn:E.
    - destruct (@picked_index _ _ _ i spl P E) as (LI & SPI & NS & f & If & Hf). assert (f = name) by congruence. subst f.
      assert (LC := @fts_child erased name If). destruct (mapM _ spl) as [children|e] eqn:EC; cbn [bind] in H; [|discriminate].
      unfold finish in H. cbn zeta in H. rewrite PR in H. injection H as <-.
      destruct (@fine_at D i spl xy F Hxy LI SPI) as [X IX]. cbn [option_map fst].
      erewrite predict_inner; [|reflexivity|reflexivity|exact X]. cbn [i_children i_splits].
      destruct (In_nth_error _ _ IX) as [j J]. apply mapM_ok in EC.
      assert (exists cn, nth_error children j = Some cn /\ sub fuel c i depth (erased ++ [name]) D (cellat i xy) = Ok cn) as (cn & HC & HS).
      { clear - EC J. revert j J. induction EC as [|a b l m A B IHE]; intros [|j] J; cbn in J; try discriminate; [injection J as <-; exists b; auto|apply IHE; assumption]. }
      rewrite (@walk_hit (fst xy) (cellat i xy) (map fst children) spl j (fst cn) NS J); [|rewrite nth_error_map, HC; reflexivity].
      assert (Hin : In xy (having i (cellat i xy) D)). { unfold having. apply filter_In. split; [assumption|]. unfold has_value. rewrite X. apply eqb_refl. }
      destruct (sub_cases _ _ _ _ _ _ _ HS) as [[HE _]|(HE & Hfit & _)]; [rewrite HE in Hin; destruct Hin|].
      apply (IH (having i (cellat i xy) D) new_itree (depth + 1)%Z (erased ++ [name]) (fst cn)); [apply fine_having; assumption|assumption|assumption|lia|assumption].
    - cbn [bind] in H. unfold finish in H. cbn zeta in H. rewrite PR in H. injection H as <-. apply predict_childless; reflexivity.
  Qed.
End Fit.
