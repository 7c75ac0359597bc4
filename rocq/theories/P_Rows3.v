(** * Proofs: reordering the training rows of ID3 *)
From Verif Require Import Prelude M_Fuzzy M_Discretize M_Rule M_ID3 P_Entropy P_FuzzyVar S_Rows P_Rows.
From Coq Require Import Reals Lra OrderedTypeEx.
Local Notation eqb := Prelude.eqb.
Open Scope Qc_scope.

Definition at_col (i : nat) (row : list cell) : cell := nth i row (CNum 0).
Lemma column_spec X i : column X i = if forallb (fun row => Nat.ltb i (List.length row)) X then Ok (map (at_col i) X) else Err IndexError.
Proof.
  unfold column. induction X as [|row X IH]; [reflexivity|]. cbn [mapM forallb map]. destruct (Nat.ltb_spec i (List.length row)) as [H|H]; cbn [andb].
  - rewrite (nth_error_nth' row (CNum 0) H). cbn [ret_opt bind]. rewrite IH. destruct (forallb _ X); reflexivity.
  - rewrite (proj2 (nth_error_None row i) H). reflexivity.
Qed.
Lemma forallb_perm A (f : A -> bool) l l' : Permutation l l' -> forallb f l = forallb f l'.
Proof. induction 1; cbn [forallb]; [reflexivity|congruence|rewrite !andb_assoc, (andb_comm (f y)); reflexivity|congruence]. Qed.
Lemma flat_map_perm A B (f : A -> list B) l l' : Permutation l l' -> Permutation (flat_map f l) (flat_map f l').
Proof.
  induction 1 as [|x l l' P IH|x z l|l l' l'' P IH P' IH']; cbn [flat_map]; [constructor|apply Permutation_app_head; exact IH| |exact (Permutation_trans IH IH')].
  rewrite !app_assoc. apply Permutation_app_tail. apply Permutation_app_comm.
Qed.
Lemma qunique_perm l l' : Permutation l l' -> qunique l = qunique l'.
Proof.
  intro P. apply (@sorted_ext Qc qltb qltb_trans qltb_irrefl); try apply unique_by_sorted; try exact qltb_trans; try exact qltb_total.
  intro x. rewrite !qunique_In. split; apply Permutation_in; [exact P|apply Permutation_sym; exact P].
Qed.

Lemma sltb_trans a b c : String.ltb a b = true -> String.ltb b c = true -> String.ltb a c = true.
Proof.
  intros A B. unfold String.ltb in *. destruct (String.compare a b) eqn:E1; try discriminate. destruct (String.compare b c) eqn:E2; try discriminate.
  apply String_as_OT.cmp_lt in E1. apply String_as_OT.cmp_lt in E2.
  assert (E3 := String_as_OT.lt_trans _ _ _ E1 E2). apply String_as_OT.cmp_lt in E3. unfold String_as_OT.cmp in E3. rewrite E3. reflexivity.
Qed.
Lemma sltb_irrefl a : String.ltb a a = false.
Proof. unfold String.ltb. assert (E : String.compare a a = Eq) by (apply (proj2 (String_as_OT.cmp_eq a a)); reflexivity). rewrite E. reflexivity. Qed.
Lemma sltb_total a b : String.ltb a b = false -> String.ltb b a = false -> a = b.
Proof.
  intros A B. unfold String.ltb in *. assert (AS := String_as_OT.cmp_antisym a b). unfold String_as_OT.cmp in AS.
  destruct (String.compare a b) eqn:E1; [apply (proj1 (String_as_OT.cmp_eq a b)); assumption|discriminate|].
  destruct (String.compare b a); cbn in AS; discriminate.
Qed.
Lemma sunique_perm l l' : Permutation l l' -> unique_by String.ltb l = unique_by String.ltb l'.
Proof.
  intro P. apply (@sorted_ext string String.ltb sltb_trans sltb_irrefl); try (apply unique_by_sorted; [exact sltb_trans|exact sltb_total]).
  intro x. rewrite !(unique_by_In _ sltb_total). split; apply Permutation_in; [exact P|apply Permutation_sym; exact P].
Qed.
Lemma np_unique_perm col col' : Permutation col col' -> np_unique col = np_unique col'.
Proof.
  intro P. unfold np_unique. assert (N := flat_map_perm _ _ cnum _ _ P). assert (S := flat_map_perm _ _ cstr _ _ P).
  rewrite <- (qunique_perm _ _ N), <- (sunique_perm _ _ S).
  destruct (flat_map cnum col) as [|a l], (flat_map cnum col') as [|a' l'];
    try (apply Permutation_nil in N; discriminate); try (apply Permutation_sym, Permutation_nil in N; discriminate);
    destruct (flat_map cstr col) as [|b m], (flat_map cstr col') as [|b' m'];
    try (apply Permutation_nil in S; discriminate); try (apply Permutation_sym, Permutation_nil in S; discriminate); reflexivity.
Qed.

(** training on rows given as pairs *)
Section Rows.
  Variables D D' : list (list cell * Z).
  Hypothesis HP : Permutation D D'.
  Lemma rows_len : List.length (map fst D) = List.length (map fst D').
  Proof. rewrite !map_length. apply Permutation_length. exact HP. Qed.
  Lemma rows_len_y : List.length (map snd D) = List.length (map snd D').
  Proof. rewrite !map_length. apply Permutation_length. exact HP. Qed.
  Lemma column_perm i : match column (map fst D) i with
    | Ok col => col = map (fun r => at_col i (fst r)) D /\ column (map fst D') i = Ok (map (fun r => at_col i (fst r)) D')
    | Err e => e = IndexError /\ column (map fst D') i = Err IndexError end.
  Proof.
    rewrite !column_spec. rewrite <- (forallb_perm _ _ _ _ (Permutation_map fst HP)). destruct (forallb _ _); [|auto]. rewrite !map_map. auto.
  Qed.
  Lemma count_perm c (y y' : list Z) : Permutation y y' -> count_class c y = count_class c y'.
  Proof. intro P. unfold count_class, countb. apply Permutation_length, filter_perm. exact P. Qed.
  Lemma class_entropy_perm classes (y y' : list Z) m : Permutation y y' -> class_entropy classes y m = class_entropy classes y' m.
  Proof. intro P. unfold class_entropy. f_equal. apply map_ext. intro c. rewrite (count_perm c y y' P). reflexivity. Qed.
  Lemma zip_map_snd A (f : list cell * Z -> A) (l : list (list cell * Z)) : zip (map f l) (map snd l) = map (fun r => (f r, snd r)) l.
  Proof. induction l as [|r l IH]; [reflexivity|]. cbn [map]. change (zip (f r :: map f l) (snd r :: map snd l)) with ((f r, snd r) :: zip (map f l) (map snd l)). rewrite IH. reflexivity. Qed.
  Lemma zip_map_self A (f : list cell * Z -> A) (l : list (list cell * Z)) : zip (map f l) l = map (fun r => (f r, r)) l.
  Proof. induction l as [|r l IH]; [reflexivity|]. cbn [map]. change (zip (f r :: map f l) (r :: l)) with ((f r, r) :: zip (map f l) l). rewrite IH. reflexivity. Qed.
  Lemma zip_rows (l : list (list cell * Z)) : zip (map fst l) (map snd l) = l.
  Proof. rewrite zip_map_snd. rewrite <- (map_id l) at 2. apply map_ext. intros [a b]. reflexivity. Qed.
  Lemma labels_perm i s : Permutation (labels_at (map (fun r => at_col i (fst r)) D) (map snd D) s) (labels_at (map (fun r => at_col i (fst r)) D') (map snd D') s).
  Proof. unfold labels_at. rewrite !zip_map_snd. apply Permutation_map, filter_perm, Permutation_map. exact HP. Qed.
  Lemma gain_perm classes i splits m : id3_gain classes (map (fun r => at_col i (fst r)) D) (map snd D) splits m =
    id3_gain classes (map (fun r => at_col i (fst r)) D') (map snd D') splits m.
  Proof.
    unfold id3_gain. rewrite (class_entropy_perm classes _ (map snd D')) by (apply Permutation_map; exact HP). f_equal. apply rsum_map_ext. intros s _.
    unfold split_term. assert (P := labels_perm i s). assert (LE := Permutation_length P).
    destruct (labels_at (map (fun r => at_col i (fst r)) D) (map snd D) s) as [|a l] eqn:E1, (labels_at (map (fun r => at_col i (fst r)) D') (map snd D') s) as [|a' l'] eqn:E2; try discriminate; [reflexivity|].
    rewrite (class_entropy_perm classes _ _ _ P), LE. reflexivity.
  Qed.
  Lemma best_perm positions SP classes to_test : best_feature positions SP (map fst D) (map snd D) classes to_test = best_feature positions SP (map fst D') (map snd D') classes to_test.
  Proof.
    unfold best_feature. assert (EX : forall (f g : option (nat * list cell) * R -> string -> res (option (nat * list cell) * R)) l b, (forall b ft, f b ft = g b ft) -> foldM f b l = foldM g b l).
    { intros f g l b0 H. revert b0. induction l as [|x l IH]; intro b0; [reflexivity|]. cbn [foldM]. rewrite H. destruct (g b0 x); cbn [bind]; [apply IH|reflexivity]. }
    apply EX. intros b ft. rewrite <- rows_len, <- rows_len_y.
    destruct (dget ft positions) as [i|]; cbn [ret_opt bind]; [|reflexivity]. assert (C := column_perm i).
    destruct (column (map fst D) i) as [col|e]; destruct C as [-> ->]; cbn [bind]; [|reflexivity].
    destruct (nth_error SP i) as [splits|]; cbn [ret_opt bind]; [|reflexivity]. rewrite !map_length. rewrite (Permutation_length HP).
    destruct (negb _); cbn [bind]; [reflexivity|]. rewrite gain_perm. reflexivity.
  Qed.
End Rows.

Lemma mapM_same_ext A B (f g : A -> res B) l : (forall x, f x = g x) -> mapM f l = mapM g l.
Proof. intro H. apply mapM_ext. intros. apply H. Qed.
Lemma id3_perm cfg cls fts SP yc : (forall y y', Permutation y y' -> cls y = cls y') ->
  forall fuel D D' t depth erased, Permutation D D' ->
  id3_partial_fit fuel cfg cls fts SP yc (map fst D) (map snd D) t depth erased = id3_partial_fit fuel cfg cls fts SP yc (map fst D') (map snd D') t depth erased.
Proof.
  intro HC. induction fuel as [|fuel IH]; intros D D' t depth erased P; [reflexivity|]. cbn [id3_partial_fit]. cbv zeta.
  rewrite <- (HC (map snd D) (map snd D')) by (apply Permutation_map; exact P). rewrite <- (rows_len D D' P), <- (rows_len_y D D' P).
  replace (map (fun c => (c, count_class c (map snd D'))) (cls (map snd D))) with (map (fun c => (c, count_class c (map snd D))) (cls (map snd D))).
  2:{ apply map_ext. intro c. rewrite (count_perm c (map snd D) (map snd D')) by (apply Permutation_map; exact P). reflexivity. }
  destruct (max_by _ _) as [[c k]|]; [|reflexivity]. destruct (Nat.eqb _ 0); [reflexivity|].
  destruct (Z.leb _ _); [reflexivity|]. destruct (Z.ltb _ _); [reflexivity|]. rewrite (best_perm D D' P).
  destruct (best_feature _ _ _ _ _ _) as [[best g]|]; cbn [bind]; [|reflexivity]. cbn [fst snd].
  match goal with |- bind ?r _ = bind ?r _ => destruct r as [name|] end; cbn [bind]; [|reflexivity].
  match goal with |- bind ?a _ = bind ?b _ => assert (E : a = b); [|rewrite E; reflexivity] end.
  apply mapM_same_ext. intro s. destruct best as [[i spl]|]; cbn [option_map fst].
  - assert (C := column_perm D D' P i). destruct (column (map fst D) i) as [col|e]; destruct C as [-> ->]; cbn [bind]; [|reflexivity].
    rewrite !zip_rows, !zip_map_self.
    assert (PF : Permutation (map snd (filter (fun p => eqb (fst p) s) (map (fun r => (at_col i (fst r), r)) D))) (map snd (filter (fun p => eqb (fst p) s) (map (fun r => (at_col i (fst r), r)) D')))) by (apply Permutation_map, filter_perm, Permutation_map; exact P).
    remember (map snd (filter (fun p => eqb (fst p) s) (map (fun r => (at_col i (fst r), r)) D))) as rows eqn:E1. remember (map snd (filter (fun p => eqb (fst p) s) (map (fun r => (at_col i (fst r), r)) D'))) as rows' eqn:E2.
    destruct rows as [|r rows], rows' as [|r' rows']; try (apply Permutation_nil in PF; discriminate); try (apply Permutation_sym, Permutation_nil in PF; discriminate); [reflexivity|].
    rewrite (IH (r :: rows) (r' :: rows') new_itree (depth + 1)%Z (erased ++ [name]) PF). rewrite (Permutation_length PF). reflexivity.
  - reflexivity.
Qed.
Lemma id3_fit_perm cfg cls fts root D D' : (forall y y', Permutation y y' -> cls y = cls y') -> Permutation D D' ->
  id3_fit cfg cls fts root (map fst D) (map snd D) = id3_fit cfg cls fts root (map fst D') (map snd D').
Proof.
  intros HC P. unfold id3_fit.
  assert (E : mapM (fun i => do col <- column (map fst D) i; np_unique col) (seq 0 (List.length (i_features cfg))) = mapM (fun i => do col <- column (map fst D') i; np_unique col) (seq 0 (List.length (i_features cfg)))).
  { apply mapM_same_ext. intro i. assert (C := column_perm D D' P i). destruct (column (map fst D) i) as [col|e]; destruct C as [-> ->]; cbn [bind]; [|reflexivity]. apply np_unique_perm, Permutation_map. exact P. }
  rewrite E. match goal with |- bind ?r _ = bind ?r _ => destruct r as [SP|] end; cbn [bind]; [|reflexivity].
  rewrite (zunique_ext (map snd D') (map snd D)) by (intro x; split; apply Permutation_in; [apply Permutation_sym|]; apply Permutation_map; exact P).
  apply id3_perm; assumption.
Qed.
