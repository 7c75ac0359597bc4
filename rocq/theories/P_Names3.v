(** * Proofs: names are only names, for rules and for ID3 *)
From Verif Require Import Prelude M_Fuzzy P_FuzzySet P_FuzzyVar M_Discretize P_Entropy P_Discretize M_Rule M_FDT S_FDT P_FDT P_FDT3 S_Degrees P_Degrees S_Names P_Names M_FBDT P_FBDT2 M_ID3 P_Equality.
From Coq Require Import Reals Lra.
Local Notation eqb := Prelude.eqb.
Set Implicit Arguments.
Open Scope Qc_scope.

Section Rules.
  Variable f : string -> string.
  Variable g : string -> string -> string.
  Hypothesis HD : distinct_names_kept f g.
  Let Hf := proj1 HD.
  Let Hg := proj2 HD.
  Lemma degree_rename m n s : degree (rename_instance f g m) (f n) (g n s) = degree m n s.
  Proof.
    unfold degree. assert (E : dget (f n) (rename_instance f g m) = option_map (fun d => map (fun sc : string * Qc => (g n (fst sc), snd sc)) d) (dget n m)) by exact (@dget_rekey _ _ f (@Hf) (fun n d => map (fun sc : string * Qc => (g n (fst sc), snd sc)) d) n m).
    rewrite E. destruct (dget n m) as [d|]; cbn [option_map ret_opt bind]; [|reflexivity].
    assert (E' : dget (g n s) (map (fun sc : string * Qc => (g n (fst sc), snd sc)) d) = option_map (fun c => c) (dget s d)) by exact (@dget_rekey _ _ (g n) (@Hg n) (fun _ c => c) s d).
    rewrite E'. destruct (dget s d); reflexivity.
  Qed.
  Lemma mapM_map A B C (k : A -> B) (u : B -> res C) (u' : A -> res C) l : (forall x, u (k x) = u' x) -> mapM u (map k l) = mapM u' l.
  Proof. intro H. induction l as [|x l IH]; [reflexivity|]. cbn [map mapM]. rewrite H, IH. reflexivity. Qed.
  Lemma matching_rename tn m r : matching_tn tn (rename_instance f g m) (rename_rule f g r) = matching_tn tn m r.
  Proof. unfold matching_tn, rename_rule. cbn [r_ant]. rewrite (@mapM_map _ _ _ _ _ (fun fv => degree m (fst fv) (snd fv))); [reflexivity|]. intros [n s]. apply degree_rename. Qed.
  Lemma matching_multi_rename tn m r : matching_multi_tn tn (rename_instance f g m) (brename_rule f g r) = matching_multi_tn tn m r.
  Proof.
    unfold matching_multi_tn, brename_rule. cbn [r_ant]. rewrite (@mapM_map _ _ _ _ _ (fun fv => sum_degrees m (fst fv) (snd fv))); [reflexivity|]. intros [n l]. cbn [fst snd].
    unfold sum_degrees. generalize 0. induction l as [|s l IH]; intro x; [reflexivity|]. cbn [map foldM]. rewrite degree_rename. destruct (degree m n s); cbn [bind]; [|reflexivity]. apply IH.
  Qed.
  Lemma vote_rename rules m : weighted_vote (map (rename_rule f g) rules) (rename_instance f g m) = weighted_vote rules m.
  Proof.
    unfold weighted_vote, vote_dict. match goal with |- bind ?a _ = bind ?b _ => assert (E : a = b) end; [|rewrite E; reflexivity].
    generalize (@nil (Z * Qc)) as d. induction rules as [|r rules IH]; intro d; [reflexivity|]. cbn [map foldM]. unfold matching at 1. rewrite matching_rename. fold (matching m r). destruct (matching m r); cbn [bind]; [|reflexivity]. apply IH.
  Qed.
  Lemma vote_multi_rename rules m : weighted_vote_multi (map (brename_rule f g) rules) (rename_instance f g m) = weighted_vote_multi rules m.
  Proof.
    unfold weighted_vote_multi, vote_dict_multi. match goal with |- bind ?a _ = bind ?b _ => assert (E : a = b) end; [|rewrite E; reflexivity].
    generalize (@nil (Z * Qc)) as d. induction rules as [|r rules IH]; intro d; [reflexivity|]. cbn [map foldM]. unfold matching_multi at 1. rewrite matching_multi_rename. fold (matching_multi m r). destruct (matching_multi m r); cbn [bind]; [|reflexivity]. apply IH.
  Qed.
  Lemma simplify_rename r : simplify (@List.length string) (brename_rule f g r) = brename_rule f g (simplify (@List.length string) r).
  Proof.
    unfold simplify, brename_rule. cbn [r_ant r_cons r_weight]. f_equal. unfold simplify_ant.
    pose (ren := @rekey (list string) (list string) f (fun n l => map (g n) l)).
    change (map (fun c : string * list string => (f (fst c), map (g (fst c)) (snd c)))) with ren. change (@nil (string * list string)) with (ren []) at 1. generalize (@nil (string * list string)) as d.
    induction (r_ant r) as [|[n l] ant IH]; intro d; [reflexivity|]. cbn [ren rekey map fold_left fst snd].
    assert (G : dget (f n) (ren d) = option_map (map (g n)) (dget n d)) by exact (@dget_rekey _ _ f (@Hf) (fun n l => map (g n) l) n d).
    assert (S : dset (f n) (map (g n) l) (ren d) = ren (dset n l d)) by exact (@dset_rekey _ _ f (@Hf) (fun n l => map (g n) l) n l d).
    fold (rekey f (fun n l => map (g n) l)). change (rekey f (fun (n0 : string) (l0 : list string) => map (g n0) l0) ant) with (ren ant).
    rewrite G. destruct (dget n d) as [old|]; cbn [option_map]; [|rewrite S; apply IH]. rewrite !map_length. destruct (Nat.ltb (List.length l) (List.length old)); [rewrite S|]; apply IH.
  Qed.
End Rules.

Section ID3.
  Variable f : string -> string.
  Hypothesis Hf : forall a b, f a = f b -> a = b.
  Lemma i_positions_get features n : dget (f n) (i_positions (map f features)) = dget n (i_positions features).
  Proof.
    unfold i_positions. rewrite enumerate_map, map_map. cbn [fst snd].
    assert (E : dict_of (map (fun x : nat * string => (f (snd x), fst x)) (enumerate features)) = rekey f (fun _ (i : nat) => i) (dict_of (map (fun p => (snd p, fst p)) (enumerate features)))).
    { rewrite <- (@dict_of_rekey _ _ f Hf (fun _ (i : nat) => i)). f_equal. unfold rekey. rewrite map_map. reflexivity. }
    rewrite E, (@dget_rekey _ _ f Hf). destruct (dget n _); reflexivity.
  Qed.
  Lemma best_feature_rename features SP X y classes l :
    best_feature (i_positions (map f features)) SP X y classes (map f l) = best_feature (i_positions features) SP X y classes l.
  Proof.
    unfold best_feature. generalize (@None (nat * list cell), (-1)%R) as b. induction l as [|n l IH]; intro b; [reflexivity|]. cbn [map foldM]. rewrite i_positions_get.
    match goal with |- bind ?r _ = bind ?r _ => destruct r as [b'|]; cbn [bind]; [|reflexivity] end. apply IH.
  Qed.
  Lemma id3_partial_rename cfg cls fts fts' SP yc : (forall l, fts' (map f l) = map f (fts l)) -> forall fuel X y t depth erased,
    id3_partial_fit fuel (rename_id3 f cfg) cls fts' SP yc X y t depth (map f erased) = id3_partial_fit fuel cfg cls fts SP yc X y t depth erased.
  Proof.
    intro Ho. induction fuel as [|fuel IH]; intros X y t depth erased; [reflexivity|]. cbn [id3_partial_fit].
    destruct (max_by _ _) as [[c k]|]; [|reflexivity]. destruct (Nat.eqb (List.length X) 0); [reflexivity|]. cbv zeta. cbn [rename_id3 i_max_depth i_min_examples i_features i_prunning i_th].
    destruct (Z.leb _ _); [reflexivity|]. destruct (Z.ltb _ _); [reflexivity|]. rewrite Ho, best_feature_rename.
    destruct (best_feature (i_positions (i_features cfg)) SP X y (cls y) (fts erased)) as [best|]; cbn [bind]; [|reflexivity].
    assert (NM : (match option_map fst (fst best) with Some i => nth_error (map f (i_features cfg)) i | None => nth_error (map f (i_features cfg)) (List.length (map f (i_features cfg)) - 1) end)
      = option_map f (match option_map fst (fst best) with Some i => nth_error (i_features cfg) i | None => nth_error (i_features cfg) (List.length (i_features cfg) - 1) end)).
    { rewrite map_length. destruct (option_map fst (fst best)); apply nth_error_map. }
    rewrite NM. match goal with |- bind (ret_opt _ (option_map f ?o)) _ = _ => destruct o as [name|] end; cbn [option_map ret_opt bind]; [|reflexivity].
    match goal with |- bind ?a _ = bind ?b _ => assert (E : a = b) end; [|rewrite E; reflexivity].
    apply mapM_ext. intros s _. destruct (match option_map fst (fst best) with Some i => column X i | None => Ok [] end) as [col|]; cbn [bind]; [|reflexivity].
    destruct (map snd (filter _ (zip col (zip X y)))) as [|r rows]; [reflexivity|].
    rewrite <- (IH (map fst (r :: rows)) (map snd (r :: rows)) new_itree (depth + 1)%Z (erased ++ [name])). rewrite map_app. reflexivity.
  Qed.
  Lemma id3_fit_rename cfg cls fts fts' root X y : (forall l, fts' (map f l) = map f (fts l)) -> id3_fit (rename_id3 f cfg) cls fts' root X y = id3_fit cfg cls fts root X y.
  Proof.
    intro Ho. unfold id3_fit. cbn [rename_id3 i_features]. rewrite map_length. destruct (mapM _ _) as [SP|]; cbn [bind]; [|reflexivity].
    exact (id3_partial_rename cfg cls fts fts' SP (zunique y) Ho (S (List.length (i_features cfg))) X y root 0%Z []).
  Qed.
  Lemma id3_rules_rename features : forall t conds,
    id3_get_rules (map f features) t (map (fun c => (f (fst c), snd c)) conds) = rmap (map (rename_crisp f)) (id3_get_rules features t conds).
  Proof.
    induction t as [va l cs sp c cc lv e n IH] using itree_ind'. intro conds. cbn [id3_get_rules]. destruct l; [reflexivity|].
    assert (NM : (match va with Some i => nth_error (map f features) i | None => nth_error (map f features) (List.length (map f features) - 1) end)
      = option_map f (match va with Some i => nth_error features i | None => nth_error features (List.length features - 1) end)).
    { rewrite map_length. destruct va; apply nth_error_map. }
    rewrite NM. clear NM. generalize (match va with Some i => nth_error features i | None => nth_error features (List.length features - 1) end) as o. intro o.
    revert sp. induction IH as [|t cs Ht _ IH]; intro sp; destruct sp as [|s sp]; try reflexivity. destruct o as [name|]; cbn [option_map ret_opt bind rmap]; [|reflexivity].
    assert (A : map (fun c : string * cell => (f (fst c), snd c)) conds ++ [(f name, s)] = map (fun c : string * cell => (f (fst c), snd c)) (conds ++ [(name, s)])) by (rewrite map_app; reflexivity).
    rewrite A, Ht. destruct (id3_get_rules features t (conds ++ [(name, s)])) as [rs|]; cbn [rmap bind]; [|reflexivity]. cbn [option_map ret_opt] in IH. cbn [bind] in IH. rewrite IH.
    match goal with |- bind (rmap _ ?m) _ = _ => destruct m as [rs'|] end; cbn [rmap bind]; [|reflexivity]. rewrite map_app. reflexivity.
  Qed.
End ID3.
