(** * C123: the names of variables and fuzzy sets are only names *)
From Verif Require Import Prelude M_Fuzzy M_Discretize P_FuzzySet P_FuzzyVar M_Rule M_FDT S_FDT P_FDT P_FDT3 P_FDT4 Properties_FDT P_Degrees M_FBDT S_FBDT P_FBDT2 Properties_FBDT M_ID3 S_ID3 Properties_ID3 Properties_ID3b S_Names P_Names P_Names2 P_Names3.
From Coq Require Import Reals Lra Ascii.
Local Notation eqb := Prelude.eqb.
Open Scope string_scope. Open Scope list_scope. Open Scope Qc_scope.

(** Multiway trees.  [ord'] visits the renamed features of a node in the order in which [ord] visits the old ones. *)
Theorem C123_fdt : forall f g cfg ord ord' root X y,
  distinct_names_kept f g -> (0 < f_threshold cfg)%R -> (forall path l, ord' path (map f l) = map f (ord path l)) ->
  match fit cfg ord root X y with
  | Err e => fit (rename_cfg f g cfg) ord' (rename f g root) X y = Err e
  | Ok t => exists t', fit (rename_cfg f g cfg) ord' (rename f g root) X y = Ok t' /\
      (forall Z, predict (rename_cfg f g cfg) t' Z = predict cfg t Z) /\
      (forall th, match tree_rules t th with
                  | Ok rules => tree_rules t' th = Ok (map (rename_rule f g) rules)
                  | Err e => tree_rules t' th = Err e
                  end)
  end.
Proof.
  intros f g cfg ord ord' root X y HD Hth Ho. assert (E := rename_fit HD cfg Hth ord ord' root X y Ho). destruct (fit cfg ord root X y) as [t|e]; cbn [rmap] in E; [|exact E].
  exists (rename f g t). split; [exact E|]. split.
  - intro Z. unfold predict. cbn [rename_cfg f_tnorm f_voting]. rewrite rename_predict. reflexivity.
  - intro th. assert (Q := rename_rules f g th t []). unfold tree_rules. change (map _ []) with (@nil (string * string)) in Q. rewrite Q. destruct (get_rules t [] th); reflexivity.
Qed.
Print Assumptions C123_fdt.

(** Binary trees: [psort] sorts by the keys alone, whatever the names. *)
Theorem C123_fbdt : forall f g cfg psort root X y,
  distinct_names_kept f g -> (0 < f_threshold cfg)%R ->
  (forall (h : string -> string) l, psort (map (fun k => (h (fst k), snd k)) l) = map (fun k => (h (fst k), snd k)) (psort l)) ->
  match bt_fit cfg psort root X y with
  | Err e => bt_fit (rename_cfg f g cfg) psort (brename f g root) X y = Err e
  | Ok (h, t) => exists t', bt_fit (rename_cfg f g cfg) psort (brename f g root) X y = Ok (h, t') /\
      (forall Z, bpredict (rename_cfg f g cfg) t' Z = bpredict cfg t Z) /\
      (forall th simplified, match btree_rules t th simplified with
                             | Ok rules => btree_rules t' th simplified = Ok (map (brename_rule f g) rules)
                             | Err e => btree_rules t' th simplified = Err e
                             end)
  end.
Proof.
  intros f g cfg psort root X y HD Hth Hp. assert (E := brename_fit HD psort Hp cfg Hth root X y). destruct (bt_fit cfg psort root X y) as [[h t]|e]; cbn [rmap] in E; [|exact E].
  exists (brename f g t). split; [exact E|]. split.
  - intro Z. unfold bpredict. cbn [rename_cfg f_tnorm f_voting]. rewrite brename_predict. reflexivity.
  - intros th simplified. assert (Q := brename_rules f g th t []). unfold btree_rules. change (map _ []) with (@nil (string * list string)) in Q. rewrite Q. destruct (get_brules t [] th) as [rs|]; cbn [rmap bind]; [|reflexivity].
    apply (f_equal (@Ok _)). destruct simplified; [|reflexivity]. rewrite !map_map. apply map_ext. intro r. apply simplify_rename. exact HD.
Qed.
Print Assumptions C123_fbdt.

(** The degrees under the new names, and what rules say of instances under the new names. *)
Theorem C123_degrees_and_votes : forall f g, distinct_names_kept f g ->
  (forall X vars, match dataset_membership X vars with
                  | Ok XM => dataset_membership X (map (rename_var f g) vars) = Ok (rename_degrees f g XM)
                  | Err e => dataset_membership X (map (rename_var f g) vars) = Err e
                  end) /\
  (forall m r, matching (rename_instance f g m) (rename_rule f g r) = matching m r) /\
  (forall m rules, weighted_vote (map (rename_rule f g) rules) (rename_instance f g m) = weighted_vote rules m) /\
  (forall m r, matching_multi (rename_instance f g m) (brename_rule f g r) = matching_multi m r) /\
  (forall m rules, weighted_vote_multi (map (brename_rule f g) rules) (rename_instance f g m) = weighted_vote_multi rules m).
Proof.
  intros f g HD. split; [|split; [|split; [|split]]].
  - intros X vars. rewrite (dataset_rename HD). destruct (dataset_membership X vars); reflexivity.
  - intros m r. apply (matching_rename HD).
  - intros m rules. apply (vote_rename HD).
  - intros m r. apply (matching_multi_rename HD).
  - intros m rules. apply (vote_multi_rename HD).
Qed.
Print Assumptions C123_degrees_and_votes.

(** ID3: the very same tree, and rules that only mention the new names. *)
Theorem C123_id3 : forall f cfg cls fts fts' root X y,
  (forall a b, f a = f b -> a = b) -> (forall l, fts' (map f l) = map f (fts l)) ->
  id3_fit (rename_id3 f cfg) cls fts' root X y = id3_fit cfg cls fts root X y /\
  (forall t, match id3_tree_rules (i_features cfg) t [] with
             | Ok rules => id3_tree_rules (map f (i_features cfg)) t [] = Ok (map (rename_crisp f) rules)
             | Err e => id3_tree_rules (map f (i_features cfg)) t [] = Err e
             end).
Proof.
  intros f cfg cls fts fts' root X y Hf Ho. split; [apply id3_fit_rename; assumption|]. intro t. cbn [id3_tree_rules].
  assert (Q := id3_rules_rename f (i_features cfg) t []). change (map _ []) with (@nil (string * cell)) in Q. rewrite Q. destruct (id3_get_rules (i_features cfg) t []); reflexivity.
Qed.
Print Assumptions C123_id3.

(** "x" becomes "_x", its sets "low" and "high" become "xlow" and "xhigh" *)
Definition ex_f : string -> string := String "_".
Definition ex_g : string -> string -> string := fun _ => String "x".
Lemma ex_kept : distinct_names_kept ex_f ex_g.
Proof. split; intros; unfold ex_f, ex_g in *; congruence. Qed.
Example C123_fdt_instance : exists t', fit (rename_cfg ex_f ex_g (ex_cfg AggVote)) same_order fresh_root ex_X ex_y = Ok t' /\
  tree_rules t' 0 = Ok [mkR [("_x", "xlow")] 1%Z 1; mkR [("_x", "xhigh")] 0%Z 1] /\
  predict (rename_cfg ex_f ex_g (ex_cfg AggVote)) t' [[CNum (qz 2)]; [CNum (qz 8)]] = Ok [1; 0]%Z.
Proof.
  assert (T := ex_fit AggVote ex_y (or_introl eq_refl)). destruct T as (_ & _ & _ & T).
  assert (H := C123_fdt ex_f ex_g (ex_cfg AggVote) same_order same_order fresh_root ex_X ex_y ex_kept ltac:(cbn; lra) (fun _ _ => eq_refl)). rewrite T in H.
  destruct H as (t' & F & P & R). exists t'. split; [exact F|]. split; [specialize (R 0); exact R|]. rewrite P. reflexivity.
Qed.
Example C123_fbdt_instance : exists h t', bt_fit (rename_cfg ex_f ex_g (ex_cfg AggVote)) no_sort fresh_broot ex_X ex_y = Ok (h, t') /\
  btree_rules t' 0 true = Ok [mkR [("_x", ["xlow"])] 1%Z 1; mkR [("_x", ["xhigh"])] 0%Z 1].
Proof.
  destruct (ex_btrained AggVote) as (_ & _ & h & T).
  assert (H := C123_fbdt ex_f ex_g (ex_cfg AggVote) no_sort fresh_broot ex_X ex_y ex_kept ltac:(cbn; lra) (fun _ _ => eq_refl)). rewrite T in H.
  destruct H as (t' & F & P & R). exists h, t'. split; [exact F|]. exact (R 0 true).
Qed.
Example C123_id3_instance : let cfg := ex_id3 (1 / qz 10) 5 true in let fts' := fun erased => filter (fun n => negb (memb n erased)) ["_a"] in
  (forall l, fts' (map ex_f l) = map ex_f (ex_fts l)) /\
  id3_fit (rename_id3 ex_f cfg) ex_cls fts' new_itree (xa [0; 0; 1; 2]%Z) [0; 0; 1; 1]%Z = Ok ex_tree /\
  id3_tree_rules (i_features (rename_id3 ex_f cfg)) ex_tree [] = Ok [mkR [("_a", CNum 0)] 0%Z 1; mkR [("_a", CNum 1)] 1%Z 1; mkR [("_a", CNum (qz 2))] 1%Z 1].
Proof.
  cbv zeta. assert (O : forall l, filter (fun n => negb (memb n (map ex_f l))) ["_a"] = map ex_f (ex_fts l)).
  { intro l. unfold ex_fts. cbn [filter]. change "_a" with (ex_f "a"). rewrite (@memb_f ex_f (proj1 ex_kept)). destruct (memb "a" l); reflexivity. }
  split; [exact O|]. destruct ex_trained as (_ & _ & T).
  destruct (C123_id3 ex_f (ex_id3 (1 / qz 10) 5 true) ex_cls ex_fts (fun erased => filter (fun n => negb (memb n erased)) ["_a"]) new_itree (xa [0; 0; 1; 2]%Z) [0; 0; 1; 1]%Z (proj1 ex_kept) O) as [H R].
  split; [rewrite H; exact T|]. exact (R ex_tree).
Qed.
