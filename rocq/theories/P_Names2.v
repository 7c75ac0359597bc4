(** * Proofs: names are only names, for binary trees *)
From Verif Require Import Prelude M_Fuzzy P_FuzzySet P_FuzzyVar M_Discretize P_Entropy P_Discretize M_Rule M_FDT S_FDT P_FDT P_FDT3 S_Degrees P_Degrees S_Names P_Names M_FBDT P_FBDT2.
From Coq Require Import Reals Lra.
Local Notation eqb := Prelude.eqb.
Set Implicit Arguments.
Open Scope Qc_scope.

Lemma positions_name vars n a v : dget n (f_positions vars) = Some a -> nth_error vars a = Some v -> fv_name v = n.
Proof.
  unfold f_positions. rewrite dict_of_get. intros E V. apply dget_In in E. apply in_rev in E. apply in_map_iff in E. destruct E as [[i w] [Q I]]. cbn [fst snd] in Q.
  apply In_nth_error in I. destruct I as [k I]. apply enumerate_nth_inv in I. cbn [fst snd] in I. destruct I as [<- I]. injection Q as <- <-. congruence.
Qed.

Section Names.
  Variable f : string -> string.
  Variable g : string -> string -> string.
  Hypothesis HD : distinct_names_kept f g.
  Let Hf := proj1 HD.
  Let Hg := proj2 HD.
  Notation resets n := (fun d : list (string * list Qc) => map (fun sc : string * list Qc => (g n (fst sc), snd sc)) d).
  Notation rekeyed := (map (fun na : string * nat => (f (fst na), snd na))).

  Lemma cats_rename vars : categorical_features (map (rename_var f g) vars) = rmap (map f) (categorical_features vars).
  Proof.
    unfold categorical_features.
    match goal with |- bind (mapM ?u' (map ?k ?l)) _ = rmap _ (bind (mapM ?u ?l) _) => rewrite (@mapM_both _ _ _ _ u u' k (map f) l) end.
    - destruct (mapM _ vars) as [l|]; cbn [rmap bind]; [|reflexivity]. rewrite concat_map. reflexivity.
    - intros v _. cbn [rename_var fv_sets fv_name]. destruct (fv_sets v) as [|[c|n w] r]; reflexivity.
  Qed.
  Definition rename_avail (fd : dict string (list string)) : dict string (list string) := map (fun nl => (f (fst nl), map (g (fst nl)) (snd nl))) fd.
  Lemma initial_rename vars : initial_sets (map (rename_var f g) vars) = rename_avail (initial_sets vars).
  Proof.
    unfold initial_sets. etransitivity; [|exact (@dict_of_rekey _ _ f (@Hf) (fun n l => map (g n) l) _)]. f_equal. unfold rekey. rewrite !map_map. apply map_ext. intro v. cbn [rename_var fv_sets fv_name fst snd]. f_equal.
    rewrite !map_map. apply map_ext. intro s. apply fs_name_rename.
  Qed.
  Lemma avail_get fd n : dget (f n) (rename_avail fd) = option_map (map (g n)) (dget n fd).
  Proof. exact (@dget_rekey _ _ f (@Hf) (fun n l => map (g n) l) n fd). Qed.
  Lemma avail_set fd n l : dset (f n) (map (g n) l) (rename_avail fd) = rename_avail (dset n l fd).
  Proof. exact (@dset_rekey _ _ f (@Hf) (fun n l => map (g n) l) n l fd). Qed.
  Lemma set_column_rename XM n s : set_column (rename_degrees f g XM) (f n) (g n s) = set_column XM n s.
  Proof.
    unfold set_column. rewrite (@degrees_get f g HD). destruct (dget n XM) as [d|]; cbn [option_map ret_opt bind]; [|reflexivity]. rewrite (@sets_get f g HD). reflexivity.
  Qed.
  Definition rename_part (p : partition) : partition := let '(n, l, r) := p in (f n, map (g n) l, map (g n) r).
  Lemma cuts_rename n l : cuts (f n) (map (g n) l) = map rename_part (cuts n l).
  Proof. unfold cuts. rewrite map_length, map_map. apply map_ext. intro i. cbn [rename_part]. rewrite firstn_map, skipn_map. reflexivity. Qed.

  Variable psort : list (string * option Qc) -> list (string * option Qc).
  Hypothesis Hps : forall (h : string -> string) l, psort (map (fun k => (h (fst k), snd k)) l) = map (fun k => (h (fst k), snd k)) (psort l).
  Lemma partitions_rename cats fd XM y :
    binary_partitions psort (map f cats) (rename_avail fd) (rename_degrees f g XM) y = rmap (map rename_part) (binary_partitions psort cats fd XM y).
  Proof.
    unfold binary_partitions. destruct (nth_error (zunique y) 0) as [c|]; cbn [ret_opt bind rmap]; [|reflexivity]. unfold rename_avail.
    match goal with |- bind (mapM ?u' (map ?k ?l)) _ = rmap _ (bind (mapM ?u ?l) _) => rewrite (@mapM_both _ _ _ _ u u' k (map rename_part) l) end.
    - destruct (mapM _ fd) as [l|]; cbn [rmap bind]; [|reflexivity]. rewrite concat_map. reflexivity.
    - intros [n l] _. cbn [fst snd]. rewrite (@memb_f f (@Hf)). destruct (memb n cats); [|cbn [rmap]; rewrite cuts_rename; reflexivity].
      rewrite (@mapM_both _ _ _ _ (fun val => do col <- set_column XM n val; Ok (val, positive_share col y c)) _ (g n) (fun k => (g n (fst k), snd k)) l).
      + match goal with |- bind (rmap _ ?m) _ = _ => destruct m as [ks|] end; cbn [rmap bind]; [|reflexivity]. rewrite Hps. rewrite map_map. cbn [fst]. rewrite <- (map_map fst (g n)). rewrite cuts_rename. reflexivity.
      + intros s _. rewrite set_column_rename. destruct (set_column XM n s); reflexivity.
  Qed.
  Lemma sum_sets_rename XM k n l : sum_sets (rename_degrees f g XM) k (f n) (map (g n) l) = sum_sets XM k n l.
  Proof.
    unfold sum_sets. match goal with |- bind ?a _ = bind ?b _ => assert (E : a = b) end; [|rewrite E; reflexivity].
    induction l as [|s l IH]; [reflexivity|]. cbn [map mapM]. rewrite set_column_rename, IH. reflexivity.
  Qed.
  Lemma ignored_get ig n : dget (f n) (rekeyed ig) = dget n ig.
  Proof. etransitivity; [exact (@dget_rekey _ _ f (@Hf) (fun _ a => a) n ig)|]. destruct (dget n ig); reflexivity. Qed.
  Lemma score_side_rename h mu ig XM k n l :
    score_side h mu (rekeyed ig) (rename_degrees f g XM) k (f n) (map (g n) l) = score_side h mu ig XM k n l.
  Proof. unfold score_side. rewrite sum_sets_rename, ignored_get. reflexivity. Qed.
  Definition rename_split (s : bsplit) : bsplit :=
    mkSplit (f (s_att s)) (s_gain s) (s_lmu s) (s_rmu s) (map (g (s_att s)) (s_left s)) (map (g (s_att s)) (s_right s)) (s_lign s) (s_rign s).
  Definition rename_best (hb : heap * option bsplit) : heap * option bsplit := (fst hb, option_map rename_split (snd hb)).
  Lemma best_gain_rename b : best_gain (option_map rename_split b) = best_gain b.
  Proof. destruct b; reflexivity. Qed.
  Lemma score_partition_rename XM y mu ig hb p :
    score_partition (rename_degrees f g XM) y mu (rekeyed ig) (rename_best hb) (rename_part p) = rmap rename_best (score_partition XM y mu ig hb p).
  Proof.
    destruct p as [[n l] r], hb as [h b]. unfold score_partition, rename_part, rename_best. cbn [fst snd]. rewrite score_side_rename.
    destruct (score_side h mu ig XM (List.length y) n l) as [[[h1 lm] la]|]; cbn [bind rmap]; [|reflexivity]. rewrite score_side_rename.
    destruct (score_side h1 mu ig XM (List.length y) n r) as [[[h2 rm] ra]|]; cbn [bind rmap]; [|reflexivity].
    destruct (split_gain mu lm rm y) as [x|]; cbn [bind rmap]; [|reflexivity]. rewrite best_gain_rename. unfold rename_best. cbn [fst snd]. destruct (Rltb (best_gain b) x); reflexivity.
  Qed.
  Lemma max_split_rename cats h mu ig fd XM y :
    max_split psort (map f cats) h mu (rekeyed ig) (rename_avail fd) (rename_degrees f g XM) y = rmap rename_best (max_split psort cats h mu ig fd XM y).
  Proof.
    unfold max_split. rewrite partitions_rename. destruct (binary_partitions psort cats fd XM y) as [ps|]; cbn [rmap bind]; [|reflexivity].
    change (h, @None bsplit) with (rename_best (h, None)) at 1. generalize (h, @None bsplit) as hb. induction ps as [|p ps IH]; intro hb; [reflexivity|]. cbn [map foldM]. rewrite score_partition_rename.
    destruct (score_partition XM y mu ig hb p) as [hb'|]; cbn [rmap bind]; [|reflexivity]. apply IH.
  Qed.
  Lemma update_rename h ig n a : update_ignored h (rekeyed ig) (f n) a = (fst (update_ignored h ig n a), rekeyed (snd (update_ignored h ig n a))).
  Proof.
    unfold update_ignored. rewrite ignored_get. assert (S : forall b, dset (f n) b (rekeyed ig) = rekeyed (dset n b ig)) by (intro b; exact (@dset_rekey _ _ f (@Hf) (fun _ a => a) n b ig)).
    destruct (dget n ig) as [b|]; [|cbn [fst snd]; rewrite S; reflexivity]. destruct (halloc h _) as [b' h']. cbn [fst snd]. rewrite S. reflexivity.
  Qed.
  Lemma set_dict_rename n (l : list fset) : dict_of (map (fun js : nat * fset => (fs_name (snd js), fst js)) (enumerate (map (rename_set (g n)) l))) =
    map (fun sj => (g n (fst sj), snd sj)) (dict_of (map (fun js : nat * fset => (fs_name (snd js), fst js)) (enumerate l))).
  Proof.
    etransitivity; [|exact (@dict_of_rekey _ _ (g n) (@Hg n) (fun _ a => a) _)]. f_equal. unfold rekey. rewrite enumerate_map, !map_map. apply map_ext. intros [j s]. cbn [fst snd]. rewrite fs_name_rename. reflexivity.
  Qed.
  Lemma filter_rename n names l : filter (fun x => memb x (map (g n) names)) (map (g n) l) = map (g n) (filter (fun x => memb x names) l).
  Proof.
    induction l as [|x l IH]; [reflexivity|]. cbn [map filter]. rewrite (@memb_f (g n) (@Hg n)). rewrite IH. destruct (memb x names); reflexivity.
  Qed.

  (** ** training *)
  Variable cfg : fdt_cfg.
  Hypothesis Hth : (0 < f_threshold cfg)%R.
  Let cfg' := rename_cfg f g cfg.
  Definition pair_rename (p : heap * btree) : heap * btree := (fst p, brename f g (snd p)).
  Lemma brename_bfit cats XM y : forall fuel h node fd depth,
    bfit fuel cfg' psort (map f cats) (rename_degrees f g XM) y h (brename f g node) (rename_avail fd) depth = rmap pair_rename (bfit fuel cfg psort cats XM y h node fd depth).
  Proof.
    induction fuel as [|fuel IH]; intros h node fd depth; [reflexivity|]. cbn [bfit].
    destruct node as [l cs cv lv va vr mu ig]. cbn [brename b_mu b_children b_value b_var b_class b_ignored]. rewrite max_split_rename.
    destruct (max_split psort cats h mu ig fd XM y) as [[h1 best]|]; cbn [bind rmap]; [|reflexivity]. unfold rename_best. cbn [fst snd]. rewrite best_gain_rename.
    change (stop_met cfg' (best_gain best) (masked mu y) depth) with (stop_met cfg (best_gain best) (masked mu y) depth).
    destruct (stop_met cfg (best_gain best) (masked mu y) depth) eqn:ST.
    { destruct (get_class_value mu y); cbn [bind rmap]; reflexivity. }
    destruct best as [s|].
    2: { exfalso. unfold stop_met in ST. apply orb_false_iff in ST. destruct ST as [_ ST]. apply Rltb_ge in ST. cbn [best_gain] in ST. lra. }
    cbn [option_map rename_split s_att s_left s_right s_lmu s_rmu s_lign s_rign].
    unfold cfg' at 1 2, rename_cfg. cbn [f_vars]. rewrite (@positions_get f g HD).
    destruct (dget (s_att s) (f_positions (f_vars cfg))) as [a|] eqn:EA; cbn [ret_opt bind rmap]; [|reflexivity].
    rewrite nth_error_map. destruct (nth_error (f_vars cfg) a) as [v|] eqn:V; cbn [option_map ret_opt bind rmap]; [|reflexivity]. cbv zeta.
    assert (NV := @positions_name _ _ _ _ EA V).
    assert (G : forall h names cmu caddr,
      (do idx <- mapM (fun n => ret_opt KeyError (dget n (dict_of (map (fun js : nat * fset => (fs_name (snd js), fst js)) (enumerate (fv_sets (rename_var f g v))))))) (map (g (s_att s)) names);
       let '(h2, cign) := update_ignored h (rekeyed ig) (f (s_att s)) caddr in
       do avail <- ret_opt KeyError (dget (f (s_att s)) (rename_avail fd));
       (if qltb 0 (qsum cmu)
        then bfit fuel cfg' psort (map f cats) (rename_degrees f g XM) y h2 (BTree true [] None (-1) (Some (a, idx)) (Some (rename_var f g v)) cmu cign)
               (dset (f (s_att s)) (filter (fun x => memb x (map (g (s_att s)) names)) avail) (rename_avail fd)) (depth + 1)
        else do cv0 <- get_class_value mu y; Ok (h2, BTree true [] (Some cv0) (-1) (Some (a, idx)) (Some (rename_var f g v)) cmu cign))) =
      rmap pair_rename
      (do idx <- mapM (fun n => ret_opt KeyError (dget n (dict_of (map (fun js : nat * fset => (fs_name (snd js), fst js)) (enumerate (fv_sets v)))))) names;
       let '(h2, cign) := update_ignored h ig (s_att s) caddr in
       do avail <- ret_opt KeyError (dget (s_att s) fd);
       (if qltb 0 (qsum cmu)
        then bfit fuel cfg psort cats XM y h2 (BTree true [] None (-1) (Some (a, idx)) (Some v) cmu cign) (dset (s_att s) (filter (fun x => memb x names) avail) fd) (depth + 1)
        else do cv0 <- get_class_value mu y; Ok (h2, BTree true [] (Some cv0) (-1) (Some (a, idx)) (Some v) cmu cign)))).
    { intros h0 names cmu caddr.
      match goal with |- bind ?p _ = rmap _ (bind ?q _) => assert (Q : p = q) end.
      { cbn [rename_var fv_sets]. rewrite NV, set_dict_rename. generalize (dict_of (map (fun js : nat * fset => (fs_name (snd js), fst js)) (enumerate (fv_sets v)))) as sd. intro sd. clear IH.
        induction names as [|n names IH]; [reflexivity|]. cbn [map mapM]. rewrite IH.
        replace (dget (g (s_att s) n) (map (fun sj : string * nat => (g (s_att s) (fst sj), snd sj)) sd)) with (dget n sd); [reflexivity|].
        symmetry. etransitivity; [exact (@dget_rekey _ _ (g (s_att s)) (@Hg (s_att s)) (fun _ a => a) n sd)|]. destruct (dget n sd); reflexivity. }
      rewrite Q. match goal with |- bind ?p _ = _ => destruct p as [idx|] end; cbn [bind rmap]; [|reflexivity]. rewrite update_rename. destruct (update_ignored h0 ig (s_att s) caddr) as [h2 cign]. cbn [fst snd].
      rewrite avail_get. destruct (dget (s_att s) fd) as [avail|]; cbn [option_map ret_opt bind rmap]; [|reflexivity]. rewrite filter_rename, avail_set. destruct (qltb 0 (qsum cmu)).
      - rewrite <- IH. reflexivity.
      - destruct (get_class_value mu y); reflexivity. }
    rewrite G. match goal with |- bind (rmap _ ?m) _ = rmap _ (bind ?m _) => destruct m as [[hl tl]|] end; cbn [rmap bind]; [|reflexivity]. unfold pair_rename at 1. cbn [fst snd]. rewrite G.
    match goal with |- bind (rmap _ ?m) _ = rmap _ (bind ?m _) => destruct m as [[hr tr]|] end; cbn [rmap bind]; [|reflexivity]. unfold pair_rename. cbn [fst snd brename]. rewrite map_app. reflexivity.
  Qed.
  Lemma brename_fit root X y : bt_fit cfg' psort (brename f g root) X y = rmap pair_rename (bt_fit cfg psort root X y).
  Proof.
    unfold bt_fit. assert (FV : f_vars cfg' = map (rename_var f g) (f_vars cfg)) by reflexivity. rewrite FV, cats_rename. destruct (categorical_features (f_vars cfg)) as [cats|]; cbn [bind rmap]; [|reflexivity]. destruct (_ || _); [reflexivity|].
    rewrite (@dataset_rename f g HD). destruct (dataset_membership X (f_vars cfg)) as [XM|]; cbn [bind rmap]; [|reflexivity]. rewrite initial_rename.
    assert (F : fuel_for (rename_avail (initial_sets (f_vars cfg))) = fuel_for (initial_sets (f_vars cfg))).
    { unfold fuel_for, rename_avail. rewrite map_map. cbn [snd]. do 2 f_equal. apply map_ext. intros [n l]. cbn [fst snd]. apply map_length. }
    rewrite F. rewrite <- brename_bfit. destruct root. reflexivity.
  Qed.
End Names.

(** ** predictions and rules *)
Lemma brename_predict f g tn X : forall t mu, partial_bpredict tn X mu (brename f g t) = partial_bpredict tn X mu t.
Proof.
  induction t as [l cs cv lv va vr m ig IH] using btree_ind'. intro mu. cbn [brename partial_bpredict].
  match goal with |- bind ?a _ = bind ?b _ => assert (E : a = b) end.
  { destruct va as [[a idx]|]; [|reflexivity]. destruct vr as [v|]; cbn [option_map ret_opt bind]; [|reflexivity]. cbn [rename_var fv_sets].
    match goal with |- bind ?p _ = bind ?q _ => assert (Q : p = q) end; [|rewrite Q; reflexivity].
    apply mapM_ext. intros i _. rewrite nth_error_map. destruct (nth_error (fv_sets v) i) as [s|]; cbn [option_map ret_opt bind]; [|reflexivity].
    destruct (column X a) as [col|]; cbn [bind]; [|reflexivity]. apply membership_col_rename. }
  rewrite E. match goal with |- bind ?a _ = _ => destruct a as [nm|] end; cbn [bind]; [|reflexivity]. destruct l; [reflexivity|]. destruct cs as [|c cs]; [reflexivity|].
  assert (M : mapM (partial_bpredict tn X nm) (map (brename f g) (c :: cs)) = mapM (partial_bpredict tn X nm) (c :: cs)).
  { revert IH. generalize (c :: cs) as l0. clear. induction l0 as [|x l0 IH']; intros IH; [reflexivity|]. inversion IH; subst. cbn [map mapM]. rewrite H1. rewrite IH' by assumption. reflexivity. }
  cbn [map] in M. cbn [map]. rewrite M. reflexivity.
Qed.
Notation recond f g := (fun c : string * list string => (f (fst c), map (g (fst c)) (snd c))).
Lemma brename_rules f g th : forall t prefix, get_brules (brename f g t) (map (recond f g) prefix) th = rmap (map (brename_rule f g)) (get_brules t prefix th).
Proof.
  induction t as [l cs cv lv va vr m ig IH] using btree_ind'. intro prefix. cbn [brename get_brules].
  match goal with |- bind ?a _ = rmap _ (bind ?b _) => assert (E : a = rmap (map (recond f g)) b) end.
  { destruct va as [[a idx]|]; [|reflexivity]. destruct vr as [v|]; cbn [option_map ret_opt bind rmap]; [|reflexivity]. cbn [rename_var fv_sets fv_name].
    match goal with |- bind ?p _ = rmap _ (bind ?q _) => assert (Q : p = rmap (map (g (fv_name v))) q) end.
    { rewrite <- (map_id idx) at 1. apply mapM_both. intros i _. rewrite nth_error_map. destruct (nth_error (fv_sets v) i) as [s|]; cbn [option_map ret_opt bind rmap]; [|reflexivity]. rewrite fs_name_rename. reflexivity. }
    rewrite Q. match goal with |- bind (rmap _ ?p) _ = _ => destruct p as [names|] end; cbn [rmap bind]; [|reflexivity]. rewrite map_app. reflexivity. }
  rewrite E. match goal with |- bind (rmap _ ?a) _ = _ => destruct a as [nr|] end; cbn [rmap bind]; [|reflexivity]. destruct l.
  - destruct cv as [d|]; cbn [ret_opt bind rmap]; [|reflexivity]. rewrite map_map. reflexivity.
  - assert (M : mapM (fun c => get_brules c (map (recond f g) nr) th) (map (brename f g) cs) = rmap (map (map (brename_rule f g))) (mapM (fun c => get_brules c nr th) cs)).
    { revert IH. clear. induction cs as [|x l0 IH']; intros IH; [reflexivity|]. inversion IH; subst. cbn [map mapM]. rewrite H1. rewrite IH' by assumption.
      destruct (get_brules x nr th); cbn [bind rmap]; [|reflexivity]. destruct (mapM _ l0); reflexivity. }
    rewrite M. destruct (mapM _ cs); cbn [rmap bind]; [|reflexivity]. rewrite concat_map. reflexivity.
Qed.
