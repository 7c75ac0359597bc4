(** * Proofs: names of variables and sets are only names *)
From Verif Require Import Prelude M_Fuzzy M_Discretize P_Entropy P_Discretize M_Rule M_FDT S_FDT P_FDT P_FDT3 S_Degrees P_Degrees S_Names.
From Coq Require Import Reals Lra.
Local Notation eqb := Prelude.eqb.
Set Implicit Arguments.
Open Scope Qc_scope.

Lemma mapM_both A A' B C (u : A -> res B) (u' : A' -> res C) (k : A -> A') (h : B -> C) l :
  (forall x, In x l -> u' (k x) = rmap h (u x)) -> mapM u' (map k l) = rmap (map h) (mapM u l).
Proof.
  induction l as [|x l IH]; intro H; [reflexivity|]. cbn [map mapM]. rewrite (H x) by (left; reflexivity). rewrite IH by (intros z Hz; apply H; right; assumption).
  destruct (u x); cbn [rmap bind]; [|reflexivity]. destruct (mapM u l); reflexivity.
Qed.
Lemma enumerate_map A B (h : A -> B) l : enumerate (map h l) = map (fun iv => (fst iv, h (snd iv))) (enumerate l).
Proof.
  unfold enumerate. rewrite map_length. generalize (seq 0 (List.length l)) as ks. induction l as [|x l IH]; intros [|k ks]; try reflexivity.
  cbn [map]. change (zip (k :: ks) (h x :: map h l)) with ((k, h x) :: zip ks (map h l)). change (zip (k :: ks) (x :: l)) with ((k, x) :: zip ks l). cbn [map fst snd]. rewrite IH. reflexivity.
Qed.
Section Keys.
  Variable V W : Type.
  Variable f : string -> string.
  Hypothesis Hf : forall a b, f a = f b -> a = b.
  Variable h : string -> V -> W.
  Definition rekey (d : list (string * V)) : list (string * W) := map (fun kv => (f (fst kv), h (fst kv) (snd kv))) d.
  Lemma eqb_f a b : eqb (f a) (f b) = eqb a b.
  Proof.
    destruct (eqb a b) eqn:E; [apply Prelude.eqb_eq in E; subst; apply Prelude.eqb_eq; reflexivity|]. apply Prelude.eqb_neq. apply Prelude.eqb_neq in E. intro Q. apply E, Hf, Q.
  Qed.
  Lemma dget_rekey k d : dget (f k) (rekey d) = option_map (h k) (dget k d).
  Proof.
    induction d as [|[a v] d IH]; [reflexivity|]. cbn [rekey map dget fst snd]. rewrite eqb_f. destruct (eqb k a) eqn:E; [apply Prelude.eqb_eq in E; subst; reflexivity|exact IH].
  Qed.
  Lemma dset_rekey k v d : dset (f k) (h k v) (rekey d) = rekey (dset k v d).
  Proof.
    induction d as [|[a w] d IH]; [reflexivity|]. cbn [rekey map dset fst snd]. rewrite eqb_f. destruct (eqb k a) eqn:E; [apply Prelude.eqb_eq in E; subst; reflexivity|]. unfold rekey in *. rewrite IH. reflexivity.
  Qed.
  Lemma dict_of_rekey l : dict_of (rekey l) = rekey (dict_of l).
  Proof.
    unfold dict_of. change (@nil (string * W)) with (rekey []). generalize (@nil (string * V)) as d.
    induction l as [|[a v] l IH]; intro d; [reflexivity|]. cbn [rekey map fold_left fst snd]. rewrite dset_rekey. apply IH.
  Qed.
  Lemma memb_f a l : memb (f a) (map f l) = memb a l.
  Proof.
    destruct (memb a l) eqn:E.
    - apply (proj1 (@memb_In _ _ a l)) in E. apply (proj2 (@memb_In _ _ (f a) (map f l))). apply in_map. assumption.
    - apply (proj1 (@memb_not_In _ _ a l)) in E. apply (proj2 (@memb_not_In _ _ (f a) (map f l))). intro Q. apply E. apply in_map_iff in Q. destruct Q as [b [Q I]]. apply Hf in Q. subst b. assumption.
  Qed.
  Lemma remove_f a l : remove string_dec (f a) (map f l) = map f (remove string_dec a l).
  Proof.
    induction l as [|b l IH]; [reflexivity|]. cbn [map remove]. destruct (string_dec a b) as [->|N].
    - destruct (string_dec (f b) (f b)); [assumption|congruence].
    - destruct (string_dec (f a) (f b)) as [Q|_]; [apply Hf in Q; congruence|]. cbn [map]. rewrite IH. reflexivity.
  Qed.
  Lemma nodup_f l : nodup string_dec (map f l) = map f (nodup string_dec l).
  Proof.
    induction l as [|b l IH]; [reflexivity|]. cbn [map nodup]. destruct (in_dec string_dec b l) as [I|N], (in_dec string_dec (f b) (map f l)) as [I'|N']; try assumption.
    - exfalso. apply N'. apply in_map. assumption.
    - exfalso. apply N. apply in_map_iff in I'. destruct I' as [c [Q I]]. apply Hf in Q. subst. assumption.
    - cbn [map]. rewrite IH. reflexivity.
  Qed.
End Keys.
Arguments rekey {V W} f h d.

Section Names.
  Variable f : string -> string.
  Variable g : string -> string -> string.
  Hypothesis HD : distinct_names_kept f g.
  Let Hf := proj1 HD.
  Let Hg := proj2 HD.

  (** ** degrees *)
  Lemma membership_rename h s v : membership (rename_set h s) v = membership s v.
  Proof. destruct s as [[n a b c p]|n w]; reflexivity. Qed.
  Lemma membership_col_rename h s col : membership_col (rename_set h s) col = membership_col s col.
  Proof. unfold membership_col. apply mapM_ext. intros v _. apply membership_rename. Qed.
  Lemma fs_name_rename h s : fs_name (rename_set h s) = h (fs_name s).
  Proof. destruct s as [c|n w]; reflexivity. Qed.
  Notation resets n := (fun d : list (string * list Qc) => map (fun sc : string * list Qc => (g n (fst sc), snd sc)) d).
  Lemma var_membership_rename v col : var_membership (rename_var f g v) col = rmap (resets (fv_name v)) (var_membership v col).
  Proof.
    unfold var_membership, rename_var. cbn [fv_sets].
    rewrite (@mapM_both _ _ _ _ (fun s => do m <- membership_col s col; Ok (fs_name s, m)) _ (rename_set (g (fv_name v))) (fun sc => (g (fv_name v) (fst sc), snd sc))).
    - destruct (mapM _ (fv_sets v)) as [l|]; cbn [rmap bind]; [|reflexivity]. apply (f_equal (@Ok _)). exact (@dict_of_rekey (list Qc) (list Qc) (g (fv_name v)) (@Hg (fv_name v)) (fun _ c => c) l).
    - intros s _. rewrite membership_col_rename, fs_name_rename. destruct (membership_col s col); reflexivity.
  Qed.
  Lemma dataset_rename X vars : dataset_membership X (map (rename_var f g) vars) = rmap (rename_degrees f g) (dataset_membership X vars).
  Proof.
    unfold dataset_membership. rewrite enumerate_map.
    rewrite (@mapM_both _ _ _ _ (fun iv : nat * fvar => let '(i, v) := iv in do col <- column X i; do d <- var_membership v col; Ok (fv_name v, d)) _ (fun iv => (fst iv, rename_var f g (snd iv)))
       (fun nd => (f (fst nd), resets (fst nd) (snd nd)))).
    - match goal with |- bind (rmap _ ?m) _ = _ => destruct m as [l|] end; cbn [rmap bind]; [|reflexivity]. apply (f_equal (@Ok _)). exact (@dict_of_rekey _ _ f (@Hf) (fun n d => resets n d) l).
    - intros [i v] _. cbn [fst snd]. destruct (column X i) as [col|]; cbn [bind rmap]; [|reflexivity]. rewrite var_membership_rename. destruct (var_membership v col); reflexivity.
  Qed.
  Lemma positions_rename vars : f_positions (map (rename_var f g) vars) = map (fun na => (f (fst na), snd na)) (f_positions vars).
  Proof.
    unfold f_positions. rewrite enumerate_map, map_map. cbn [fst snd rename_var fv_name].
    etransitivity; [|exact (@dict_of_rekey nat nat f (@Hf) (fun _ n => n) _)]. f_equal. unfold rekey. rewrite map_map. reflexivity.
  Qed.
  Lemma positions_get vars a : dget (f a) (f_positions (map (rename_var f g) vars)) = dget a (f_positions vars).
  Proof. rewrite positions_rename. etransitivity; [exact (@dget_rekey nat nat f (@Hf) (fun _ n => n) a _)|]. destruct (dget a (f_positions vars)); reflexivity. Qed.
  Lemma degrees_get XM n : dget (f n) (rename_degrees f g XM) = option_map (resets n) (dget n XM).
  Proof. exact (@dget_rekey _ _ f (@Hf) (fun n d => resets n d) n XM). Qed.
  Lemma sets_get n s (d : dict string (list Qc)) : dget (g n s) (resets n d) = dget s d.
  Proof. etransitivity; [exact (@dget_rekey _ _ (g n) (@Hg n) (fun _ c => c) s d)|]. destruct (dget s d); reflexivity. Qed.

  (** ** the best feature *)
  Lemma feature_gain_rename tn mu XM y n :
    feature_gain tn mu (rename_degrees f g XM) y (f n) = rmap (fun p => (fst p, resets n (snd p))) (feature_gain tn mu XM y n).
  Proof.
    unfold feature_gain. rewrite degrees_get. destruct (dget n XM) as [d|]; cbn [option_map ret_opt bind rmap]; [|reflexivity]. cbv zeta.
    assert (E : child_mus tn mu (resets n d) = resets n (child_mus tn mu d)) by (unfold child_mus; rewrite !map_map; reflexivity). rewrite E, map_map. cbn [fst snd].
    destruct (qeqb (qsum mu) 0); reflexivity.
  Qed.
  Definition same_best (r r' : res (string * R * dict string (list Qc))) : Prop :=
    match r, r' with
    | Ok (a, x, d), Ok (a', x', d') => x' = x /\ ((0 < x)%R -> a' = f a /\ d' = resets a d)
    | Err e, Err e' => e = e'
    | _, _ => False
    end.
  Lemma max_f_gain_rename tn mu XM y l : same_best (max_f_gain tn mu l XM y) (max_f_gain tn mu (map f l) (rename_degrees f g XM) y).
  Proof.
    unfold max_f_gain.
    assert (G : forall l b b', same_best (Ok b) (Ok b') -> (0 <= snd (fst b))%R -> same_best
      (foldM (fun best feature => do g <- feature_gain tn mu XM y feature; if Rltb (snd (fst best)) (fst g) then Ok (feature, fst g, snd g) else Ok best) b l)
      (foldM (fun best feature => do g0 <- feature_gain tn mu (rename_degrees f g XM) y feature; if Rltb (snd (fst best)) (fst g0) then Ok (feature, fst g0, snd g0) else Ok best) b' (map f l))).
    { clear l. induction l as [|n l IH]; intros b b' B P; [exact B|]. cbn [map foldM]. rewrite feature_gain_rename. destruct (feature_gain tn mu XM y n) as [[x d]|e]; cbn [bind rmap]; [|reflexivity].
      cbn [fst snd]. destruct b as [[a v] c], b' as [[a' v'] c']. cbn [same_best] in B. destruct B as [-> B]. cbn [fst snd] in *.
      destruct (Rltb v x) eqn:E; cbn [bind]; apply IH; cbn [same_best fst snd]; auto. apply Rltb_lt in E. lra. }
    apply G; cbn [same_best fst snd]; [|lra]. split; [reflexivity|]. intro; lra.
  Qed.

  (** ** training *)
  Variable cfg : fdt_cfg.
  Hypothesis Hth : (0 < f_threshold cfg)%R.
  Let cfg' := rename_cfg f g cfg.
  Lemma rename_partial_fit ord ord' XM y : (forall path l, ord' path (map f l) = map f (ord path l)) -> forall fuel node path feats depth,
    partial_fit fuel cfg' ord' (rename_degrees f g XM) y (rename f g node) path (map f feats) depth = rmap (rename f g) (partial_fit fuel cfg ord XM y node path feats depth).
  Proof.
    intro Ho. induction fuel as [|fuel IH]; intros node path feats depth; [reflexivity|]. cbn [partial_fit].
    destruct node as [l cs cv lv va vr mu]. cbn [rename t_mu t_children t_value t_var t_class].
    rewrite Ho. assert (B := max_f_gain_rename qmin mu XM y (ord path feats)). unfold same_best in B.
    destruct (max_f_gain qmin mu (ord path feats) XM y) as [[[att x] cm]|], (max_f_gain qmin mu (map f (ord path feats)) (rename_degrees f g XM) y) as [[[att' x'] cm']|]; try contradiction; cbn [bind rmap]; [|congruence].
    destruct B as [-> B].
    change (stop_met cfg' x (masked mu y) depth) with (stop_met cfg x (masked mu y) depth).
    destruct (stop_met cfg x (masked mu y) depth) eqn:ST.
    { destruct (get_class_value mu y); cbn [bind rmap rename]; reflexivity. }
    destruct B as [-> ->].
    { unfold stop_met in ST. apply orb_false_iff in ST. destruct ST as [_ ST]. apply Rltb_ge in ST. lra. }
    rewrite degrees_get. destruct (dget att XM) as [sets|]; cbn [option_map ret_opt bind rmap]; [|reflexivity].
    assert (K : dkeys (resets att sets) = map (g att) (dkeys sets)) by (unfold dkeys; rewrite !map_map; reflexivity). rewrite K, enumerate_map.
    match goal with |- bind (mapM ?u' (map ?k ?l)) _ = rmap _ (bind (mapM ?u ?l) _) => rewrite (@mapM_both _ _ _ _ u u' k (rename f g) l) end.
    - match goal with |- bind (rmap _ ?m) _ = _ => destruct m as [ts|] end; cbn [rmap bind rename]; [|reflexivity]. rewrite map_app. reflexivity.
    - intros [i value] _. cbn [fst snd]. rewrite (@memb_f f (@Hf)). destruct (negb (memb att feats)); [reflexivity|]. unfold cfg' at 1, rename_cfg. cbn [f_vars]. rewrite positions_get.
      destruct (dget att (f_positions (f_vars cfg))) as [a|]; cbn [ret_opt bind rmap]; [|reflexivity]. unfold cfg', rename_cfg. cbn [f_vars]. rewrite nth_error_map.
      destruct (nth_error (f_vars cfg) a) as [v|]; cbn [option_map ret_opt bind rmap]; [|reflexivity].
      rewrite sets_get. destruct (dget value cm) as [m|]; cbn [ret_opt bind rmap]; [|reflexivity]. cbv zeta. destruct (qltb 0 (qsum m)).
      + rewrite (@remove_f f (@Hf)). fold (rename_cfg f g cfg). fold cfg'. rewrite <- IH. reflexivity.
      + destruct (get_class_value mu y); reflexivity.
  Qed.
  Lemma rename_fit ord ord' root X y : (forall path l, ord' path (map f l) = map f (ord path l)) ->
    fit cfg' ord' (rename f g root) X y = rmap (rename f g) (fit cfg ord root X y).
  Proof.
    intro Ho. unfold fit. destruct (_ || _); [reflexivity|]. unfold cfg' at 1, rename_cfg. cbn [f_vars]. rewrite dataset_rename.
    destruct (dataset_membership X (f_vars cfg)) as [XM|]; cbn [bind rmap]; [|reflexivity].
    assert (F : f_features cfg' = map f (f_features cfg)).
    { unfold f_features, cfg', rename_cfg. cbn [f_vars]. rewrite map_map. cbn [rename_var fv_name]. rewrite <- (@nodup_f f (@Hf)), map_map. reflexivity. }
    rewrite F, map_length. rewrite <- (rename_partial_fit _ _ _ _ Ho). destruct root. reflexivity.
  Qed.
End Names.

(** ** predictions and rules *)
Lemma rename_predict f g tn X : forall t mu, partial_predict tn X mu (rename f g t) = partial_predict tn X mu t.
Proof.
  induction t as [l cs cv lv va vr m IH] using tree_ind'. intro mu. cbn [rename partial_predict].
  match goal with |- bind ?a _ = bind ?b _ => assert (E : a = b) end.
  { destruct va as [[a i]|]; [|reflexivity]. destruct vr as [v|]; cbn [option_map ret_opt bind]; [|reflexivity]. cbn [rename_var fv_sets]. rewrite nth_error_map. destruct (nth_error (fv_sets v) i) as [s|]; cbn [option_map ret_opt bind]; [|reflexivity].
    destruct (column X a) as [col|]; cbn [bind]; [|reflexivity]. rewrite membership_col_rename. reflexivity. }
  rewrite E. match goal with |- bind ?a _ = _ => destruct a as [nm|] end; cbn [bind]; [|reflexivity]. destruct l; [reflexivity|]. destruct cs as [|c cs]; [reflexivity|].
  assert (M : mapM (partial_predict tn X nm) (map (rename f g) (c :: cs)) = mapM (partial_predict tn X nm) (c :: cs)).
  { revert IH. generalize (c :: cs) as l0. clear. induction l0 as [|x l0 IH']; intros IH; [reflexivity|]. inversion IH; subst. cbn [map mapM]. rewrite H1. rewrite IH' by assumption. reflexivity. }
  cbn [map] in M. cbn [map]. rewrite M. reflexivity.
Qed.
Notation recond f g := (fun c : string * string => (f (fst c), g (fst c) (snd c))).
Lemma rename_rules f g th : forall t prefix, get_rules (rename f g t) (map (recond f g) prefix) th = rmap (map (rename_rule f g)) (get_rules t prefix th).
Proof.
  induction t as [l cs cv lv va vr m IH] using tree_ind'. intro prefix. cbn [rename get_rules].
  match goal with |- bind ?a _ = rmap _ (bind ?b _) => assert (E : a = rmap (map (recond f g)) b) end.
  { destruct va as [[a i]|]; [|reflexivity]. destruct vr as [v|]; cbn [option_map ret_opt bind rmap]; [|reflexivity]. cbn [rename_var fv_sets fv_name]. rewrite nth_error_map.
    destruct (nth_error (fv_sets v) i) as [s|]; cbn [option_map ret_opt bind rmap]; [|reflexivity]. rewrite fs_name_rename, map_app. reflexivity. }
  rewrite E. match goal with |- bind (rmap _ ?a) _ = _ => destruct a as [nr|] end; cbn [rmap bind]; [|reflexivity]. destruct l.
  - destruct cv as [d|]; cbn [ret_opt bind rmap]; [|reflexivity]. rewrite map_map. reflexivity.
  - assert (M : mapM (fun c => get_rules c (map (recond f g) nr) th) (map (rename f g) cs) = rmap (map (map (rename_rule f g))) (mapM (fun c => get_rules c nr th) cs)).
    { revert IH. clear. induction cs as [|x l0 IH']; intros IH; [reflexivity|]. inversion IH; subst. cbn [map mapM]. rewrite H1. rewrite IH' by assumption.
      destruct (get_rules x nr th); cbn [bind rmap]; [|reflexivity]. destruct (mapM _ l0); reflexivity. }
    rewrite M. destruct (mapM _ cs); cbn [rmap bind]; [|reflexivity]. rewrite concat_map. reflexivity.
Qed.
