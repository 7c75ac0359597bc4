(** * Proofs for C141 *)
From Verif Require Import Prelude M_Fuzzy M_Rule M_FDT M_FBDT M_ID3 S_FDT S_FBDT S_FBDTPrivate P_FDT P_FBDT4 P_FBDT5 S_Depth.
From Coq Require Import Reals.
Set Implicit Arguments.
Open Scope string_scope.
Open Scope list_scope.
Open Scope Qc_scope.

Lemma mapM_related A B (R : B -> B -> Prop) (f f' : A -> res B) l : (forall x z, In x l -> f' x = Ok z -> exists u, f x = Ok u /\ R u z) ->
  forall zs, mapM f' l = Ok zs -> exists us, mapM f l = Ok us /\ Forall2 R us zs.
Proof.
  induction l as [|x l IH]; intros H zs; cbn [mapM]; [intro E; injection E as <-; exists []; auto|].
  destruct (f' x) as [z|] eqn:E; cbn [bind]; [|discriminate]. destruct (mapM f' l) as [zs'|] eqn:EM; cbn [bind]; [|discriminate]. intro Q. injection Q as <-.
  destruct (H x z (or_introl eq_refl) E) as (u & -> & Ru). destruct (IH (fun a b Ha => H a b (or_intror Ha)) _ eq_refl) as (us & -> & F). cbn [bind]. exists (u :: us). auto.
Qed.
Lemma class_value_ok mu y : 0 < qsum mu -> exists cv, get_class_value mu y = Ok cv.
Proof.
  intro H. unfold get_class_value. destruct (qeqb (qsum mu) 0) eqn:E; [|eexists; reflexivity]. exfalso. apply qeqb_eq in E. rewrite E in H. discriminate H.
Qed.
Lemma stop_depth cfg d d' g l depth : (depth < d)%Z -> (d <= d')%Z -> stop_met (with_depth cfg d) g l depth = stop_met (with_depth cfg d') g l depth.
Proof.
  intros H1 H2. unfold stop_met, with_depth. cbn [f_min_examples f_max_depth f_threshold].
  destruct (Z.leb_spec d depth); [lia|]. destruct (Z.leb_spec d' depth); [lia|]. reflexivity.
Qed.
Lemma stop_end cfg d g l depth : (d <= depth)%Z -> stop_met (with_depth cfg d) g l depth = true.
Proof. intro H. unfold stop_met, with_depth. cbn [f_min_examples f_max_depth f_threshold]. destruct (Z.leb_spec d depth); [|lia]. rewrite !orb_true_r. reflexivity. Qed.

Lemma partial_fit_level fuel cfg ord XM y node path fs depth t : partial_fit fuel cfg ord XM y node path fs depth = Ok t ->
  t_level t = depth /\ t_value t = t_value node /\ t_var t = t_var node /\ t_mu t = t_mu node /\
  (t_leaf t = true -> t_children t = t_children node /\ forall cv, get_class_value (t_mu node) y = Ok cv -> t_class t = Some cv).
Proof.
  destruct fuel as [|fuel]; [discriminate|]. cbn [partial_fit]. intro H.
  match type of H with bind ?r _ = _ => destruct r as [[[att g] cm]|] eqn:E; [|discriminate] end. cbn [bind] in H.
  destruct (stop_met _ _ _ _).
  - match type of H with bind ?r _ = _ => destruct r eqn:G; [|discriminate] end. injection H as <-. repeat split. intros cv Q. try rewrite G in Q. injection Q as <-. reflexivity.
  - match type of H with bind ?r _ = _ => destruct r; [|discriminate] end. cbn [bind] in H. match type of H with bind ?r _ = _ => destruct r; [|discriminate] end. injection H as <-. cbn. repeat split; discriminate.
Qed.

Lemma partial_fit_cut cfg d d' ord XM y : (d <= d')%Z -> forall fuel node path fs depth t',
  t_children node = [] -> 0 < qsum (t_mu node) ->
  partial_fit fuel (with_depth cfg d') ord XM y node path fs depth = Ok t' ->
  exists t, partial_fit fuel (with_depth cfg d) ord XM y node path fs depth = Ok t /\ fdt_cut (Z.to_nat (d - depth)) t t'.
Proof.
  intro LD. induction fuel as [|fuel IH]; [discriminate|]. intros node path fs depth t' HC HM H.
  destruct (@class_value_ok (t_mu node) y HM) as [cv0 CV0].
  destruct (Z_le_gt_dec d depth) as [Le|Gt].
  - assert (HL := @partial_fit_level _ _ _ _ _ _ _ _ _ _ H). cbn [partial_fit] in *.
    match type of H with bind ?r _ = _ => destruct r as [[[att g] cm]|] eqn:E; [|discriminate] end. cbn [bind] in *.
    rewrite (stop_end cfg) by assumption. rewrite CV0. cbn [bind]. eexists. split; [reflexivity|]. rewrite HC.
    replace (Z.to_nat (d - depth)) with 0%nat by lia. destruct t' as [lf ch c lev v w mu]. cbn in HL. destruct HL as (-> & -> & -> & -> & HL). constructor. intro Q. destruct (HL Q) as [Q1 Q2]. rewrite Q1, HC. split; [reflexivity|apply Q2; assumption].
  - cbn [partial_fit] in *. match type of H with bind ?r _ = _ => destruct r as [[[att g] cm]|] eqn:E; [|discriminate] end. cbn [bind] in *.
    rewrite (@stop_depth cfg d d') by lia. destruct (stop_met _ _ _ _).
    + rewrite CV0 in *. cbn [bind] in *. injection H as <-. eexists. split; [reflexivity|]. rewrite HC. constructor.
    + cbn [f_vars with_depth] in *.
      destruct (dget att XM) as [sets|]; cbn [ret_opt bind] in *; [|discriminate].
      match type of H with bind (mapM ?f' ?l) _ = _ => destruct (mapM f' l) as [ch'|] eqn:EM; [|discriminate] end. cbn [bind] in H. injection H as <-.
      replace (Z.to_nat (d - depth)) with (S (Z.to_nat (d - (depth + 1)))) by lia.
      apply (@mapM_related _ _ (fdt_cut (Z.to_nat (d - (depth + 1)))) (fun iv : nat * string => let '(i, value) := iv in
          if negb (memb att fs) then Err KeyError else
          do a <- ret_opt KeyError (dget att (f_positions (f_vars cfg)));
          do v <- ret_opt IndexError (nth_error (f_vars cfg) a);
          do m <- ret_opt KeyError (dget value cm);
          let child := new_tree (Some (a, i)) (Some v) m in
          if qltb 0 (qsum m) then partial_fit fuel (with_depth cfg d) ord XM y child (path ++ [(a, i)]) (remove string_dec att fs) (depth + 1)
          else do cv <- get_class_value (t_mu node) y; Ok (Tree true [] (Some cv) (-1) (Some (a, i)) (Some v) m))) in EM.
      * destruct EM as (ch & EM & F). match goal with |- context [mapM ?g ?l] => replace (mapM g l) with (Ok (A:=list tree) ch) by (symmetry; exact EM) end. cbn [bind]. eexists. split; [reflexivity|]. rewrite HC. constructor. exact F.
      * intros [i value] z _ Hz. destruct (memb att fs); cbn [negb] in *; [|discriminate].
        destruct (dget att _) as [a|]; cbn [ret_opt bind] in *; [|discriminate]. destruct (nth_error _ a) as [v|]; cbn [ret_opt bind] in *; [|discriminate].
        destruct (dget value cm) as [m|]; cbn [ret_opt bind] in *; [|discriminate]. destruct (qltb 0 (qsum m)) eqn:P.
        -- apply IH; [reflexivity|apply qltb_lt; exact P|exact Hz].
        -- rewrite CV0 in *. cbn [bind] in *. injection Hz as <-. eexists. split; [reflexivity|constructor].
Qed.
(** the binary tree, with private copies *)
Lemma vfit_level fuel cfg psort cats XM y node ign fd depth t : vfit fuel cfg psort cats XM y node ign fd depth = Ok t ->
  b_level t = depth /\ b_value t = b_value node /\ b_var t = b_var node /\ b_mu t = b_mu node /\
  (b_leaf t = true -> b_children t = b_children node /\ forall cv, get_class_value (b_mu node) y = Ok cv -> b_class t = Some cv).
Proof.
  destruct fuel as [|fuel]; [discriminate|]. cbn [vfit]. intro H.
  match type of H with bind ?r _ = _ => destruct r as [[ign1 best]|] eqn:E; [|discriminate] end. cbn [bind] in H.
  destruct (stop_met _ _ _ _).
  - match type of H with bind ?r _ = _ => destruct r eqn:G; [|discriminate] end. injection H as <-. repeat split. intros cv Q. try rewrite G in Q. injection Q as <-. reflexivity.
  - destruct best as [s|]; [|destruct (dget _ _); discriminate].
    do 4 (match type of H with bind ?r _ = _ => destruct r; [|discriminate] end; cbn [bind] in H). injection H as <-. cbn. repeat split; discriminate.
Qed.
Lemma vfit_cut cfg d d' psort cats XM y : (d <= d')%Z -> forall fuel node ign fd depth t',
  b_children node = [] -> 0 < qsum (b_mu node) ->
  vfit fuel (with_depth cfg d') psort cats XM y node ign fd depth = Ok t' ->
  exists t, vfit fuel (with_depth cfg d) psort cats XM y node ign fd depth = Ok t /\ fbdt_cut (Z.to_nat (d - depth)) t t'.
Proof.
  intro LD. induction fuel as [|fuel IH]; [discriminate|]. intros node ign fd depth t' HC HM H.
  destruct (@class_value_ok (b_mu node) y HM) as [cv0 CV0].
  destruct (Z_le_gt_dec d depth) as [Le|Gt].
  - assert (HL := @vfit_level _ _ _ _ _ _ _ _ _ _ _ H). cbn [vfit] in *.
    match type of H with bind ?r _ = _ => destruct r as [[ign1 best]|] eqn:E; [|discriminate] end. cbn [bind] in *.
    rewrite (stop_end cfg) by assumption. rewrite CV0. cbn [bind]. eexists. split; [reflexivity|]. rewrite HC.
    replace (Z.to_nat (d - depth)) with 0%nat by lia. destruct t' as [lf ch c lev v w mu ig]. cbn in HL. destruct HL as (-> & -> & -> & -> & HL). constructor. intro Q. destruct (HL Q) as [Q1 Q2]. rewrite Q1, HC. split; [reflexivity|apply Q2; assumption].
  - cbn [vfit] in *. match type of H with bind ?r _ = _ => destruct r as [[ign1 best]|] eqn:E; [|discriminate] end. cbn [bind] in *.
    rewrite (@stop_depth cfg d d') by lia. destruct (stop_met _ _ _ _).
    + rewrite CV0 in *. cbn [bind] in *. injection H as <-. eexists. split; [reflexivity|]. rewrite HC. constructor.
    + cbn [f_vars with_depth] in *. destruct best as [s|]; [|destruct (dget _ _); discriminate].
      destruct (dget (v_att s) (f_positions (f_vars cfg))) as [a|]; cbn [ret_opt bind] in *; [|discriminate]. destruct (nth_error (f_vars cfg) a) as [v|]; cbn [ret_opt bind] in *; [|discriminate].
      replace (Z.to_nat (d - depth)) with (S (Z.to_nat (d - (depth + 1)))) by lia.
      match type of H with bind ?r _ = _ => destruct r as [l'|] eqn:EL; [|discriminate] end. cbn [bind] in H.
      match type of H with bind ?r _ = _ => destruct r as [r'|] eqn:ER; [|discriminate] end. cbn [bind] in H. injection H as <-.
      assert (G : forall names cmu m z,
        (do idx <- mapM (fun n => ret_opt KeyError (dget n (dict_of (map (fun js => (fs_name (snd js), fst js)) (enumerate (fv_sets v)))))) names;
         do avail <- ret_opt KeyError (dget (v_att s) fd);
         if qltb 0 (qsum cmu) then vfit fuel (with_depth cfg d') psort cats XM y (BTree true [] None (-1) (Some (a, idx)) (Some v) cmu []) (inherit ign1 (v_att s) m) (dset (v_att s) (filter (fun x => memb x names) avail) fd) (depth + 1)
         else do cv <- get_class_value (b_mu node) y; Ok (BTree true [] (Some cv) (-1) (Some (a, idx)) (Some v) cmu [])) = Ok z ->
        exists u, (do idx <- mapM (fun n => ret_opt KeyError (dget n (dict_of (map (fun js => (fs_name (snd js), fst js)) (enumerate (fv_sets v)))))) names;
         do avail <- ret_opt KeyError (dget (v_att s) fd);
         if qltb 0 (qsum cmu) then vfit fuel (with_depth cfg d) psort cats XM y (BTree true [] None (-1) (Some (a, idx)) (Some v) cmu []) (inherit ign1 (v_att s) m) (dset (v_att s) (filter (fun x => memb x names) avail) fd) (depth + 1)
         else do cv <- get_class_value (b_mu node) y; Ok (BTree true [] (Some cv) (-1) (Some (a, idx)) (Some v) cmu [])) = Ok u /\ fbdt_cut (Z.to_nat (d - (depth + 1))) u z).
      { intros names cmu m z Hz. destruct (mapM _ names) as [idx|]; cbn [bind] in *; [|discriminate]. destruct (dget (v_att s) fd) as [avail|]; cbn [ret_opt bind] in *; [|discriminate].
        destruct (qltb 0 (qsum cmu)) eqn:P; [apply IH; [reflexivity|apply qltb_lt; exact P|exact Hz]|].
        rewrite CV0 in *. cbn [bind] in *. injection Hz as <-. eexists. split; [reflexivity|constructor]. }
      destruct (G _ _ _ _ EL) as (u1 & U1 & C1). destruct (G _ _ _ _ ER) as (u2 & U2 & C2). cbv zeta in U1, U2 |- *. rewrite U1. cbn [bind]. rewrite U2. cbn [bind].
      eexists. split; [reflexivity|]. rewrite HC. constructor. repeat constructor; assumption.
Qed.
Lemma erase_cut n : forall t t', fbdt_cut n (erase t) (erase t') -> fbdt_cut n t t'.
Proof.
  assert (G0 : forall A B (f : A -> B) l, map f l = [] -> l = []) by (intros A B f [|a l] Q; [reflexivity|discriminate]).
  induction n as [|n IH]; intros [lf ch c lev v w mu ig] [lf' ch' c' lev' v' w' mu' ig'] H; cbn [erase] in H; inversion H; subst;
    repeat match goal with Q : map erase _ = [] |- _ => apply G0 in Q; subst | Q : [] = map erase _ |- _ => symmetry in Q; apply G0 in Q; subst end; try constructor;
    try (intro Q; match goal with W : ?a = true -> _ |- _ => destruct (W Q) as [Q1 Q2] end; apply G0 in Q1; auto).
  assert (F : Forall2 (fbdt_cut n) (map erase ch) (map erase ch')) by assumption. clear - F IH.
  revert ch' F. induction ch as [|x ch IHc]; intros [|z ch'] F; inversion F; subst; constructor; auto.
Qed.
(** ID3 without pruning *)
Lemma id3_fit_level fuel cfg cls fts SP yc X y node depth er t : id3_partial_fit fuel cfg cls fts SP yc X y node depth er = Ok t -> i_prunning cfg = false ->
  forall p, max_by (fun a b : Z * nat => Nat.ltb (snd a) (snd b)) (map (fun c => (c, count_class c y)) (cls y)) = Some p ->
  exists w lf ch sp e nl, t = ITree w lf ch sp (fst p) (Some (List.length X, snd p)) depth e nl /\
    (lf = true -> t = ileaf node (fst p) (List.length X, snd p) depth (1 - qn (snd p) / qn (List.length X))).
Proof.
  destruct fuel as [|fuel]; [discriminate|]. cbn [id3_partial_fit]. intros H PR [c k] EM. rewrite EM in H. cbn [fst snd].
  destruct (Nat.eqb _ _); [discriminate|]. destruct (Z.leb _ _); [injection H as <-; unfold ileaf; do 6 eexists; split; reflexivity|]. destruct (Z.ltb _ _); [injection H as <-; unfold ileaf; do 6 eexists; split; reflexivity|].
  do 3 (match type of H with bind ?r _ = _ => destruct r; [|discriminate] end; cbn [bind] in H). rewrite PR in H. injection H as <-. do 6 eexists. split; [reflexivity|discriminate].
Qed.
Lemma id3_fit_cut cfg d d' cls fts SP yc : (d <= d')%Z -> i_prunning cfg = false -> forall fuel X y depth er t',
  id3_partial_fit fuel (id3_with_depth cfg d') cls fts SP yc X y new_itree depth er = Ok t' ->
  exists t, id3_partial_fit fuel (id3_with_depth cfg d) cls fts SP yc X y new_itree depth er = Ok t /\ id3_cut (Z.to_nat (d - depth)) t t'.
Proof.
  intros LD PR. induction fuel as [|fuel IH]; [discriminate|]. intros X y depth er t' H.
  assert (HL := fun p => @id3_fit_level _ _ _ _ _ _ _ _ _ _ _ _ H PR p). cbn [id3_partial_fit] in *.
  destruct (max_by _ _) as [[c k]|] eqn:EM.
  2:{ destruct (nth_error yc 0) as [c|]; cbn [ret_opt bind] in *; [|discriminate]. injection H as <-. eexists. split; [reflexivity|]. apply ic_leaf. }
  destruct (HL _ eq_refl) as (w0 & lf0 & ch0 & sp0 & e0 & nl0 & ET & EL). cbn [fst snd] in ET, EL.
  destruct (Nat.eqb _ _); [discriminate|]. cbn [i_max_depth i_min_examples i_features i_prunning i_th id3_with_depth] in *.
  destruct (Z.leb_spec d depth) as [Le|Gt].
  - eexists. split; [reflexivity|]. replace (Z.to_nat (d - depth)) with 0%nat by lia. rewrite ET in EL |- *. constructor. intro Q. specialize (EL Q). unfold ileaf in EL. cbn in EL. injection EL as -> -> -> -> -> ->. auto.
  - destruct (Z.leb_spec d' depth) as [?|_]; [lia|]. destruct (Z.ltb _ _); [injection H as <-; eexists; split; [reflexivity|]; apply ic_leaf|].
    match type of H with bind ?r _ = _ => destruct r as [best|]; [|discriminate] end. cbn [bind] in *.
    match type of H with bind ?r _ = _ => destruct r as [name|]; [|discriminate] end. cbn [bind] in *.
    match type of H with bind (mapM ?f' ?l) _ = _ => destruct (mapM f' l) as [ch'|] eqn:EC; [|discriminate] end. cbn [bind] in H. rewrite PR in *. injection H as <-.
    replace (Z.to_nat (d - depth)) with (S (Z.to_nat (d - (depth + 1)))) by lia.
    apply (@mapM_related _ _ (fun u z => id3_cut (Z.to_nat (d - (depth + 1))) (fst u) (fst z)) (fun s =>
            do col <- match option_map fst (fst best) with Some i => column X i | None => Ok [] end;
            let rows := map snd (filter (fun p => Prelude.eqb (fst p) s) (zip col (zip X y))) in
            match rows with
            | [] => Ok (empty_child c (depth + 1), 0%nat)
            | _ =>
              do child <- id3_partial_fit fuel (id3_with_depth cfg d) cls fts SP yc (map fst rows) (map snd rows) new_itree (depth + 1) (er ++ [name]);
              Ok (child, List.length rows)
            end)) in EC.
    + destruct EC as (ch & EC & F). match goal with |- context [mapM ?g ?l] => replace (mapM g l) with (Ok (A:=list (itree * nat)) ch) by (symmetry; exact EC) end. cbn [bind]. eexists. split; [reflexivity|]. constructor. clear - F. induction F; cbn [map]; constructor; auto.
    + intros s z _ Hz. match type of Hz with bind ?r _ = _ => destruct r as [col|]; [|discriminate] end. cbn [bind] in *. cbv zeta in *.
      destruct (map snd (filter _ _)) as [|r0 rows]; [injection Hz as <-; eexists; split; [reflexivity|apply ic_leaf]|].
      match type of Hz with bind ?r _ = _ => destruct r as [child|] eqn:EX; [|discriminate] end. cbn [bind] in Hz. injection Hz as <-.
      destruct (IH _ _ _ _ _ EX) as (u & EU & CU). rewrite EU. cbn [bind]. eexists. split; [reflexivity|exact CU].
Qed.
