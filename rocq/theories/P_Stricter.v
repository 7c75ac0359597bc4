(** * Proofs for C142 *)
From Verif Require Import Prelude M_Fuzzy M_Rule M_FDT M_FBDT M_ID3 S_FDT S_FBDT S_FBDTPrivate M_Discretize P_Entropy P_FDT P_FBDT2 P_FBDT4 P_FBDT5 S_Depth P_Depth S_Stricter.
From Coq Require Import Reals Lra.
Set Implicit Arguments.
Open Scope string_scope.
Open Scope list_scope.
Open Scope Qc_scope.

Lemma stop_mono cfg cfg' g l d : stricter cfg cfg' -> stop_met cfg' g l d = true -> stop_met cfg g l d = true.
Proof.
  intros (_ & D & M & T) H. unfold stop_met in *. rewrite !orb_true_iff in *. destruct H as [[[H|H]|H]|H].
  - auto.
  - left. left. right. apply Z.ltb_lt in H. apply Z.ltb_lt. lia.
  - left. right. apply Z.leb_le in H. apply Z.leb_le. lia.
  - right. apply Rltb_lt in H. apply Rltb_lt. lra.
Qed.

Lemma partial_fit_pruned cfg cfg' ord XM y : stricter cfg cfg' -> forall fuel node path fs depth t',
  t_children node = [] -> 0 < qsum (t_mu node) ->
  partial_fit fuel cfg' ord XM y node path fs depth = Ok t' ->
  exists t, partial_fit fuel cfg ord XM y node path fs depth = Ok t /\ fdt_pruned t t'.
Proof.
  intro LD. induction fuel as [|fuel IH]; [discriminate|]. intros node path fs depth t' HC HM H.
  destruct (@class_value_ok (t_mu node) y HM) as [cv0 CV0].
  assert (HL := @partial_fit_level _ _ _ _ _ _ _ _ _ _ H).
  cbn [partial_fit] in *. match type of H with bind ?r _ = _ => destruct r as [[[att g] cm]|] eqn:E; [|discriminate] end. cbn [bind] in *.
  assert (SM := @stop_mono cfg cfg' g (masked (t_mu node) y) depth LD). assert (EV : f_vars cfg = f_vars cfg') by apply LD.
  destruct (stop_met cfg g _ depth) eqn:S1.
  - rewrite CV0. cbn [bind]. eexists. split; [reflexivity|]. rewrite HC. destruct t' as [lf ch c lev v w mu]. cbn in HL. destruct HL as (-> & -> & -> & -> & HL). destruct lf; [|constructor].
    destruct (HL eq_refl) as [Q1 Q2]. rewrite Q1, HC, (Q2 _ CV0). constructor.
  - destruct (stop_met cfg' _ _ _); [discriminate (SM eq_refl)|].
    rewrite <- EV in *.
      destruct (dget att XM) as [sets|]; cbn [ret_opt bind] in *; [|discriminate].
      match type of H with bind (mapM ?f' ?l) _ = _ => destruct (mapM f' l) as [ch'|] eqn:EM; [|discriminate] end. cbn [bind] in H. injection H as <-.
      apply (@mapM_related _ _ fdt_pruned (fun iv : nat * string => let '(i, value) := iv in
          if negb (memb att fs) then Err KeyError else
          do a <- ret_opt KeyError (dget att (f_positions (f_vars cfg)));
          do v <- ret_opt IndexError (nth_error (f_vars cfg) a);
          do m <- ret_opt KeyError (dget value cm);
          let child := new_tree (Some (a, i)) (Some v) m in
          if qltb 0 (qsum m) then partial_fit fuel cfg ord XM y child (path ++ [(a, i)]) (remove string_dec att fs) (depth + 1)
          else do cv <- get_class_value (t_mu node) y; Ok (Tree true [] (Some cv) (-1) (Some (a, i)) (Some v) m))) in EM.
      * destruct EM as (ch & EM & F). match goal with |- context [mapM ?g ?l] => replace (mapM g l) with (Ok (A:=list tree) ch) by (symmetry; exact EM) end. cbn [bind]. eexists. split; [reflexivity|]. rewrite HC. constructor. exact F.
      * intros [i value] z _ Hz. destruct (memb att fs); cbn [negb] in *; [|discriminate].
        destruct (dget att _) as [a|]; cbn [ret_opt bind] in *; [|discriminate]. destruct (nth_error _ a) as [v|]; cbn [ret_opt bind] in *; [|discriminate].
        destruct (dget value cm) as [m|]; cbn [ret_opt bind] in *; [|discriminate]. destruct (qltb 0 (qsum m)) eqn:P.
        -- apply IH; [reflexivity|apply qltb_lt; exact P|exact Hz].
        -- rewrite CV0 in *. cbn [bind] in *. injection Hz as <-. eexists. split; [reflexivity|constructor].
Qed.
Lemma vfit_pruned cfg cfg' psort cats XM y : stricter cfg cfg' -> forall fuel node ign fd depth t',
  b_children node = [] -> 0 < qsum (b_mu node) ->
  vfit fuel cfg' psort cats XM y node ign fd depth = Ok t' ->
  exists t, vfit fuel cfg psort cats XM y node ign fd depth = Ok t /\ fbdt_pruned t t'.
Proof.
  intro LD. induction fuel as [|fuel IH]; [discriminate|]. intros node ign fd depth t' HC HM H.
  destruct (@class_value_ok (b_mu node) y HM) as [cv0 CV0].
  assert (HL := @vfit_level _ _ _ _ _ _ _ _ _ _ _ H).
  cbn [vfit] in *. match type of H with bind ?r _ = _ => destruct r as [[ign1 best]|] eqn:E; [|discriminate] end. cbn [bind] in *.
  assert (SM := @stop_mono cfg cfg' (vbest_gain best) (masked (b_mu node) y) depth LD). assert (EV : f_vars cfg = f_vars cfg') by apply LD.
  destruct (stop_met cfg _ _ depth) eqn:S1.
  - rewrite CV0. cbn [bind]. eexists. split; [reflexivity|]. rewrite HC. destruct t' as [lf ch c lev v w mu ig]. cbn in HL. destruct HL as (-> & -> & -> & -> & HL). destruct lf; [|constructor].
    destruct (HL eq_refl) as [Q1 Q2]. rewrite Q1, HC, (Q2 _ CV0). constructor.
  - destruct (stop_met cfg' _ _ _); [discriminate (SM eq_refl)|]. rewrite <- EV in *. destruct best as [s|]; [|destruct (dget _ _); discriminate].
      destruct (dget (v_att s) (f_positions (f_vars cfg))) as [a|]; cbn [ret_opt bind] in *; [|discriminate]. destruct (nth_error (f_vars cfg) a) as [v|]; cbn [ret_opt bind] in *; [|discriminate].
      match type of H with bind ?r _ = _ => destruct r as [l'|] eqn:EL; [|discriminate] end. cbn [bind] in H.
      match type of H with bind ?r _ = _ => destruct r as [r'|] eqn:ER; [|discriminate] end. cbn [bind] in H. injection H as <-.
      assert (G : forall names cmu m z,
        (do idx <- mapM (fun n => ret_opt KeyError (dget n (dict_of (map (fun js => (fs_name (snd js), fst js)) (enumerate (fv_sets v)))))) names;
         do avail <- ret_opt KeyError (dget (v_att s) fd);
         if qltb 0 (qsum cmu) then vfit fuel cfg' psort cats XM y (BTree true [] None (-1) (Some (a, idx)) (Some v) cmu []) (inherit ign1 (v_att s) m) (dset (v_att s) (filter (fun x => memb x names) avail) fd) (depth + 1)
         else do cv <- get_class_value (b_mu node) y; Ok (BTree true [] (Some cv) (-1) (Some (a, idx)) (Some v) cmu [])) = Ok z ->
        exists u, (do idx <- mapM (fun n => ret_opt KeyError (dget n (dict_of (map (fun js => (fs_name (snd js), fst js)) (enumerate (fv_sets v)))))) names;
         do avail <- ret_opt KeyError (dget (v_att s) fd);
         if qltb 0 (qsum cmu) then vfit fuel cfg psort cats XM y (BTree true [] None (-1) (Some (a, idx)) (Some v) cmu []) (inherit ign1 (v_att s) m) (dset (v_att s) (filter (fun x => memb x names) avail) fd) (depth + 1)
         else do cv <- get_class_value (b_mu node) y; Ok (BTree true [] (Some cv) (-1) (Some (a, idx)) (Some v) cmu [])) = Ok u /\ fbdt_pruned u z).
      { intros names cmu m z Hz. destruct (mapM _ names) as [idx|]; cbn [bind] in *; [|discriminate]. destruct (dget (v_att s) fd) as [avail|]; cbn [ret_opt bind] in *; [|discriminate].
        destruct (qltb 0 (qsum cmu)) eqn:P; [apply IH; [reflexivity|apply qltb_lt; exact P|exact Hz]|].
        rewrite CV0 in *. cbn [bind] in *. injection Hz as <-. eexists. split; [reflexivity|constructor]. }
      destruct (G _ _ _ _ EL) as (u1 & U1 & C1). destruct (G _ _ _ _ ER) as (u2 & U2 & C2). cbv zeta in U1, U2 |- *. rewrite U1. cbn [bind]. rewrite U2. cbn [bind].
      eexists. split; [reflexivity|]. rewrite HC. constructor. repeat constructor; assumption.
Qed.
Lemma erase_pruned : forall t t', fbdt_pruned (erase t) (erase t') -> fbdt_pruned t t'.
Proof.
  assert (G0 : forall A B (f : A -> B) l, map f l = [] -> l = []) by (intros A B f [|a l] Q; [reflexivity|discriminate]).
  intro t. induction t as [lf ch c lev v w mu ig IH] using btree_ind'. intros [lf' ch' c' lev' v' w' mu' ig'] H; cbn [erase] in H; inversion H; subst;
    repeat match goal with Q : map erase _ = [] |- _ => apply G0 in Q; subst | Q : [] = map erase _ |- _ => symmetry in Q; apply G0 in Q; subst end; try constructor.
  assert (F : Forall2 fbdt_pruned (map erase ch) (map erase ch')) by assumption. clear - F IH.
  revert ch' F. induction IH as [|x ch Hx Hch IHc]; intros [|z ch'] F; inversion F; subst; constructor; auto.
Qed.
Lemma id3_fit_pruned cfg cfg' cls fts SP yc : id3_stricter cfg cfg' -> i_prunning cfg = false -> i_prunning cfg' = false -> forall fuel X y depth er t',
  id3_partial_fit fuel cfg' cls fts SP yc X y new_itree depth er = Ok t' ->
  exists t, id3_partial_fit fuel cfg cls fts SP yc X y new_itree depth er = Ok t /\ id3_pruned t t'.
Proof.
  intros LD PR PR'. assert (LD0 := LD). induction fuel as [|fuel IH]; [discriminate|]. intros X y depth er t' H.
  assert (HL := fun p => @id3_fit_level _ _ _ _ _ _ _ _ _ _ _ _ H PR' p). cbn [id3_partial_fit] in *.
  destruct (max_by _ _) as [[c k]|] eqn:EM.
  2:{ destruct (nth_error yc 0) as [c|]; cbn [ret_opt bind] in *; [|discriminate]. injection H as <-. eexists. split; [reflexivity|]. apply ip_leaf. }
  destruct (HL _ eq_refl) as (w0 & lf0 & ch0 & sp0 & e0 & nl0 & ET & EL). cbn [fst snd] in ET, EL.
  destruct (Nat.eqb _ _); [discriminate|]. destruct LD as (EF & LM & LE).
  assert (CUT : id3_pruned (ileaf new_itree c (List.length X, k) depth (1 - qn k / qn (List.length X))) t').
  { rewrite ET in EL |- *. destruct lf0; [rewrite (EL eq_refl); constructor|constructor]. }
  destruct (Z.leb_spec (i_max_depth cfg) depth) as [Le|Gt]; [eexists; split; [reflexivity|exact CUT]|].
  destruct (Z.ltb_spec (Z.of_nat (List.length X)) (i_min_examples cfg)) as [Lt|Ge]; [eexists; split; [reflexivity|exact CUT]|].
  destruct (Z.leb_spec (i_max_depth cfg') depth) as [?|_]; [lia|]. destruct (Z.ltb_spec (Z.of_nat (List.length X)) (i_min_examples cfg')) as [?|_]; [lia|].
  rewrite <- EF in *. clear CUT.
    match type of H with bind ?r _ = _ => destruct r as [best|]; [|discriminate] end. cbn [bind] in *.
    match type of H with bind ?r _ = _ => destruct r as [name|]; [|discriminate] end. cbn [bind] in *.
    match type of H with bind (mapM ?f' ?l) _ = _ => destruct (mapM f' l) as [ch'|] eqn:EC; [|discriminate] end. cbn [bind] in H. rewrite PR' in H. rewrite PR. injection H as <-.
    apply (@mapM_related _ _ (fun u z => id3_pruned (fst u) (fst z)) (fun s =>
            do col <- match option_map fst (fst best) with Some i => column X i | None => Ok [] end;
            let rows := map snd (filter (fun p => Prelude.eqb (fst p) s) (zip col (zip X y))) in
            match rows with
            | [] => Ok (empty_child c (depth + 1), 0%nat)
            | _ =>
              do child <- id3_partial_fit fuel cfg cls fts SP yc (map fst rows) (map snd rows) new_itree (depth + 1) (er ++ [name]);
              Ok (child, List.length rows)
            end)) in EC.
    + destruct EC as (ch & EC & F). match goal with |- context [mapM ?g ?l] => replace (mapM g l) with (Ok (A:=list (itree * nat)) ch) by (symmetry; exact EC) end. cbn [bind]. eexists. split; [reflexivity|]. constructor. clear - F. induction F; cbn [map]; constructor; auto.
    + intros s z _ Hz. match type of Hz with bind ?r _ = _ => destruct r as [col|]; [|discriminate] end. cbn [bind] in *. cbv zeta in *.
      destruct (map snd (filter _ _)) as [|r0 rows]; [injection Hz as <-; eexists; split; [reflexivity|apply ip_leaf]|].
      match type of Hz with bind ?r _ = _ => destruct r as [child|] eqn:EX; [|discriminate] end. cbn [bind] in Hz. injection Hz as <-.
      destruct (IH _ _ _ _ _ EX) as (u & EU & CU). rewrite EU. cbn [bind]. eexists. split; [reflexivity|exact CU].
Qed.
