(** * Two sets per variable: the multiway and the binary tree coincide *)
From Verif Require Import Prelude M_Fuzzy M_Discretize M_Rule M_FDT M_FBDT S_Rule S_FDT S_FBDT S_Twin P_FuzzySet P_FuzzyVar P_Entropy P_Rule P_FDT P_FDT2 P_FDT3 P_FDT4 P_FBDT P_FBDT2 P_FBDT3 P_FBDT7.
From Coq Require Import Reals Lra.
Set Implicit Arguments.
Open Scope Qc_scope.
Local Notation eqb := Prelude.eqb.

Definition nm1 (v : fvar) : string := match fv_sets v with s :: _ => fs_name s | _ => ""%string end.
Definition nm2 (v : fvar) : string := match fv_sets v with _ :: s :: _ => fs_name s | _ => ""%string end.
Lemma plus_zeros l : map2 Qcplus (repeat 0 (List.length l)) l = l.
Proof. induction l as [|x l IH]; [reflexivity|]. cbn [List.length repeat map2]. rewrite IH, Qcplus_0_l. reflexivity. Qed.

Lemma two_first A (a b : string) (c1 c2 : A) : dget a [(a, c1); (b, c2)] = Some c1.
Proof. cbn. unfold eqb. destruct (eq_dec a a) as [_|N]; [reflexivity|exfalso; apply N; reflexivity]. Qed.
Lemma two_second A (a b : string) (c1 c2 : A) : a <> b -> dget b [(a, c1); (b, c2)] = Some c2.
Proof. intro N. cbn. unfold eqb. destruct (eq_dec b a) as [E|_]; [congruence|]. destruct (eq_dec b b) as [_|N']; [reflexivity|exfalso; apply N'; reflexivity]. Qed.
Lemma eqbr (n : string) : eqb n n = true.
Proof. apply eqb_eq. reflexivity. Qed.

Section Sim.
  Variable cfg : fdt_cfg.
  Variable psort : list (string * option Qc) -> list (string * option Qc).
  Variable XM : xmem.
  Variable y : list Z.
  Notation vars := (f_vars cfg).
  Hypothesis Hnd : NoDup (map fv_name vars).
  Hypothesis Hy : y <> [].
  Hypothesis Hxm : forall v, In v vars -> nm1 v <> nm2 v /\ map fs_name (fv_sets v) = [nm1 v; nm2 v] /\
    exists c1 c2, dget (fv_name v) XM = Some [(nm1 v, c1); (nm2 v, c2)] /\ List.length c1 = List.length y /\ List.length c2 = List.length y.

  Hypothesis Hth : (0 < f_threshold cfg)%R \/ dget ""%string XM = None.

  Definition remn (keep : string -> bool) : list fvar := filter (fun v => keep (fv_name v)) vars.
  Definition fd_ok (keep : string -> bool) (fd : dict string (list string)) : Prop :=
    exists G, fd = map (fun v => (fv_name v, G v)) vars /\
      forall v, In v vars -> if keep (fv_name v) then G v = map fs_name (fv_sets v) else (List.length (G v) <= 1)%nat.
  Definition part (v : fvar) : partition := (fv_name v, [nm1 v], [nm2 v]).
  Lemma parts_ok keep fd : fd_ok keep fd -> binary_partitions psort [] fd XM y = Ok (map part (remn keep)).
  Proof.
    intros (G & -> & H). unfold binary_partitions.
    assert (Z0 : exists c, nth_error (zunique y) 0 = Some c).
    { destruct y as [|c l]; [congruence|]. destruct (zunique (c :: l)) as [|z zs] eqn:E; [|exists z; reflexivity]. assert (Q : In c (zunique (c :: l))) by (apply zunique_In; left; reflexivity). rewrite E in Q. destruct Q. }
    destruct Z0 as [c0 ->]. cbn [ret_opt bind]. unfold remn.
    assert (M : forall l, (forall v, In v l -> In v vars) -> exists ps, mapM (fun fs => if memb (fst fs) [] then
        do keyed <- mapM (fun val => do col <- set_column XM (fst fs) val; Ok (val, positive_share col y c0)) (snd fs);
        Ok (cuts (fst fs) (map fst (psort keyed)))
      else Ok (cuts (fst fs) (snd fs))) (map (fun v => (fv_name v, G v)) l) = Ok ps /\ List.concat ps = map part (filter (fun v => keep (fv_name v)) l)).
    { induction l as [|v l IH]; intro S; [exists []; split; reflexivity|]. destruct IH as (ps & E1 & E2); [intros; apply S; right; assumption|].
      cbn [map mapM]. rewrite E1. cbn [fst snd memb existsb bind]. eexists. split; [reflexivity|]. cbn [List.concat filter].
      specialize (H v (S v (or_introl eq_refl))). destruct (keep (fv_name v)).
      - rewrite H. destruct (Hxm v (S v (or_introl eq_refl))) as (_ & -> & _). cbn. rewrite E2. reflexivity.
      - rewrite E2. destruct (G v) as [|a [|b l']]; [reflexivity|reflexivity|cbn in H; lia]. }
    destruct (M vars (fun v H => H)) as (ps & E1 & E2). rewrite E1. cbn [bind]. rewrite E2. reflexivity.
  Qed.

  (** the two searches for the best split run in step *)
  Definition agree (acc : string * R * dict string (list Qc)) (best : option bsplit) : Prop :=
    snd (fst acc) = best_gain best /\
    match best with
    | None => fst (fst acc) = ""%string /\ (snd acc) = []
    | Some s => exists v, In v vars /\ fst (fst acc) = fv_name v /\ s_att s = fv_name v /\
                  s_left s = [nm1 v] /\ s_right s = [nm2 v] /\ snd acc = [(nm1 v, s_lmu s); (nm2 v, s_rmu s)]
    end.
  Lemma score_side_one h mu ign v c nm : dget (fv_name v) ign = None -> set_column XM (fv_name v) nm = Ok c -> List.length c = List.length y ->
    exists h' a, score_side h mu ign XM (List.length y) (fv_name v) [nm] = Ok (h', map2 qmin mu c, a).
  Proof.
    intros I C L. unfold score_side, sum_sets. cbn [mapM]. rewrite C. cbn [bind fold_left]. rewrite <- L, plus_zeros. rewrite I. unfold halloc. eexists. eexists. reflexivity.
  Qed.
  Lemma search keep mu ign : (forall v, In v vars -> keep (fv_name v) = true -> dget (fv_name v) ign = None) ->
    forall l, (forall v, In v l -> In v vars /\ keep (fv_name v) = true) -> forall acc acc' h best, agree acc best ->
    foldM (fun best feature => do g <- feature_gain qmin mu XM y feature; if Rltb (snd (fst best)) (fst g) then Ok (feature, fst g, snd g) else Ok best) acc (map fv_name l) = Ok acc' ->
    exists h' best', foldM (score_partition XM y mu ign) (h, best) (map part l) = Ok (h', best') /\ agree acc' best' /\
      (forall s, best' = Some s -> best = Some s \/ exists v, In v l /\ s_att s = fv_name v).
  Proof.
    intro HI. induction l as [|v l IH]; intros HL acc acc' h best A E.
    - cbn in E. injection E as <-. exists h, best. split; [reflexivity|]. split; [assumption|]. intros s Hs. left. exact Hs.
    - destruct (HL v (or_introl eq_refl)) as [Hv Hk]. destruct (Hxm v Hv) as (Nn & _ & c1 & c2 & D & L1 & L2).
      cbn [map foldM] in E |- *. unfold feature_gain in E at 1. rewrite D in E. cbn [ret_opt bind] in E.
      assert (C1 : set_column XM (fv_name v) (nm1 v) = Ok c1).
      { unfold set_column. rewrite D. cbn [ret_opt bind]. rewrite two_first. reflexivity. }
      assert (C2 : set_column XM (fv_name v) (nm2 v) = Ok c2).
      { unfold set_column. rewrite D. cbn [ret_opt bind]. rewrite (two_second _ _ Nn). reflexivity. }
      destruct (score_side_one h mu ign v _ (HI v Hv Hk) C1 L1) as (h1 & a1 & E1).
      destruct (score_side_one h1 mu ign v _ (HI v Hv Hk) C2 L2) as (h2 & a2 & E2).
      destruct (qeqb (qsum mu) 0) eqn:Q0; [discriminate|]. cbn [bind] in E.
      assert (SP : score_partition XM y mu ign (h, best) (part v) = Ok (h2, let g := (fuzzy_entropy mu y - (qr (qsum (map2 qmin mu c1)) * fuzzy_entropy (map2 qmin mu c1) y + qr (qsum (map2 qmin mu c2)) * fuzzy_entropy (map2 qmin mu c2) y) / qr (qsum mu))%R in
        if Rltb (best_gain best) g then Some (mkSplit (fv_name v) g (map2 qmin mu c1) (map2 qmin mu c2) [nm1 v] [nm2 v] a1 a2) else best)).
      { unfold score_partition, part. cbn [fst]. rewrite E1. cbn [bind]. rewrite E2. cbn [bind]. unfold split_gain. rewrite Q0. reflexivity. }
      rewrite SP. cbn [bind]. cbv zeta. clear SP E1 E2.
      cbn [child_mus map fst snd] in E.
      assert (EG : (rsum [qr (qsum (map2 qmin mu c1)) * fuzzy_entropy (map2 qmin mu c1) y; qr (qsum (map2 qmin mu c2)) * fuzzy_entropy (map2 qmin mu c2) y] =
                    qr (qsum (map2 qmin mu c1)) * fuzzy_entropy (map2 qmin mu c1) y + qr (qsum (map2 qmin mu c2)) * fuzzy_entropy (map2 qmin mu c2) y)%R).
      { unfold rsum. cbn. ring. }
      rewrite EG in E. clear EG. destruct A as [A1 A2]. rewrite A1 in E.
      match type of E with context [Rltb (best_gain best) ?g] => destruct (Rltb (best_gain best) g) eqn:RL end.
      + cbn [bind] in E. match type of E with foldM _ ?ac _ = _ => match goal with |- context [foldM _ (h2, Some ?s) _] => destruct (IH (fun v H => HL v (or_intror H)) ac acc' h2 (Some s)) as (h' & b' & F1 & F2 & F3) end end.
        * split; [reflexivity|]. exists v. repeat split; assumption || reflexivity.
        * exact E.
        * exists h', b'. split; [exact F1|]. split; [exact F2|]. intros s Hs. right. destruct (F3 s Hs) as [Q|(w & Hw & Q)]; [|exists w; split; [right|]; assumption].
          injection Q as <-. exists v. split; [left|]; reflexivity.
      + cbn [bind] in E. destruct (IH (fun v H => HL v (or_intror H)) acc acc' h2 best (conj A1 A2) E) as (h' & b' & F1 & F2 & F3).
        exists h', b'. split; [exact F1|]. split; [exact F2|]. intros s Hs. destruct (F3 s Hs) as [Q|(w & Hw & Q)]; [left; exact Q|right; exists w; split; [right|]; assumption].
  Qed.

  Definition narrow (keep : string -> bool) (att : string) : string -> bool := fun n => keep n && negb (eqb n att).
  Lemma narrow_features keep att : map fv_name (remn (narrow keep att)) = remove string_dec att (map fv_name (remn keep)).
  Proof.
    unfold remn. clear Hnd Hxm. induction vars as [|v l IH]; [reflexivity|]. cbn [filter]. unfold narrow at 1. destruct (keep (fv_name v)) eqn:K; cbn [andb].
    - cbn [map remove]. destruct (string_dec att (fv_name v)) as [->|D].
      + rewrite eqbr. cbn [negb]. exact IH.
      + destruct (eqb (fv_name v) att) eqn:Q; [apply eqb_eq in Q; congruence|]. cbn [negb map]. rewrite IH. reflexivity.
    - exact IH.
  Qed.
  Lemma narrow_length keep v : In v vars -> keep (fv_name v) = true -> (List.length (remn (narrow keep (fv_name v))) < List.length (remn keep))%nat.
  Proof.
    intros Hv K. rewrite <- (map_length fv_name (remn (narrow keep (fv_name v)))), <- (map_length fv_name (remn keep)), narrow_features. apply remove_length_lt.
    apply in_map. unfold remn. apply filter_In. auto.
  Qed.
  Lemma narrow_fd keep fd v (nm : string) avail : fd_ok keep fd -> In v vars -> keep (fv_name v) = true -> nm = nm1 v \/ nm = nm2 v -> dget (fv_name v) fd = Some avail ->
    fd_ok (narrow keep (fv_name v)) (dset (fv_name v) (filter (fun x => memb x [nm]) avail) fd).
  Proof.
    intros (G & -> & H) Hv K Hn Ea. assert (Hv' := H v Hv). rewrite K in Hv'. destruct (Hxm v Hv) as (Nn & Nm & _).
    assert (Av : avail = [nm1 v; nm2 v]).
    { rewrite <- Nm, <- Hv'. assert (Q : dget (fv_name v) (map (fun v => (fv_name v, G v)) vars) = Some (G v)).
      { apply dget_nodup; [unfold dkeys; rewrite map_map; exact Hnd|]. apply in_map_iff. exists v. auto. }
      rewrite Q in Ea. injection Ea as ->. reflexivity. }
    exists (fun w => if eqb (fv_name w) (fv_name v) then filter (fun x => memb x [nm]) avail else G w). split.
    - rewrite (@dset_map_nodup (map (fun v => (fv_name v, G v)) vars) (fv_name v)).
      + rewrite map_map. apply map_ext. intro w. cbn [fst snd]. destruct (eqb (fv_name w) (fv_name v)) eqn:Q; reflexivity.
      + rewrite map_map. exact Hnd.
      + rewrite map_map. cbn [fst]. apply in_map. exact Hv.
    - intros w Hw. unfold narrow. destruct (eqb (fv_name w) (fv_name v)) eqn:Q; cbn [negb].
      + rewrite andb_false_r. rewrite Av. cbn [filter]. assert (M : forall x, memb x [nm] = eqb x nm) by (intro x; unfold memb; cbn; rewrite orb_false_r; reflexivity || (destruct (eqb x nm); reflexivity)).
        rewrite !M. destruct Hn as [-> | ->].
        * destruct (eqb (nm2 v) (nm1 v)) eqn:Q2; [apply eqb_eq in Q2; congruence|]. destruct (eqb (nm1 v) (nm1 v)); cbn; lia.
        * destruct (eqb (nm1 v) (nm2 v)) eqn:Q2; [apply eqb_eq in Q2; congruence|]. destruct (eqb (nm2 v) (nm2 v)); cbn; lia.
      + rewrite andb_true_r. apply H. exact Hw.
  Qed.

  Definition twin_nodes (node : tree) (bnode : btree) : Prop :=
    t_mu node = b_mu bnode /\ Forall2 twin (t_children node) (b_children bnode) /\ t_class node = b_class bnode /\
    b_value bnode = option_map (fun l => (fst l, [snd l])) (t_value node) /\ t_var node = b_var bnode.
  Lemma grown : forall f fb keep fd node bnode path depth h t,
    (List.length (remn keep) < fb)%nat -> fd_ok keep fd ->
    (forall v, In v vars -> keep (fv_name v) = true -> dget (fv_name v) (b_ignored bnode) = None) -> twin_nodes node bnode ->
    partial_fit f cfg listed_order XM y node path (map fv_name (remn keep)) depth = Ok t ->
    exists h' bt, bfit fb cfg psort [] XM y h bnode fd depth = Ok (h', bt) /\ twin t bt.
  Proof.
    induction f as [|f IH]; intros fb keep fd node bnode path depth h t Lf FD IG (N1 & N2 & N3 & N4 & N5) E; [discriminate|].
    destruct fb as [|fb]; [lia|]. cbn [partial_fit] in E. cbn [bfit]. cbv zeta in E |- *. rewrite <- N1. unfold listed_order in E at 1.
    match type of E with bind ?r _ = _ => destruct r as [[[att gain] cm]|] eqn:EB; [|discriminate] end. cbn [bind] in E.
    unfold max_split. rewrite (@parts_ok keep fd FD). cbn [bind]. unfold max_f_gain in EB.
    assert (HR : forall v, In v (remn keep) -> In v vars /\ keep (fv_name v) = true) by (intros v Hv; apply filter_In in Hv; exact Hv).
    assert (A0 : agree (""%string, 0%R, []) None) by (split; [reflexivity|split; reflexivity]).
    destruct (@search keep (t_mu node) (b_ignored bnode) IG (remn keep) HR _ _ h None A0 EB) as (h1 & best & F1 & (A1 & A2) & F3).
    rewrite F1. cbn [bind]. cbn [fst snd] in A1. rewrite <- A1. destruct (stop_met cfg gain (masked (t_mu node) y) depth) eqn:ST.
    - destruct (get_class_value (t_mu node) y) as [cv|]; cbn [bind] in E |- *; [|discriminate]. injection E as <-. eexists. eexists. split; [reflexivity|].
      rewrite N4, <- N5. constructor. exact N2.
    - destruct best as [s|].
      + destruct A2 as (v & Hv & B1 & B2 & B3 & B4 & B5). cbn [fst snd] in B1, B5. subst att cm.
        assert (Kv : keep (fv_name v) = true).
        { destruct (F3 s eq_refl) as [Q|(w & Hw & Q)]; [discriminate|]. rewrite B2 in Q. rewrite Q. apply HR. exact Hw. }
        destruct (Hxm v Hv) as (Nn & Nm & c1 & c2 & D & L1 & L2). rewrite D in E. cbn [ret_opt bind dkeys map fst] in E.
        destruct (In_nth_error _ _ Hv) as [a Ha]. assert (Pa := positions_get _ _ Hnd Ha). rewrite B2, Pa. cbn [ret_opt bind]. rewrite Ha. cbn [ret_opt bind].
        change (enumerate [nm1 v; nm2 v]) with [(0%nat, nm1 v); (1%nat, nm2 v)] in E. cbn [mapM] in E.
        assert (Mb : memb (fv_name v) (map fv_name (remn keep)) = true) by (apply memb_In; apply in_map; apply filter_In; auto).
        rewrite Mb in E. cbn [negb] in E. rewrite Pa in E. cbn [ret_opt bind] in E. rewrite Ha in E. cbn [ret_opt bind] in E.
        rewrite two_first, (two_second _ _ Nn) in E. cbn [ret_opt bind] in E.
        assert (SD : dict_of (map (fun js => (fs_name (snd js), fst js)) (enumerate (fv_sets v))) = [(nm1 v, 0%nat); (nm2 v, 1%nat)]).
        { unfold nm1, nm2 in *. destruct (fv_sets v) as [|s1 [|s2 [|s3 r]]]; try discriminate Nm. cbn [enumerate combine seq List.length map fst snd] in *.
          apply dict_of_nodup. cbn. constructor; [intros [Q|[]]; congruence|constructor; [intros []|constructor]]. }
        assert (AV : exists avail, dget (fv_name v) fd = Some avail).
        { destruct FD as (G & -> & _). exists (G v). apply dget_nodup; [unfold dkeys; rewrite map_map; exact Hnd|]. apply in_map_iff. exists v. auto. }
        destruct AV as [avail AV]. rewrite SD, B3, B4. cbn [mapM]. rewrite two_first, (two_second _ _ Nn). cbn [ret_opt bind].
        assert (UI : forall hh addr, update_ignored hh (b_ignored bnode) (fv_name v) addr = (hh, dset (fv_name v) addr (b_ignored bnode))) by (intros; unfold update_ignored; rewrite (IG v Hv Kv); reflexivity).
        rewrite !UI. rewrite !AV. cbn [ret_opt bind].
        assert (IG' : forall addr w, In w vars -> narrow keep (fv_name v) (fv_name w) = true -> dget (fv_name w) (dset (fv_name v) addr (b_ignored bnode)) = None).
        { intros addr w Hw K. unfold narrow in K. apply andb_true_iff in K. destruct K as [K1 K2]. rewrite dset_other; [apply IG; assumption|].
          intro Q. rewrite Q, eqbr in K2. discriminate. }
        assert (LN := @narrow_length keep v Hv Kv). rewrite <- (narrow_features keep (fv_name v)) in E.
        match type of E with bind (bind ?r _) _ = _ => destruct r as [ch1|] eqn:E1; [|discriminate] end. cbn [bind] in E.
        match type of E with bind (bind (bind ?r _) _) _ = _ => destruct r as [ch2|] eqn:E2; [|discriminate] end. cbn [bind] in E. injection E as <-.
        assert (G1 : exists h2 b1, (if qltb 0 (qsum (s_lmu s)) then
            bfit fb cfg psort [] XM y h1 (BTree true [] None (-1) (Some (a, [0%nat])) (Some v) (s_lmu s) (dset (fv_name v) (s_lign s) (b_ignored bnode)))
              (dset (fv_name v) (filter (fun x => memb x [nm1 v]) avail) fd) (depth + 1)
          else do cv <- get_class_value (t_mu node) y; Ok (h1, BTree true [] (Some cv) (-1) (Some (a, [0%nat])) (Some v) (s_lmu s) (dset (fv_name v) (s_lign s) (b_ignored bnode)))) = Ok (h2, b1) /\ twin ch1 b1).
        { destruct (qltb 0 (qsum (s_lmu s))).
          - refine (IH fb _ _ _ _ _ _ h1 _ _ (@narrow_fd keep fd v (nm1 v) avail FD Hv Kv (or_introl eq_refl) AV) _ _ E1); [lia|intros; apply IG'; assumption|].
            repeat split; constructor.
          - destruct (get_class_value (t_mu node) y) as [cv|]; cbn [bind] in E1 |- *; [|discriminate]. injection E1 as <-. eexists. eexists. split; [reflexivity|].
            exact (@Twin true [] [] (Some cv) (-1) (Some (a, 0%nat)) (Some v) (s_lmu s) _ (Forall2_nil _)). }
        destruct G1 as (h2 & b1 & G1 & T1).
        assert (G2 : exists h3 b2, (if qltb 0 (qsum (s_rmu s)) then
            bfit fb cfg psort [] XM y h2 (BTree true [] None (-1) (Some (a, [1%nat])) (Some v) (s_rmu s) (dset (fv_name v) (s_rign s) (b_ignored bnode)))
              (dset (fv_name v) (filter (fun x => memb x [nm2 v]) avail) fd) (depth + 1)
          else do cv <- get_class_value (t_mu node) y; Ok (h2, BTree true [] (Some cv) (-1) (Some (a, [1%nat])) (Some v) (s_rmu s) (dset (fv_name v) (s_rign s) (b_ignored bnode)))) = Ok (h3, b2) /\ twin ch2 b2).
        { destruct (qltb 0 (qsum (s_rmu s))).
          - refine (IH fb _ _ _ _ _ _ h2 _ _ (@narrow_fd keep fd v (nm2 v) avail FD Hv Kv (or_intror eq_refl) AV) _ _ E2); [lia|intros; apply IG'; assumption|].
            repeat split; constructor.
          - destruct (get_class_value (t_mu node) y) as [cv|]; cbn [bind] in E2 |- *; [|discriminate]. injection E2 as <-. eexists. eexists. split; [reflexivity|].
            exact (@Twin true [] [] (Some cv) (-1) (Some (a, 1%nat)) (Some v) (s_rmu s) _ (Forall2_nil _)). }
        destruct G2 as (h3 & b2 & G2 & T2).
        rewrite G1. cbn [bind fst snd]. rewrite UI. rewrite G2. cbn [bind fst snd]. eexists. eexists. split; [reflexivity|].
        rewrite N4, N3, <- N5. constructor. apply Forall2_app; [exact N2|]. constructor; [exact T1|constructor; [exact T2|constructor]].
      + destruct A2 as (B1 & B2). cbn [fst snd] in B1, B2. subst att cm. exfalso.
        destruct Hth as [Q|Q]; [|rewrite Q in E; discriminate]. cbn in A1. subst gain. unfold stop_met in ST. apply orb_false_iff in ST. destruct ST as [_ ST].
        apply Rltb_ge in ST. lra.
  Qed.
End Sim.

(** ** what twins answer *)
Lemma column_length (X : list (list cell)) i c : column X i = Ok c -> List.length c = List.length X.
Proof. unfold column. intro H. apply mapM_length in H. exact H. Qed.
Lemma membership_col_length s c d : membership_col s c = Ok d -> List.length d = List.length c.
Proof. unfold membership_col. intro H. apply mapM_length in H. exact H. Qed.
Lemma twin_predict tn X : forall t bt, twin t bt -> forall mu, partial_bpredict tn X mu bt = partial_predict tn X mu t.
Proof.
  induction t as [lf cs cv lv va vr mu0 IH] using tree_ind'. intros bt T mu. inversion T as [? ? bcs ? ? ? ? ? ig F]; subst.
  cbn [partial_bpredict partial_predict].
  assert (E : (match option_map (fun l : nat * nat => (fst l, [snd l])) va with
      | Some (att, vals) =>
          do v <- ret_opt AttributeError vr;
          do cols <- mapM (fun i => do s <- ret_opt IndexError (nth_error (fv_sets v) i); do col <- column X att; membership_col s col) vals;
          Ok (map2 tn mu (fold_left (map2 Qcplus) cols (repeat 0 (List.length X))))
      | None => Ok mu end) =
      match va with
      | Some (att, i) => do v <- ret_opt AttributeError vr; do s <- ret_opt IndexError (nth_error (fv_sets v) i); do col <- column X att; do d <- membership_col s col; Ok (map2 tn mu d)
      | None => Ok mu end).
  { destruct va as [[a i]|]; [|reflexivity]. cbn [option_map fst snd]. destruct vr as [v|]; [|reflexivity]. cbn [ret_opt bind mapM].
    destruct (nth_error (fv_sets v) i) as [s|]; [|reflexivity]. cbn [ret_opt bind]. destruct (column X a) as [col|] eqn:Ec; [|reflexivity]. cbn [bind].
    destruct (membership_col s col) as [d|] eqn:Ed; [|reflexivity]. cbn [bind fold_left]. rewrite <- (column_length _ _ Ec), <- (membership_col_length _ _ Ed), plus_zeros. reflexivity. }
  rewrite E. match goal with |- bind ?r _ = _ => destruct r as [nm|] end; [|reflexivity]. cbn [bind]. destruct lf; [reflexivity|].
  inversion F as [|c b cs' bcs' T1 F1]; subst; [reflexivity|].
  assert (M : mapM (partial_bpredict tn X nm) (b :: bcs') = mapM (partial_predict tn X nm) (c :: cs')).
  { clear - IH F. revert IH F. generalize (c :: cs') (b :: bcs'). intros l l' IH F. induction F as [|x b0 l l0 T0 F IHF]; [reflexivity|]. inversion IH; subst. cbn [mapM].
    match goal with H : forall bt, twin x bt -> _ |- _ => rewrite (H b0 T0 nm) end. rewrite IHF by assumption. reflexivity. }
  rewrite M. reflexivity.
Qed.
Lemma twin_get_rules th : forall t bt, twin t bt -> forall prefix,
  get_brules bt (map (fun l => (fst l, [snd l])) prefix) th = match get_rules t prefix th with Ok rs => Ok (map grouped rs) | Err e => Err e end.
Proof.
  induction t as [lf cs cv lv va vr mu0 IH] using tree_ind'. intros bt T prefix. inversion T as [? ? bcs ? ? ? ? ? ig F]; subst. cbn [get_brules get_rules].
  assert (E : (match option_map (fun l : nat * nat => (fst l, [snd l])) va with
      | Some (_, vals) =>
          do v <- ret_opt AttributeError vr;
          do names <- mapM (fun i => do s <- ret_opt IndexError (nth_error (fv_sets v) i); Ok (fs_name s)) vals;
          Ok (map (fun l => (fst l, [snd l])) prefix ++ [(fv_name v, names)])
      | None => Ok (map (fun l => (fst l, [snd l])) prefix) end) =
      match (match va with
      | Some (_, i) => do v <- ret_opt AttributeError vr; do s <- ret_opt IndexError (nth_error (fv_sets v) i); Ok (prefix ++ [(fv_name v, fs_name s)])
      | None => Ok prefix end) with Ok p => Ok (map (fun l => (fst l, [snd l])) p) | Err e => Err e end).
  { destruct va as [[a i]|]; [|reflexivity]. cbn [option_map fst snd]. destruct vr as [v|]; [|reflexivity]. cbn [ret_opt bind mapM].
    destruct (nth_error (fv_sets v) i) as [s|]; [|reflexivity]. cbn [ret_opt bind]. rewrite map_app. reflexivity. }
  rewrite E. clear E. match goal with |- bind (match ?r with _ => _ end) _ = _ => destruct r as [p|] end; [|reflexivity]. cbn [bind]. destruct lf.
  - destruct cv as [d|]; [|reflexivity]. cbn [ret_opt bind]. apply (f_equal (@Ok _)). rewrite map_map. reflexivity.
  - assert (M : mapM (fun c => get_brules c (map (fun l => (fst l, [snd l])) p) th) bcs =
      match mapM (fun c => get_rules c p th) cs with Ok ls => Ok (map (map grouped) ls) | Err e => Err e end).
    { clear - IH F. induction F as [|x b l l' T F IHF]; [reflexivity|]. inversion IH as [|? ? I1 I2]; subst. cbn [mapM]. rewrite (I1 b T p).
      destruct (get_rules x p th) as [r|]; [|reflexivity]. cbn [bind]. rewrite (IHF I2). destruct (mapM _ l); reflexivity. }
    rewrite M. destruct (mapM _ cs) as [ls|]; [|reflexivity]. cbn [bind]. apply (f_equal (@Ok _)). rewrite concat_map. reflexivity.
Qed.
Lemma simplify_ant_nodup V (len : V -> nat) (ant : list (string * V)) : NoDup (map fst ant) -> simplify_ant len ant = ant.
Proof.
  unfold simplify_ant. induction ant as [|[f v] ant IH] using rev_ind; [reflexivity|]. intro N. rewrite map_app in N. cbn [map fst] in N.
  apply NoDup_remove in N. rewrite app_nil_r in N. destruct N as [N1 N2]. rewrite fold_left_app, IH by exact N1. cbn [fold_left fst snd].
  assert (D : dget f ant = None) by (apply dget_None; exact N2). rewrite D. apply dset_fresh. exact N2.
Qed.
