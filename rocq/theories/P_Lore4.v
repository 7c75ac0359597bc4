(** * Proofs about the other generators of neighbor_generator.py *)
From Verif Require Import Prelude M_Fuzzy M_Discretize M_Rule M_FDT M_ID3 M_Neighborhood M_Sampling M_Genetic M_Utils M_Lore.
From Verif Require Import P_FuzzyVar P_Metrics P_Factual P_Counterfactual P_Neighborhood2 P_Sampling P_Genetic P_Genetic2 P_Utils P_Utils2 P_Utils3 P_Utils4 P_Lore P_Lore2 P_Lore3.
From Verif Require Import S_Utils S_Genetic S_Lore S_Lore2.
Unset Implicit Arguments.
Open Scope Qc_scope.

Lemma np_choice_spec draw a size replace l : np_choice draw a size replace = Ok l -> List.length l = size /\ forall v, In v l -> In v a.
Proof.
  unfold np_choice. destruct (negb replace && Nat.ltb (List.length a) size); [discriminate|]. intro H. split; [rewrite (mapM_length _ _ H), seq_length; reflexivity|].
  intros v I. apply In_nth_error in I. destruct I as (j & I). apply mapM_nth_error in H. destruct H as (L & H). assert (B : (j < size)%nat). { rewrite seq_length in L. rewrite <- L. apply nth_error_Some. congruence. }
  destruct (H j j) as (y & E & Y). { rewrite nth_error_nth' with (d := 0%nat) by (rewrite seq_length; assumption). rewrite seq_nth by assumption. reflexivity. }
  rewrite I in Y. injection Y as <-. destruct (nth_error a (draw j mod List.length a)) as [v'|] eqn:N; [|discriminate]. cbn in E. injection E as <-. eapply nth_error_In; eassumption.
Qed.
Lemma stored_spec t v : stored t v (if eqb t "integer"%string then truncate v else v).
Proof.
  unfold stored. destruct (eqb t "integer"%string) eqn:E.
  - apply (proj1 (@eqb_eq _ _ t _)) in E. split; [|intro; contradiction]. intros _. destruct (truncate_spec v) as (z & Z & T). exists z. split; assumption.
  - apply (proj1 (@eqb_neq _ _ t _)) in E. split; [contradiction|reflexivity].
Qed.

Section Random.
  Variables (class_name : string) (choice : nat -> nat -> nat) (normal : nat -> nat -> Qc) (X : list (list Qc)) (discrete continuous : list string) (ftype : dict string string) (size : nat) (uniform : bool).
  Definition random_step (st : list (list Qc) * option (list Qc)) (ic : nat * string) : res (list (list Qc) * option (list Qc)) :=
        let '(i, col) := ic in
        do values <- qcolumn X i;
        let diff_values := qunique values in
        let prob_values := map (fun val => qn (List.length (filter (qeqb val) values)) / qn (List.length values)) diff_values in
        do new_values <-
          (if memb col discrete then
             if uniform then np_choice (choice i) diff_values size true
             else np_choice (choice i) diff_values size (negb (Nat.eqb (List.length prob_values) 0))
           else if memb col continuous then
             match variance values with
             | Some v => if qleb v 0 then do v0 <- lget values 0; Ok (repeat v0 size) else Ok (map (normal i) (seq 0 size))
             | None => Ok (map (normal i) (seq 0 size))
             end
           else ret_opt NameError (snd st));
        do t <- ret_opt KeyError (dget col ftype);
        let new_values := if eqb t "integer"%string then map truncate new_values else new_values in
        Ok (fst st ++ [new_values], Some new_values).
  Lemma random_eq columns : generate_random_data class_name choice normal X columns discrete continuous ftype size uniform =
    do columns1 <- list_remove class_name columns; do st <- foldM random_step ([], None) (enumerate columns1);
    if Nat.eqb (List.length columns1) 0 then Err ValueError else
    if negb (forallb (fun row => Nat.eqb (List.length row) (List.length columns1)) X) then Err ValueError else
    Ok (X ++ map (fun j => map (fun c => nth j c 0) (fst st)) (seq 0 size)).
  Proof. reflexivity. Qed.
  (** column [i] of the new rows *)
  Definition column_ok (cols : list (list Qc)) (i : nat) (c : string) (col : list Qc) : Prop :=
    exists values t vs, column_values X i values /\ dget c ftype = Some t /\ List.length col = size /\ Forall2 (stored t) vs col /\
      (In c discrete -> forall v, In v vs -> In v values) /\ (~ In c discrete -> In c continuous -> values <> [] -> constant values -> forall v, In v vs -> In v values) /\
      (~ In c discrete -> ~ In c continuous -> exists j, i = S j /\ nth_error cols j = Some vs).
  Lemma random_columns columns st : foldM random_step ([], None) (enumerate columns) = Ok st ->
    List.length (fst st) = List.length columns /\ forall i c, nth_error columns i = Some c -> exists col, nth_error (fst st) i = Some col /\ column_ok (fst st) i c col.
  Proof.
    intro H.
    pose (Inv := fun k (st : list (list Qc) * option (list Qc)) => List.length (fst st) = k /\ (snd st = match k with O => None | S j => nth_error (fst st) j end) /\
      forall i c, (i < k)%nat -> nth_error columns i = Some c -> exists col, nth_error (fst st) i = Some col /\ column_ok (fst st) i c col).
    assert (G : Inv (List.length columns) st).
    { revert H. apply (foldM_enum Inv); [|split; [reflexivity|]; split; [reflexivity|]; intros; lia].
      intros i c (cols & last) st' Nc (L & Lst & P) E. cbn [fst snd] in L, Lst, P. unfold random_step in E. cbn [fst snd] in E. cbv zeta in E. destruct (qcolumn X i) as [values|] eqn:Q; [|discriminate]. cbn [bind] in E.
      match type of E with bind ?r _ = _ => destruct r as [vs|] eqn:V; [|discriminate] end. cbn [bind] in E.
      destruct (dget c ftype) as [t|] eqn:T; [|discriminate]. cbn [ret_opt bind] in E.
      set (col := if eqb t "integer"%string then map truncate vs else vs) in E. assert (S' : st' = (cols ++ [col], Some col)) by congruence. subst st'. clear E.
      assert (MONO : forall i' c' col', (i' < i)%nat -> column_ok cols i' c' col' -> column_ok (cols ++ [col]) i' c' col').
      { intros i' c' col' Li (va & ta & vsa & A1 & A2 & A3 & A4 & A5 & A6 & A7). exists va, ta, vsa. splits; try assumption. intros U U'. destruct (A7 U U') as (j & J & N). exists j. split; [assumption|]. rewrite nth_error_app1 by lia. assumption. }
      assert (STO : Forall2 (stored t) vs col). { unfold col. clear. destruct (eqb t "integer"%string) eqn:E; [|induction vs as [|v vs IH]; constructor; [|assumption]; assert (S := stored_spec t v); rewrite E in S; assumption]. induction vs as [|v vs IH]; cbn [map]; constructor; [|assumption]. assert (S := stored_spec t v). rewrite E in S. assumption. }
      assert (LV : List.length vs = size /\ (In c discrete -> forall v, In v vs -> In v values) /\ (~ In c discrete -> In c continuous -> values <> [] -> constant values -> forall v, In v vs -> In v values) /\ (~ In c discrete -> ~ In c continuous -> exists j, i = S j /\ nth_error (cols ++ [col]) j = Some vs)).
      { destruct (memb c discrete) eqn:MD.
        - apply (proj1 (@memb_In _ _ c discrete)) in MD. assert (C : List.length vs = size /\ forall v, In v vs -> In v (qunique values)) by (destruct uniform; apply np_choice_spec in V; exact V). destruct C as (C1 & C2). splits; [assumption|intros _ v I; apply qunique_In; auto|contradiction|contradiction].
        - apply (proj1 (@memb_not_In _ _ c discrete)) in MD. destruct (memb c continuous) eqn:MC.
          + apply (proj1 (@memb_In _ _ c continuous)) in MC. destruct (variance values) as [va|] eqn:VA.
            * destruct (qleb va 0) eqn:V0.
              -- unfold lget in V. destruct (nth_error values 0) as [v0|] eqn:N0; [|discriminate]. cbn [ret_opt bind] in V. injection V as <-. splits; [apply repeat_length|contradiction|intros _ _ _ _ v I; apply repeat_spec in I; subst; eapply nth_error_In; eassumption|contradiction].
              -- injection V as <-. splits; [rewrite map_length, seq_length; reflexivity|contradiction| |contradiction]. intros _ _ NE K. exfalso. apply (variance_zero _ VA) in K. subst va. discriminate.
            * injection V as <-. splits; [rewrite map_length, seq_length; reflexivity|contradiction| |contradiction]. intros _ _ NE _. apply variance_none in VA. contradiction.
          + apply (proj1 (@memb_not_In _ _ c continuous)) in MC. subst last. destruct i as [|j]; [discriminate|]. destruct (nth_error cols j) as [prev|] eqn:NP; [|discriminate]. cbn in V. injection V as <-.
            assert (Bj : (j < List.length columns)%nat). { assert (S j < List.length columns)%nat by (apply nth_error_Some; congruence). lia. }
            destruct (nth_error columns j) as [cj|] eqn:Cj; [|apply nth_error_None in Cj; lia]. destruct (P j cj (Nat.lt_succ_diag_r j) Cj) as (pc & PN & PO). rewrite NP in PN. injection PN as <-.
            destruct PO as (_ & _ & _ & _ & _ & LP & _). splits; [assumption|contradiction|contradiction|]. intros _ _. exists j. split; [reflexivity|]. rewrite nth_error_app1 by lia. assumption. }
      destruct LV as (LV & V1 & V2 & V3).
      unfold Inv. cbn [fst snd]. split; [rewrite app_length; cbn; lia|]. split; [rewrite nth_error_app2 by lia; rewrite L, Nat.sub_diag; reflexivity|].
      intros i' c' Li Nc'. destruct (Nat.eq_dec i' i) as [->|Ne].
      - exists col. split; [rewrite nth_error_app2 by lia; rewrite L, Nat.sub_diag; reflexivity|]. rewrite Nc in Nc'. injection Nc' as <-. exists values, t, vs. split; [apply qcolumn_spec; assumption|]. split; [assumption|]. split; [rewrite <- (Forall2_len STO); assumption|]. split; [assumption|]. split; [assumption|]. split; assumption.
      - destruct (P i' c') as (col' & N' & O'); [lia|assumption|]. exists col'. split; [rewrite nth_error_app1 by lia; assumption|]. apply MONO; [lia|assumption]. }
    destruct G as (G1 & _ & G2). split; [assumption|]. intros i c Nc. apply G2; [apply nth_error_Some; congruence|assumption].
  Qed.
  Lemma random_rows columns Y : NoDup columns -> generate_random_data class_name choice normal X columns discrete continuous ftype size uniform = Ok Y ->
    exists new, Y = X ++ new /\ List.length new = size /\
    (forall row, In row Y -> List.length row = (List.length columns - 1)%nat) /\
    forall row i c, In row new -> nth_error (filter (fun c => negb (eqb c class_name)) columns) i = Some c -> exists w, nth_error row i = Some w /\ drawn_value X discrete continuous ftype row i c w.
  Proof.
    intros N H. rewrite random_eq in H. destruct (list_remove class_name columns) as [cols|] eqn:R; [|discriminate]. cbn [bind] in H.
    assert (LC : List.length cols = (List.length columns - 1)%nat).
    { clear - R. revert cols R. induction columns as [|y l IH]; intros cols R; [discriminate|]. cbn in R. destruct (eqb y class_name); [injection R as <-; cbn; lia|]. destruct (list_remove class_name l) as [r|] eqn:E; [|discriminate]. cbn in R. injection R as <-. cbn. specialize (IH r eq_refl). destruct l; [discriminate|]. cbn in *. lia. }
    apply list_remove_filter in R; [|assumption]. destruct R as (I & R). rewrite <- R. clear R.
    destruct (foldM random_step ([], None) (enumerate cols)) as [st|] eqn:F; [|discriminate]. cbn [bind] in H. destruct (Nat.eqb (List.length cols) 0); [discriminate|].
    destruct (forallb (fun row => Nat.eqb (List.length row) (List.length cols)) X) eqn:FX; [|discriminate]. cbn [negb] in H. injection H as <-.
    apply random_columns in F. destruct F as (LF & F).
    eexists. split; [reflexivity|]. split; [rewrite map_length, seq_length; reflexivity|]. split.
    - intros row Ir. apply in_app_or in Ir. rewrite <- LC. destruct Ir as [Ir|Ir]; [rewrite forallb_forall in FX; apply Nat.eqb_eq; exact (FX row Ir)|]. apply in_map_iff in Ir. destruct Ir as (j & <- & _). rewrite map_length. assumption.
    - intros row i c Ir Nc. apply in_map_iff in Ir. destruct Ir as (r & <- & Ir). apply in_seq in Ir. destruct (F i c Nc) as (col & Ncol & (values & t & vs & A1 & A2 & A3 & A4 & A5 & A6 & A7)).
      exists (nth r col 0). split; [rewrite nth_error_map, Ncol; reflexivity|]. assert (Nr : nth_error col r = Some (nth r col 0)) by (apply nth_error_nth'; lia). destruct (Forall2_nth_r A4 _ Nr) as (v & Vr & ST). assert (Iv := nth_error_In _ _ Vr).
      exists values, t, v. split; [assumption|]. split; [assumption|]. split; [assumption|]. split; [auto|]. split; [auto|]. intros U U'. destruct (A7 U U') as (j & J & Nj). exists j. split; [assumption|]. rewrite nth_error_map, Nj. cbn. f_equal. apply nth_error_nth. assumption.
  Qed.
End Random.
Lemma uniform_irrelevant cls choice normal X columns discrete continuous ftype size : 
  generate_random_data cls choice normal X columns discrete continuous ftype size false = generate_random_data cls choice normal X columns discrete continuous ftype size true.
Proof.
  rewrite !random_eq. assert (E : forall l st, foldM (random_step choice normal X discrete continuous ftype size false) st l = foldM (random_step choice normal X discrete continuous ftype size true) st l).
  { induction l as [|(i & c) l IH]; intro st; [reflexivity|]. cbn [foldM]. assert (S : random_step choice normal X discrete continuous ftype size false st (i, c) = random_step choice normal X discrete continuous ftype size true st (i, c)).
    { unfold random_step. destruct (qcolumn X i) as [values|]; [|reflexivity]. cbn [bind]. cbv zeta. destruct (memb c discrete); [|reflexivity]. rewrite map_length. destruct (qunique values) as [|u us]; [|reflexivity]. unfold np_choice. cbn [List.length Nat.eqb negb andb]. destruct size; [reflexivity|]. cbn [seq mapM]. destruct (choice i 0%nat mod 0)%nat; reflexivity. }
    rewrite S. destruct (random_step _ _ _ _ _ _ _ true st (i, c)); [|reflexivity]. cbn [bind]. apply IH. }
  destruct (list_remove cls columns); [|reflexivity]. cbn [bind]. rewrite E. reflexivity.
Qed.

(** encoding with given encoders *)
Lemma encode_with encs columns : forall df df' e, NoDup columns -> label_encode df columns (Some encs) = Ok (df', e) ->
  dkeys df' = dkeys df /\ (forall c, ~ In c columns -> dget c df' = dget c df) /\
  forall c, In c columns -> exists u col codes, dget c encs = Some u /\ dget c df = Some col /\ transform u col = Ok codes /\ dget c df' = Some codes.
Proof.
  unfold label_encode. intros df df' e N H. match type of H with bind ?r _ = _ => destruct r as [d|] eqn:F; [|discriminate] end. cbn [bind] in H. assert (d = df') by congruence. subst d. clear H.
  revert df N F. induction columns as [|c columns IH]; intros df N H.
  - cbn in H. injection H as <-. split; [reflexivity|]. split; [reflexivity|intros c []].
  - inversion N as [|? ? NI N']; subst. cbn [foldM] in H. destruct (dget c encs) as [u|] eqn:E; [|discriminate]. cbn [ret_opt bind] in H. unfold fcolumn at 1 in H. destruct (dget c df) as [col|] eqn:C; [|discriminate]. cbn [ret_opt bind] in H.
    destruct (transform u col) as [codes|] eqn:V; [|discriminate]. cbn [bind] in H. assert (K : In c (dkeys df)) by (eapply dget_Some_key; eassumption).
    apply IH in H; [|assumption]. destruct H as (A & B & D). split; [rewrite A; apply dkeys_dset; assumption|]. split.
    + intros c' Nc. rewrite (B c') by (intro; apply Nc; right; assumption). apply dset_other. intro; apply Nc; left; congruence.
    + intros c' [<-|I].
      * exists u, col, codes. split; [assumption|]. split; [assumption|]. split; [assumption|]. rewrite (B c NI). apply dset_same.
      * destruct (D c' I) as (u' & col' & codes' & D1 & D2 & D3 & D4). exists u', col', codes'. split; [assumption|]. split; [|split; assumption]. rewrite dset_other in D2; [assumption|]. intro; subst; contradiction.
Qed.
Lemma encode_with_rect encs columns df df' e n : NoDup columns -> rectangular n df -> label_encode df columns (Some encs) = Ok (df', e) -> rectangular n df'.
Proof.
  intros N (ND & R) H. apply encode_with in H; [|assumption]. destruct H as (K & O & D). split; [congruence|]. intros c col I. apply dget_nodup in I; [|congruence].
  destruct (in_dec string_dec c columns) as [J|J].
  - destruct (D c J) as (u & col0 & codes & _ & C0 & T & E). rewrite E in I. injection I as <-. rewrite (transform_length _ _ T). apply (R c). apply dget_In. assumption.
  - rewrite (O c J) in I. apply (R c). apply dget_In. assumption.
Qed.
Lemma transform_value u col codes i v : transform u col = Ok codes -> nth_error col i = Some v -> exists k, nth_error u k = Some v /\ nth_error codes i = Some (CNum (qn k)).
Proof.
  intros T N. destruct (transform_nth _ _ T _ N) as (k & P & C). exists k. split; [|assumption].
  destruct (position_In v u) as (k' & P' & Nk). { destruct (in_dec eq_dec v u) as [I|I]; [assumption|]. apply position_None in I. congruence. } congruence.
Qed.
Lemma numbers_nth row q : numbers row = Ok q -> forall j, nth_error row j = option_map CNum (nth_error q j).
Proof. intro H. apply numbers_spec in H. subst row. intro j. apply nth_error_map. Qed.
