(** * Proofs: when FDTExplainer.fit with d_counterfactual succeeds *)
From Verif Require Import Prelude M_Fuzzy M_Discretize M_Rule S_Rule P_Rule M_FDT S_FDT P_FDT P_FDT2 P_FDT3 M_Metrics M_Factual S_Factual P_Factual
  M_Counterfactual S_Counterfactual P_Counterfactual M_Explainer S_Explainer P_Explainer P_FuzzyVar S_Success P_Success S_Success2.
Set Implicit Arguments.
Open Scope Qc_scope.
Local Notation eqb := Prelude.eqb.

Lemma row_applied_keys r f row row' : row_applied r f row row' -> map fst row' = map fst row.
Proof. intros [[-> _]|(v & _ & _ & ->)]; [reflexivity|]. unfold crisp_row. rewrite map_map. reflexivity. Qed.
Lemma applied_keys r m m' : applied r m m' -> map (fun fr => (fst fr, map fst (snd fr))) m' = map (fun fr => (fst fr, map fst (snd fr))) m.
Proof. intro A. induction A as [|x x' l l' [H1 H2] A IH]; [reflexivity|]. destruct x as [f row], x' as [f' row']. cbn [map fst snd] in *. rewrite IH, H1, (row_applied_keys H2). reflexivity. Qed.
Lemma strongest_key row s : strongest_set row = Ok s -> In s (map fst row).
Proof. intro E. apply strongest_iff in E. destruct E as (l1 & d & l2 & -> & _). rewrite map_app. apply in_or_app. right. left. reflexivity. Qed.
(** moth is defined on two rows when each continuous position has numbers and a deviation, and discrete is not empty if needed *)
Lemma moth_ok a b co di mad :
  (forall i x x', nth_error (zip a b) i = Some (x, x') -> In i co -> (exists q, x = CNum q) /\ (exists q, x' = CNum q) /\ exists w, dget i mad = Some w /\ w <> 0) ->
  (forall i p, nth_error (zip a b) i = Some p -> ~ In i co -> di <> []) -> exists d, moth a b co di mad = Ok d.
Proof.
  intros HC HD. unfold moth.
  set (step := fun (acc : Qc * nat) (ip : nat * (cell * cell)) => let '(i, (x, x')) := ip in if memb i co then do d <- cell_diff x x'; if qeqb d 0 then Ok acc else do m <- ret_opt KeyError (dget i mad); do q <- pdiv d m; Ok (fst acc + q, snd acc) else Ok (fst acc, (snd acc + neq_cell x x')%nat)).
  assert (G : forall l, (forall i x x', In (i, (x, x')) l -> nth_error (zip a b) i = Some (x, x')) -> forall acc, (fst acc <> 0 -> co <> []) -> (snd acc <> 0%nat -> di <> []) ->
    exists acc', foldM step acc l = Ok acc' /\ (fst acc' <> 0 -> co <> []) /\ (snd acc' <> 0%nat -> di <> [])).
  { induction l as [|[i [x x']] l IH]; intros HL acc A1 A2; cbn [foldM]; [eauto|].
    assert (N := HL i x x' (or_introl eq_refl)). assert (HL' : forall i x x', In (i, (x, x')) l -> nth_error (zip a b) i = Some (x, x')) by (intros; apply HL; right; assumption).
    assert (ST : exists acc', step acc (i, (x, x')) = Ok acc' /\ (fst acc' <> 0 -> co <> []) /\ (snd acc' <> 0%nat -> di <> [])).
    { unfold step. destruct (memb i co) eqn:M.
      - assert (I := proj1 (@memb_In _ _ i co) M). destruct (HC i x x' N I) as ((q & ->) & (q' & ->) & w & W & NZ). cbn [cell_diff bind]. destruct (qeqb (qabs (q - q')) 0); [eauto|]. rewrite W. cbn [ret_opt bind]. unfold pdiv.
        destruct (qeqb w 0) eqn:Z; [apply qeqb_eq in Z; contradiction|]. cbn [bind]. eexists. split; [reflexivity|]. cbn [fst snd]. split; [|assumption]. intros _ ->. destruct I.
      - eexists. split; [reflexivity|]. cbn [fst snd]. split; [assumption|]. intros _. apply (HD i (x, x') N). intro I. rewrite (proj2 (@memb_In _ _ i co) I) in M. discriminate. }
    destruct ST as (acc' & -> & B1 & B2). cbn [bind]. apply IH; assumption. }
  destruct (G (enumerate (zip a b))) with (acc := (0, 0%nat)) as ([cs ds] & -> & B1 & B2); cbn [fst snd] in *; try congruence.
  - intros i x x' I. apply enumerate_In in I. exact I.
  - cbn [bind fst snd]. assert (CN : exists c, (if qeqb cs 0 then Ok 0 else pdiv cs (qn (List.length co))) = Ok c).
    { destruct (qeqb cs 0) eqn:Z; [eauto|]. assert (NZ : cs <> 0) by (intro; subst; rewrite (proj2 (qeqb_eq 0 0) eq_refl) in Z; discriminate). apply B1 in NZ. unfold pdiv. destruct (qeqb (qn (List.length co)) 0) eqn:Y; [|eauto]. apply qeqb_eq in Y. exfalso.
      destruct co as [|k co']; [congruence|]. assert (P := @qn_pos (List.length (k :: co')) ltac:(cbn; lia)). rewrite Y in P. revert P. clear. intro P. qlra. }
    destruct CN as [c0 ->]. cbn [bind]. assert (DN : exists c, (if Nat.eqb ds 0 then Ok 0 else pdiv (qn ds) (qn (List.length di))) = Ok c).
    { destruct (Nat.eqb ds 0) eqn:Z; [eauto|]. apply Nat.eqb_neq in Z. apply B2 in Z. unfold pdiv. destruct (qeqb (qn (List.length di)) 0) eqn:Y; [|eauto]. apply qeqb_eq in Y. exfalso.
      destruct di as [|k di']; [congruence|]. assert (P := @qn_pos (List.length (k :: di')) ltac:(cbn; lia)). rewrite Y in P. revert P. clear. intro P. qlra. }
    destruct DN as [d0 ->]. cbn [bind]. eauto.
Qed.
Lemma mapM_ok_nth A B (f : A -> res B) l ys : mapM f l = Ok ys -> forall i y, nth_error ys i = Some y -> exists x, nth_error l i = Some x /\ f x = Ok y.
Proof.
  revert ys. induction l as [|x l IH]; intros ys E i y N; cbn [mapM] in E; [injection E as <-; destruct i; discriminate|].
  destruct (f x) as [y0|] eqn:F; cbn [bind] in E; [|discriminate]. destruct (mapM f l) as [ys0|] eqn:M; cbn [bind] in E; [|discriminate]. injection E as <-.
  destruct i as [|i]; cbn [nth_error] in *; [injection N as <-; eauto|]. apply (IH ys0 eq_refl i y N).
Qed.
Lemma nth_zip A B (a : list A) (b : list B) i x y : nth_error (zip a b) i = Some (x, y) -> nth_error a i = Some x /\ nth_error b i = Some y.
Proof.
  revert b i. induction a as [|x0 a IH]; intros [|y0 b] [|i] E; cbn in *; try discriminate; [injection E as <- <-; auto|]. apply IH. assumption.
Qed.
Lemma d_counterfactual_by_ok vars decoded co di mad parse m rules c : proper m -> follows vars m -> measurable vars decoded co di mad parse -> rules <> [] -> (forall r, In r rules -> r_ant r <> []) ->
  exists o, d_counterfactual_by (fun cells => moth decoded cells co di mad) parse m rules c co = Ok o.
Proof.
  intros PM FO [M1 M2] RN NA. unfold d_counterfactual_by.
  match goal with |- exists o, bind (mapM ?f ?l) _ = _ => destruct (@mapM_ok_ex _ _ f l) as [cfs EC] end; [|rewrite EC; cbn [bind]; apply search_ok; assumption].
  intros r _. pose proof PM as [ND H]. destruct (@apply_gen r m) as (m' & ch & E & A & _); [intros f row I; apply (H f row I)|assumption|]. rewrite E. cbn [bind fst].
  assert (K := applied_keys A). rewrite FO in K.
  assert (NM : exists names, mapM (fun fr : string * dict string Qc => strongest_set (snd fr)) m' = Ok names).
  { apply mapM_ok_ex. intros [f row] I. cbn [snd]. assert (NE : row <> []).
    { intros ->. clear - A H I. induction A as [|x x' l l' [Q1 Q2] A IH]; [destruct I|]. destruct I as [->|I]; [|apply IH; [intros f0 row0 I0; apply (H f0 row0); right; assumption|assumption]]. cbn [fst snd] in *.
      apply row_applied_keys in Q2. cbn [map] in Q2. destruct x as [g rw]. cbn [snd] in Q2. destruct (H g rw (or_introl eq_refl)) as [N _]. destruct rw; [congruence|discriminate]. }
    destruct (strongest_ex NE) as [s Q]. exists s. apply strongest_iff. assumption. }
  destruct NM as [names NM]. rewrite NM. cbn [bind].
  assert (NS : forall i n, nth_error names i = Some n -> exists v s, nth_error vars i = Some v /\ In s (fv_sets v) /\ fs_name s = n).
  { intros i n N. destruct (mapM_ok_nth _ _ NM i N) as ([f row] & Hm & Q). cbn [snd] in Q. apply strongest_key in Q.
    assert (T : nth_error (map (fun fr : string * dict string Qc => (fst fr, map fst (snd fr))) m') i = Some (f, map fst row)) by (erewrite map_nth_error by exact Hm; reflexivity).
    change (nth_error (map (fun fr : string * list (string * Qc) => (fst fr, map fst (snd fr))) m') i = Some (f, map fst row)) in T. rewrite K, nth_error_map in T. destruct (nth_error vars i) as [v|] eqn:Hv; [|discriminate]. injection T as _ T. rewrite <- T in Q. apply in_map_iff in Q. destruct Q as (s & Q1 & Q2). eauto. }
  match goal with |- context[bind (mapM ?f ?l) _] => assert (CE : exists cells, mapM f l = Ok cells) end.
  { apply mapM_ok_ex. intros [i n] I. cbn [fst snd]. apply enumerate_In in I. destruct (memb i co) eqn:MB; [|eauto]. assert (J := proj1 (@memb_In _ _ i co) MB).
    destruct (NS i n I) as (v & s & Hv & Hs & <-). destruct (M1 i v Hv J) as (_ & _ & P). destruct (P s Hs) as [q ->]. cbn [bind]. eauto. }
  destruct CE as [cells CE]. rewrite CE. cbn [bind].
  assert (CS : forall i x, nth_error cells i = Some x -> (i < List.length vars)%nat /\ (In i co -> exists q, x = CNum q)).
  { intros i x N. destruct (mapM_ok_nth _ _ CE i N) as ([j n] & Hj & Q). cbn [fst snd] in Q. assert (ij : j = i /\ nth_error names i = Some n).
    { clear - Hj. revert Hj. unfold enumerate. intro Hj. apply nth_zip in Hj. destruct Hj as [Hj Hn]. split; [|assumption]. assert (L : (i < List.length names)%nat) by (apply nth_error_Some; congruence).
      clear Hn. rewrite (nth_error_nth' _ 0%nat) in Hj by (rewrite seq_length; assumption). rewrite seq_nth in Hj by assumption. injection Hj as <-. reflexivity. }
    destruct ij as [-> Hn]. destruct (NS i n Hn) as (v & s & Hv & _). split; [apply nth_error_Some; congruence|]. intro I. rewrite (proj2 (@memb_In _ _ i co) I) in Q. destruct (parse n) as [q|]; cbn [bind] in Q; [|discriminate]. injection Q as <-. eauto. }
  destruct (@moth_ok decoded cells co di mad) as [d ->]; [| |cbn [bind]; eauto].
  - intros i x x' N I. apply nth_zip in N. destruct N as [N1 N2]. destruct (CS i x' N2) as [L Q]. destruct (nth_error vars i) as [v|] eqn:Hv; [|apply nth_error_None in Hv; lia].
    destruct (M1 i v Hv I) as ((q & D) & W & _). split; [|split; [auto|assumption]]. rewrite N1 in D. injection D as ->. eauto.
  - intros i [x x'] N NI. apply nth_zip in N. destruct N as [_ N2]. destruct (CS i x' N2) as [L _]. apply (M2 i L NI).
Qed.
