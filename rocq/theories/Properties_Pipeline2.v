(** * Property C132, continued: d_counterfactual after fuzzify *)
From Verif Require Import Prelude M_Fuzzy P_FuzzySet P_FuzzyVar M_Discretize S_Discretize M_Rule S_Rule P_Rule M_FDT S_FDT P_FDT P_FDT2 P_FDT3 P_FDT4 M_FBDT M_ID3 M_Metrics M_Factual S_Factual M_Counterfactual S_Counterfactual P_Counterfactual
  M_Explainer S_Explainer P_Explainer S_FBDT S_FBDT2 P_Entropy Properties_Discretize Properties_FDT Properties_FBDT Properties_FBDT2 Properties_FBDT3 Properties_Explainer M_Neighborhood S_Neighborhood P_Neighborhood P_Neighborhood2 P_Neighborhood3 Properties_Neighborhood
  S_Success P_Success Properties_Success Properties_Success2 S_Pipeline P_Pipeline S_Success2 P_Success2 Properties_Success3 Properties_Pipeline.
From Coq Require Import Reals Lra Ascii.
Local Notation eqb := Prelude.eqb.
Open Scope string_scope.
Open Scope list_scope.
Open Scope Qc_scope.

(** After fuzzify('entropy') the memberships of the instance list variables and sets in order. *)
Theorem C132_fuzzified_follows : forall cut show show_cell inst k s kw s' X y cat vars m,
  fuzzified cut show show_cell inst k s kw s' X y cat -> n_vars (view s') = Ok vars -> n_instance (view s') = Ok m -> follows vars m.
Proof.
  intros cut show show_cell inst k s kw s' X y cat vars m FZ GV GM. assert (FZ' := FZ). destruct FZ' as (H & _).
  destruct (fuzzify_ok cut show show_cell inst k s "entropy" kw H) as (X' & vars' & xm & dec & im & _ & _ & _ & HD & MI & SD & VS & _ & IM).
  assert (E : vars' = vars). { unfold view, get_vars in GV. cbn [n_vars] in GV. rewrite VS in GV. cbn [ret_opt bind] in GV. rewrite all_some_map in GV. injection GV as <-. reflexivity. } subst vars'.
  unfold view, get_instance_membership in GM. cbn [n_instance] in GM. rewrite IM in GM. cbn [ret_opt] in GM. injection GM as <-.
  destruct (fuzzified_ready cut show show_cell inst k s kw s' X y cat dec FZ) as (vars2 & m2 & V1 & _ & _ & V5 & _).
  { unfold view. cbn [n_decoded]. destruct SD as (_ & _ & _ & D4 & _). rewrite D4, HD. reflexivity. }
  rewrite GV in V1. injection V1 as <-. destruct (@dataset_membership_exact _ _ _ V5 MI) as [-> _].
  unfold follows, single, exact_mem, exact_sets. rewrite !map_map. cbn [fst snd]. rewrite <- (map_enumerate (fun v => (fv_name v, map fs_name (fv_sets v)))).
  apply map_ext. intros [i v]. cbn [fst snd]. f_equal. rewrite !map_map. cbn [fst snd]. apply (map_enumerate fs_name).
Qed.
Print Assumptions C132_fuzzified_follows.
(** and if float() reads what str() printed, the continuous indices are numerical columns with a non-zero deviation, and discrete is not empty unless all columns are
    continuous, every distance is defined. *)
Theorem C132_fuzzified_measurable : forall cut show show_cell inst k s kw s' X y cat vars dec co di mad parse,
  fuzzified cut show show_cell inst k s kw s' X y cat -> n_vars (view s') = Ok vars -> n_decoded (view s') = Ok dec ->
  (forall q, parse (show q) = Ok q) ->
  (forall i c, nth_error (tb_cols X) i = Some c -> In i co -> ~ In c cat /\ exists w, dget i mad = Some w /\ w <> 0) ->
  (forall i, (i < List.length (tb_cols X))%nat -> ~ In i co -> di <> []) ->
  measurable vars dec co di mad parse.
Proof.
  intros cut show show_cell inst k s kw s' X y cat vars dec co di mad parse FZ GV HD PS HC HN.
  destruct (fuzzified_vars _ _ _ _ _ _ _ _ _ _ _ vars FZ GV) as (num & VO & _ & _). assert (W := fuzzified_wide _ _ _ _ _ _ _ _ _ _ _ FZ).
  destruct (fuzzified_ready _ _ _ _ _ _ _ _ _ _ _ dec FZ HD) as (vars' & m & V1 & _ & _ & _ & NE & RD & _). rewrite GV in V1. injection V1 as <-.
  split.
  - intros i v Hv I. assert (Hc : nth_error (tb_cols X) i = Some (fv_name v)) by (rewrite <- (proj1 VO); apply map_nth_error; assumption). destruct (HC i _ Hc I) as [NC M].
    destruct (@variables_nth _ _ _ _ _ _ _ _ VO W Hv) as (col & C & _). destruct (proj2 VO i v col Hv C) as [_ V2]. destruct (V2 NC) as (_ & qs & f & rest & sets & _ & _ & _ & _ & ES & E).
    split; [|split; [assumption|]].
    + assert (N := NE v (nth_error_In _ _ Hv)). rewrite E in N. destruct sets as [|c0 sets]; [exfalso; apply N; reflexivity|]. destruct (RD dec (or_introl eq_refl) i v (FC c0) Hv) as (x & d & Hx & Mx); [rewrite E; left; reflexivity|].
      destruct x as [q|t]; [eauto|]. exfalso. cbn in Mx. destruct (valid_points _ _ _); discriminate.
    + intros st Is. rewrite E in Is. apply in_map_iff in Is. destruct Is as (c & <- & Ic). cbn [fs_name].
      assert (NM : In (c_name c) (map show (f :: rest))).
      { destruct rest as [|g rest]; [cbn in ES; injection ES as <-; destruct Ic as [<-|[]]; left; reflexivity|]. set (d := zip (map show (f :: g :: rest)) (f :: g :: rest)) in *.
        assert (LD : (2 <= List.length d)%nat) by (unfold d; cbn; lia). destruct (@C03_sets "point_set" d LD) as (sets' & E' & LS & N). rewrite ES in E'. injection E' as <-.
        apply In_nth_error in Ic. destruct Ic as [j Hj]. assert (Lj : (j < List.length d)%nat) by (rewrite <- LS; apply nth_error_Some; congruence). destruct (nth_error d j) as [[n p]|] eqn:Ed; [|apply nth_error_None in Ed; lia].
        destruct (N j n p Ed) as (c' & Hc' & Nc & _). rewrite Hj in Hc'. injection Hc' as <-. rewrite Nc. apply nth_zip in Ed. destruct Ed as [Ed _]. exact (nth_error_In _ _ Ed). }
      apply in_map_iff in NM. destruct NM as (q & <- & _). exists q. apply PS.
  - intros i L NI. apply (HN i); [|assumption]. rewrite <- (proj1 VO), map_length. assumption.
Qed.
Print Assumptions C132_fuzzified_measurable.

(** The whole pipeline with d_counterfactual: as C131_fdt_succeeds. *)
Theorem C132_pipeline : forall cut show show_cell inst k s kw s' X y cat ord same parse mixed e a dec vars b co di mad,
  fuzzified cut show show_cell inst k s kw s' X y cat -> n_decoded (view s') = Ok dec -> n_vars (view s') = Ok vars ->
  a_nb a = view s' -> a_instance a = [dec] -> (forall p l, Permutation (ord p l) l) -> (forall th, k_threshold (a_kw a) = Some th -> (0 < th)%R) ->
  (forall i c, nth_error (tb_cols X) i = Some c -> In c (a_num a) -> two_values X i) ->
  a_counterfactual a = "d_counterfactual" -> k_cont (a_kw a) = Some co -> k_disc (a_kw a) = Some di -> k_mad (a_kw a) = Some mad ->
  (k_dist (a_kw a) = None \/ k_dist (a_kw a) = Some "moth") -> (forall q, parse (show q) = Ok q) ->
  (forall i c, nth_error (tb_cols X) i = Some c -> In i co -> ~ In c cat /\ exists w, dget i mad = Some w /\ w <> 0) ->
  (forall i, (i < List.length (tb_cols X))%nat -> ~ In i co -> di <> []) ->
  valid_arguments (a_instance a) (a_factual a) (a_counterfactual a) (a_kw a) -> accepted_d (a_kw a) (a_factual a) -> scorable y ->
  let cfg := fdt_config vars (a_kw a) in
  ~ limit_met cfg (tb_rows X) y [] -> (b < List.length vars)%nat -> (f_threshold cfg <= info_gain vars (tb_rows X) y [] b)%R ->
  (forall row, In row (tb_rows X) -> row_among vars row) ->
  (a_factual a <> "mr_factual" -> row_among vars dec /\
     forall t, fit cfg ord fresh_root (tb_rows X) y = Ok t -> (List.length (leaves t) * List.length (zunique y) < 500)%nat) ->
  exists e', fdt_fit ord same parse mixed e a = (e', None).
Proof.
  intros cut show show_cell inst k s kw s' X y cat ord same parse mixed e a dec vars b co di mad FZ HD GV NB HI HO TH NUM CD Kc Kd Km KD PS HC HN VA AC SC cfg NL Lb G RA IA.
  destruct (C131_fdt_prepared cut show show_cell inst k s kw s' X y cat ord a dec FZ HD NB HI HO TH NUM) as (vars' & m & GV' & P). rewrite GV in GV'. injection GV' as <-.
  assert (CE : List.concat (a_instance a) = dec) by (rewrite HI; cbn; apply app_nil_r).
  assert (GM : n_instance (view s') = Ok m) by (rewrite <- NB; apply P).
  apply (C132_succeeds ord same parse mixed e a vars m (tb_rows X) y dec co di mad (qc 1 2) b P); try assumption.
  - exact (C132_fuzzified_follows _ _ _ _ _ _ _ _ _ _ _ _ _ FZ GV GM).
  - rewrite NB. assumption.
  - exact (C132_fuzzified_measurable _ _ _ _ _ _ _ _ _ _ _ _ _ _ _ _ _ FZ GV HD PS HC HN).
  - intros row I. exists (qc 1 2). split; [reflexivity|]. apply (C131_half cut show show_cell inst k s kw s' X y cat vars row FZ GV (RA row I)).
  - intro N. destruct (IA N) as [AD LT]. rewrite CE. split; [apply (C131_half cut show show_cell inst k s kw s' X y cat vars dec FZ GV AD)|].
    intros t FT. specialize (LT t FT). rewrite <- qn_mult. assert (Q : qz 1000 * qc 1 2 = qn 500) by qex. rewrite Q. apply qn_lt_iff. assumption.
Qed.
Print Assumptions C132_pipeline.

(** *** a reader for the printer of Properties_Pipeline, and its table with d_counterfactual *)
Fixpoint read_pos (s : string) : option (positive * string) :=
  match s with
  | String "e" r => Some (xH, r)
  | String "0" r => match read_pos r with Some (p, r') => Some (xO p, r') | None => None end
  | String "1" r => match read_pos r with Some (p, r') => Some (xI p, r') | None => None end
  | _ => None
  end.
Definition read_num (s : string) : res Qc :=
  match s with
  | String "z" r => match read_pos r with Some (d, _) => Ok (Q2Qc (0 # d)) | None => Err ValueError end
  | String "+" r => match read_pos r with Some (n, r') => match read_pos r' with Some (d, _) => Ok (Q2Qc (Zpos n # d)) | None => Err ValueError end | None => Err ValueError end
  | String "-" r => match read_pos r with Some (n, r') => match read_pos r' with Some (d, _) => Ok (Q2Qc (Zneg n # d)) | None => Err ValueError end | None => Err ValueError end
  | _ => Err ValueError
  end.
Lemma read_show_pos p : forall r, read_pos (show_pos p r) = Some (p, r).
Proof. induction p as [p IH|p IH|]; intro r; cbn; rewrite ?IH; reflexivity. Qed.
Lemma read_show q : read_num (show_num q) = Ok q.
Proof.
  assert (C : forall n d, this q = (n # d)%Q -> Q2Qc (n # d) = q) by (intros n d E; apply Qc_is_canon; rewrite E; cbn [this Q2Qc]; apply Qred_correct).
  unfold show_num. destruct (this q) as [n d] eqn:E. cbn [Qnum Qden]. destruct n; cbn [show_z read_num]; rewrite ?read_show_pos; apply (f_equal (@Ok _)), C; reflexivity.
Qed.
Definition pl_dkw : kwargs := mkK None None None None None (Some [0%nat]) (Some [1%nat]) (Some [(0%nat, qz 2)]) None [].
Definition pl_dcall (s' : nbhd) : fdt_args := mkFA [[CNum 1; CStr "a"]] [0%Z] (view s') ["x"] "m_factual" "d_counterfactual" pl_dkw.
Example C132_pipeline_instance : forall k, exists s',
  fuzzified no_cut show_num show_val [CNum 1; CStr "a"] k (pl_s k) (ex_args ["x"] ["c"]) s' ex2_table [0; 1]%Z ["c"] /\
  exists e', fdt_fit same_order (fun _ _ _ => true) read_num (fun _ _ _ _ _ => Err AttributeError) new_explainer (pl_dcall s') = (e', None).
Proof.
  intro k. destruct (pl_fuzzified k) as (s' & vars & FZ & HD & GV). destruct (pl_vars k s' vars FZ GV) as (v & -> & LV). exists s'. assert (RA := pl_among v s' k FZ GV).
  split; [exact FZ|].
  assert (TH : forall th, k_threshold pl_dkw = Some th -> (0 < th)%R) by (intros th E; discriminate).
  apply (C132_pipeline no_cut show_num show_val [CNum 1; CStr "a"] k (pl_s k) (ex_args ["x"] ["c"]) s' ex2_table [0; 1]%Z ["c"] same_order (fun _ _ _ => true) read_num _ new_explainer (pl_dcall s') [CNum 1; CStr "a"] [pl_x; v] 0 [0%nat] [1%nat] [(0%nat, qz 2)]); try assumption; try reflexivity.
  - intros i c Hi [<-|[]]. destruct i as [|[|i]]; [|discriminate|destruct i; discriminate]. exists [CNum 1; CStr "a"], [CNum (qz 3); CStr "b"]. split; [left; reflexivity|]. split; [right; left; reflexivity|discriminate].
  - left. reflexivity.
  - exact read_show.
  - intros i c Hi [<-|[]]. injection Hi as <-. split; [intros [Q|[]]; discriminate|]. exists (qz 2). split; [reflexivity|discriminate].
  - discriminate.
  - split; [exists [CNum 1; CStr "a"], (CNum 1); split; left; reflexivity|]. split; [left; reflexivity|]. split; [discriminate|right; right; left; reflexivity].
  - split; [reflexivity|]. intros _. split; reflexivity.
  - intros _. right. left. reflexivity.
  - intros [Q|[Q|Q]].
    + assert (Z : 0%Z = 1%Z) by (apply Q; [left; reflexivity|right; left; reflexivity]). discriminate.
    + vm_compute in Q. discriminate.
    + vm_compute in Q. apply Q. reflexivity.
  - cbn. lia.
  - unfold info_gain. change (acts [pl_x; v] (tb_rows ex2_table) []) with [1; 1]. assert (E0 : acts [pl_x; v] (tb_rows ex2_table) ([] ++ [(0%nat, 0%nat)]) = [1; 0]) by qex. assert (E1 : acts [pl_x; v] (tb_rows ex2_table) ([] ++ [(0%nat, 1%nat)]) = [0; 1]) by qex.
    rewrite entropy_two by discriminate. change (match nth_error [pl_x; v] 0 with Some v0 => List.length (fv_sets v0) | None => 0%nat end) with 2%nat. cbn [seq map rsum fold_right]. rewrite E0, E1, !entropy_pure by (auto; qlra).
    cbn. unfold Rdiv. rewrite !Rmult_0_r, !Rplus_0_l, Rmult_0_l. lra.
  - intros _. split; [apply RA; left; reflexivity|]. intros t FT. cbn [a_kw pl_dcall] in FT.
    destruct (fuzzified_ready _ _ _ _ _ _ _ _ _ _ _ _ FZ HD) as (vars' & m & V1 & _ & _ & V5 & V6 & _). rewrite GV in V1. injection V1 as <-.
    assert (T : trained (fdt_config [pl_x; v] pl_dkw) same_order (tb_rows ex2_table) [0; 1]%Z t) by (split; [intros; apply Permutation_refl|]; split; [assumption|]; split; [left; cbn; lra|assumption]).
    destruct (C129_leaf_count _ _ _ _ _ 2 T ltac:(lia)) as [LC _]; [intros w [<-|[<-|[]]]; [cbn; lia|rewrite LV; lia]|]. cbn in LC. change (List.length (zunique [0; 1]%Z)) with 2%nat. lia.
Qed.
