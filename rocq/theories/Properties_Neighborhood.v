(** * Properties C62, C63, C83: neighbourhoods *)
From Verif Require Import Prelude M_Fuzzy M_Discretize P_Discretize M_Rule S_Rule M_FDT S_FDT P_FDT3 M_Counterfactual S_Counterfactual P_Counterfactual M_Explainer S_Explainer P_Explainer
  M_Neighborhood S_Neighborhood P_Neighborhood P_Neighborhood2 P_Neighborhood3 Properties_FDT Properties_Explainer.
From Coq Require Import Reals.
Open Scope string_scope.
Open Scope list_scope.
Open Scope Qc_scope.

(** ** C62 *)
(** After any series of fit and fuzzify operations, of which any may have raised, get_X raises NotFittedError while no fit produced a table, and
    otherwise returns the table of the last fit that did; get_y likewise with predictions. *)
Theorem C62_get_X : forall cut show show_cell inst k ops,
  let s := history cut show show_cell inst k ops in
  (get_X s = Err NotFitted /\ forall o X, In (Fit o) ops -> ~ makes_X o X) \/
  (exists l1 o l2 X, ops = l1 ++ Fit o :: l2 /\ makes_X o X /\ (forall o' X', In (Fit o') l2 -> ~ makes_X o' X') /\ get_X s = Ok X).
Proof.
  intros. unfold s, get_X. rewrite history_X. destruct (last_some_spec _ _ op_X ops) as [[H1 H2]|(l1 & a & l2 & b & S & H2 & H3 & H4)].
  - left. rewrite H1. split; [reflexivity|]. intros o X I M. apply X_of_spec in M. specialize (H2 _ I). cbn in H2. congruence.
  - right. destruct a as [o|]; [|discriminate]. exists l1, o, l2, b. rewrite H4. split; [assumption|]. split; [apply X_of_spec; assumption|]. split; [|reflexivity].
    intros o' X' I M. apply X_of_spec in M. specialize (H3 _ I). cbn in H3. congruence.
Qed.
Print Assumptions C62_get_X.
Theorem C62_get_y : forall cut show show_cell inst k ops,
  let s := history cut show show_cell inst k ops in
  (get_y s = Err NotFitted /\ forall o y, In (Fit o) ops -> ~ makes_y o y) \/
  (exists l1 o l2 y, ops = l1 ++ Fit o :: l2 /\ makes_y o y /\ (forall o' y', In (Fit o') l2 -> ~ makes_y o' y') /\ get_y s = Ok y).
Proof.
  intros. unfold s, get_y. rewrite history_y. destruct (last_some_spec _ _ op_y ops) as [[H1 H2]|(l1 & a & l2 & b & S & H2 & H3 & H4)].
  - left. rewrite H1. split; [reflexivity|]. intros o X I M. apply y_of_spec in M. specialize (H2 _ I). cbn in H2. congruence.
  - right. destruct a as [o|]; [|discriminate]. exists l1, o, l2, b. rewrite H4. split; [assumption|]. split; [apply y_of_spec; assumption|]. split; [|reflexivity].
    intros o' X' I M. apply y_of_spec in M. specialize (H3 _ I). cbn in H3. congruence.
Qed.
Print Assumptions C62_get_y.
(** fuzzify before a fit that got as far as predictions raises NotFittedError and changes nothing *)
Theorem C62_fuzzify_needs_fit : forall cut show show_cell inst k ops division kw,
  let s := history cut show show_cell inst k ops in
  (forall o y, In (Fit o) ops -> ~ makes_y o y) -> (k = Sampling -> z_inst kw = None) ->
  fuzzify_of cut show show_cell inst k s division kw = (s, Some NotFitted).
Proof.
  intros cut show show_cell inst k ops division kw s H HK. apply fuzzify_err; [assumption|].
  assert (Y : nb_y s = None).
  { destruct (C62_get_y cut show show_cell inst k ops) as [[E _]|(l1 & o & l2 & y & S & M & _)].
    - fold s in E. unfold get_y in E. destruct (nb_y s); [discriminate|reflexivity].
    - exfalso. apply (H o y); [rewrite S; apply in_or_app; right; left; reflexivity|assumption]. }
  unfold fuzzy_vars. rewrite Y. destruct (nb_X s); reflexivity.
Qed.
Print Assumptions C62_fuzzify_needs_fit.
(** on a fitted neighbourhood wrong arguments raise and change nothing: a missing number of sets, missing column lists, the documented argument
    verbose, no numerical column, an unknown method, and for sampling neighbourhoods instance_membership *)
Theorem C62_argument_errors : forall cut show show_cell inst k ops division kw X y,
  let s := history cut show show_cell inst k ops in
  fitted_with s X y ->
  let gives e := fuzzify_of cut show show_cell inst k s division kw = (s, Some e) in
  let sets_given := division = "equal_width" \/ division = "equal_freq" -> z_sets kw <> None in
  (k = Sampling -> z_inst kw <> None -> gives TypeError) /\
  ((k = Sampling -> z_inst kw = None) ->
     (~ sets_given -> gives ValueError) /\
     (z_num kw = None \/ z_cat kw = None -> gives ValueError) /\
     (forall num cat, z_num kw = Some num -> z_cat kw = Some cat -> sets_given ->
        (forall c, In c num -> exists qs, tb_column X c = Ok (map CNum qs)) ->
        (z_verbose kw = true -> gives TypeError) /\
        (z_verbose kw = false -> num = [] \/ List.length (tb_rows X) <> List.length y \/ ~ In division ["equal_width"; "equal_freq"; "entropy"] -> gives ValueError))).
Proof.
  intros cut show show_cell inst k ops division kw X y s [FX FY] gives sets_given.
  assert (HX : nb_X s = Some X) by (unfold get_X in FX; destruct (nb_X s); [injection FX as ->; reflexivity|discriminate]).
  assert (HY : nb_y s = Some y) by (unfold get_y in FY; destruct (nb_y s); [injection FY as ->; reflexivity|discriminate]).
  assert (HXY : nb_Xy s = true) by (apply (history_Xy cut show show_cell inst k ops); fold s; congruence).
  assert (SG : sets_given <-> (eqb division "equal_width" || eqb division "equal_freq") && negb (given (z_sets kw)) = false).
  { unfold sets_given, eqb. destruct (eq_dec division "equal_width") as [->|N1]; [|destruct (eq_dec division "equal_freq") as [->|N2]]; cbn [orb andb].
    - destruct (z_sets kw); cbn; split; try congruence; try reflexivity. intro H. exfalso. apply H; auto.
    - destruct (z_sets kw); cbn; split; try congruence; try reflexivity. intro H. exfalso. apply H; auto.
    - split; [reflexivity|]. intros _ [?|?]; contradiction. }
  split.
  - intros -> Z. unfold gives. cbn [fuzzify_of]. unfold sampling_fuzzify. destruct (z_inst kw); [reflexivity|congruence].
  - intro HK. split; [|split].
    + intro N. unfold gives. apply fuzzify_err; [assumption|]. unfold fuzzy_vars. rewrite HX, HY, HXY. match goal with |- (if ?b then _ else _) = _ => destruct b eqn:B; [reflexivity|] end. exfalso. apply N, SG. reflexivity.
    + intro N. unfold gives. apply fuzzify_err; [assumption|]. unfold fuzzy_vars. rewrite HX, HY, HXY. match goal with |- (if ?b then _ else _) = _ => destruct b; [reflexivity|] end.
      destruct N as [N|N]; rewrite N; [reflexivity|]. destruct (z_num kw); reflexivity.
    + intros num cat HN HC HS HQ. assert (EC : exists cols, mapM (fun c => do col <- tb_column X c; do q <- numbers col; Ok (c, q)) num = Ok cols).
      { apply P_FuzzyVar.mapM_total. intros c I. destruct (HQ c I) as [qs ->]. cbn [bind]. destruct (numbers_ok (map CNum qs)) as [q ->]; [|cbn [bind]; eauto]. intros x J. apply in_map_iff in J. destruct J as (q & <- & _). eauto. }
      destruct EC as [cols EC]. assert (LC : List.length cols = List.length num) by (eapply mapM_length; exact EC). split; intros HV.
      * unfold gives. apply fuzzify_err; [assumption|]. unfold fuzzy_vars. rewrite HX, HY, HXY, (proj1 SG HS), HN, HC, EC, HV. reflexivity.
      * intro W. unfold gives. apply fuzzify_err; [assumption|]. unfold fuzzy_vars. rewrite HX, HY, HXY, (proj1 SG HS), HN, HC, EC, HV. cbn [bind].
        assert (G : forall sets th pv, get_fuzzy_points cut division cols (List.length (tb_rows X)) y sets th pv = Err ValueError).
        { intros. unfold get_fuzzy_points. destruct W as [->|[W|W]].
          - destruct cols; [reflexivity|discriminate].
          - apply Nat.eqb_neq in W. rewrite W. cbn [negb]. rewrite orb_true_r. reflexivity.
          - match goal with |- (if ?b then _ else _) = _ => destruct b; [reflexivity|] end. replace (memb division ["equal_freq"; "equal_width"; "entropy"]) with false; [reflexivity|].
            symmetry. destruct (memb division ["equal_freq"; "equal_width"; "entropy"]) eqn:M; [|reflexivity]. exfalso. apply W. apply memb_In in M. cbn in M |- *. tauto. }
        rewrite G. reflexivity.
Qed.
Print Assumptions C62_argument_errors.
(** fit never touches the fuzzy variables and memberships, so those of earlier data stay *)
Theorem C62_fit_keeps_memberships : forall k s o,
  get_X_membership (fst (fit_of k s o)) = get_X_membership s /\ get_instance_membership (fst (fit_of k s o)) = get_instance_membership s /\
  get_vars (fst (fit_of k s o)) = get_vars s.
Proof. intros k s o. destruct (fit_fuzzy k s o) as (A & B & C). unfold get_X_membership, get_instance_membership, get_vars. rewrite A, B, C. auto. Qed.
Print Assumptions C62_fit_keeps_memberships.
(** a successful fuzzify: one variable per column, the membership of the current table and of the decoded instance *)
Theorem C62_successful_fuzzify : forall cut show show_cell inst k s division kw s',
  fuzzify_of cut show show_cell inst k s division kw = (s', None) ->
  exists X y vars xm dec im, fitted_with s X y /\ fitted_with s' X y /\ get_vars s' = Ok (map Some vars) /\
    dataset_membership (tb_rows X) vars = Ok xm /\ get_X_membership s' = Ok xm /\
    nb_decoded s = Some dec /\ dataset_membership [dec] vars = Ok im /\
    get_instance_membership s' = Ok (map (fun fd => (fst fd, map (fun sl => (fst sl, nth 0 (snd sl) 0)) (snd fd))) im).
Proof.
  intros cut show show_cell inst k s division kw s' H. destruct (fuzzify_ok cut show show_cell inst k s division kw H) as (X & vars & xm & dec & im & HX & FV & HM & HD & HI & (D1 & D2 & _) & V & XM & IM).
  destruct (@vars_inv _ _ _ _ _ _ _ _ FV) as (y & _ & _ & _ & _ & _ & _ & HY & _).
  exists X, y, vars, xm, dec, im. unfold fitted_with, get_X, get_y, get_vars, get_X_membership, get_instance_membership. rewrite D1, D2, HX, HY, V, XM, IM. repeat (split; [auto|]). auto.
Qed.
Print Assumptions C62_successful_fuzzify.
(** the membership accessors raise NotFuzzifiedError until some fuzzify computed them; then they hold what that fuzzify computed from the table of
    its time, whatever fits and failing calls came later *)
Theorem C62_X_membership_history : forall cut show show_cell inst k ops,
  let state := history cut show show_cell inst k in
  get_X_membership (state ops) = Err NotFuzzified \/
  exists l1 division kw l2 X vars xm, ops = l1 ++ Fuzzify division kw :: l2 /\ get_X (state l1) = Ok X /\
    get_vars (state (l1 ++ [Fuzzify division kw])) = Ok (map Some vars) /\ dataset_membership (tb_rows X) vars = Ok xm /\
    forall l3 l4, l2 = l3 ++ l4 -> get_X_membership (state (l1 ++ Fuzzify division kw :: l3)) = Ok xm.
Proof.
  intros. unfold state. destruct (history_XM cut show show_cell inst k ops) as [H|(l1 & d & kw & l2 & xm & S & (X & vars & M1 & M2 & M3 & M4) & H)].
  - left. unfold get_X_membership. rewrite H. reflexivity.
  - right. exists l1, d, kw, l2, X, vars, xm. split; [assumption|]. split; [assumption|]. split; [rewrite history_snoc; exact M3|]. split; [assumption|].
    intros l3 l4 E. unfold get_X_membership. rewrite (H l3 l4 E). reflexivity.
Qed.
Print Assumptions C62_X_membership_history.

Definition no_cut : string -> list Qc -> Z -> option (list Qc * Qc) * option (list Qc * Qc) := fun _ _ _ => (None, None).
Definition show_q : Qc -> string := fun _ => "p".
Definition show_c : cell -> string := fun x => match x with CStr t => t | CNum _ => "n" end.
Definition ex_table (vals : list string) : table := mkTb ["x"; "c"] (map (fun v => [CNum 1; CStr v]) vals).
Definition ex_outcome (vals : list string) (y : list Z) : outcome := mkO (Ok [CNum 1; CStr "a"]) (Ok (ex_table vals)) (Ok tt) (Ok (ex_table vals)) (Ok y) (Ok []).
Definition ex_args (num cat : list string) : zargs := mkZ None false (Some num) (Some cat) None None.
Definition ex_history := history no_cut show_q show_c [CNum 1; CNum 0].
Definition ex_xm : xmem := [("x", [("p", [1; 1])]); ("c", [("a", [1; 0]); ("b", [0; 1])])].
(** after a second fit with three rows get_X has three rows and the membership still those of two *)
Theorem C62_stale_membership : exists ops X xm col,
  (forall k, get_X (ex_history k ops) = Ok X /\ get_y (ex_history k ops) = Ok [1; 0; 1]%Z /\ get_X_membership (ex_history k ops) = Ok xm) /\
  List.length (tb_rows X) = 3%nat /\ In ("c", [("a", col); ("b", map (fun d => 1 - d) col)]) xm /\ List.length col = 2%nat.
Proof.
  exists [Fit (ex_outcome ["a"; "b"] [0; 1]%Z); Fuzzify "entropy" (ex_args ["x"] ["c"]); Fit (ex_outcome ["b"; "b"; "a"] [1; 0; 1]%Z)], (ex_table ["b"; "b"; "a"]), ex_xm, [1; 0].
  split; [intros [|]; repeat split; qex|]. split; [reflexivity|]. split; [|reflexivity]. right. left. unfold map. repeat f_equal; qex.
Qed.
Print Assumptions C62_stale_membership.
(** a fuzzify that fails while computing memberships has already replaced the variables: the accessors then disagree *)
Theorem C62_mixed_after_failure : exists ops d kw v, forall k,
  snd (fuzzify_of no_cut show_q show_c [CNum 1; CNum 0] k (ex_history k ops) d kw) = Some AttributeError /\
  (exists vars, get_vars (ex_history k ops) = Ok (map Some vars) /\ dataset_membership (tb_rows (ex_table ["a"; "b"])) vars = Ok ex_xm) /\
  get_vars (ex_history k (ops ++ [Fuzzify d kw])) = Ok [Some v; None] /\ get_X_membership (ex_history k (ops ++ [Fuzzify d kw])) = Ok ex_xm.
Proof.
  exists [Fit (ex_outcome ["a"; "b"] [0; 1]%Z); Fuzzify "entropy" (ex_args ["x"] ["c"])], "entropy", (ex_args ["x"] []), (mkV "x" [FC (mkC "p" 1 1 1 true)]).
  intro k. split; [destruct k; qex|]. split.
  - exists [mkV "x" [FC (mkC "p" 1 1 1 true)]; mkV "c" [FD "a" (CStr "a"); FD "b" (CStr "b")]]. split; [destruct k; qex|qex].
  - split; destruct k; qex.
Qed.
Print Assumptions C62_mixed_after_failure.
Example C62_instance : forall k, snd (fuzzify_of no_cut show_q show_c [CNum 1; CNum 0] k (ex_history k [Fit (ex_outcome ["a"; "b"] [0; 1]%Z)]) "entropy" (ex_args ["x"] ["c"])) = None /\
  fitted_with (ex_history k [Fit (ex_outcome ["a"; "b"] [0; 1]%Z)]) (ex_table ["a"; "b"]) [0; 1]%Z /\ makes_X (ex_outcome ["a"; "b"] [0; 1]%Z) (ex_table ["a"; "b"]) /\ makes_y (ex_outcome ["a"; "b"] [0; 1]%Z) [0; 1]%Z /\
  (forall y, ~ makes_y (mkO (Ok []) (Err ValueError) (Ok tt) (Ok (ex_table [])) (Ok []) (Ok [])) y).
Proof.
  intro k. split; [destruct k; qex|]. split; [destruct k; split; reflexivity|]. assert (M : makes_X (ex_outcome ["a"; "b"] [0; 1]%Z) (ex_table ["a"; "b"])) by (split; [eexists; reflexivity|split; [eexists; reflexivity|split; reflexivity]]).
  split; [assumption|]. split; [eexists; split; [exact M|reflexivity]|]. intros y (X & (_ & (z & Z) & _) & _). discriminate.
Qed.

(** ** C63 *)
(** SimpleNeighborhood: exactly [size] rows, all the instance, and one prediction for each, all equal if the black box treats rows separately; if it
    raises, the rows are set and the predictions are not *)
Theorem C63_copies : forall instance size bb s y, bb (repeat instance size) = Ok y ->
  let s' := fst (simple_fit instance size bb s) in
  snd (simple_fit instance size bb s) = None /\
  (exists X, get_X s' = Ok X /\ List.length (tb_rows X) = size /\ (forall row, In row (tb_rows X) -> row = instance) /\ bb (tb_rows X) = Ok y) /\
  get_y s' = Ok y /\
  (forall f, (forall rows, bb rows = Ok (map f rows)) -> List.length y = size /\ forall c, In c y -> c = f instance).
Proof.
  intros instance size bb s y H. unfold simple_fit. rewrite H. cbn [tryS fst snd]. split; [reflexivity|]. split; [|split; [reflexivity|]].
  - eexists. split; [reflexivity|]. cbn [tb_rows]. split; [apply repeat_length|]. split; [|assumption]. intros row I. apply repeat_spec in I. assumption.
  - intros f F. rewrite F in H. injection H as <-. split; [rewrite map_length; apply repeat_length|]. intros c I. apply in_map_iff in I. destruct I as (row & <- & I). apply repeat_spec in I. congruence.
Qed.
Print Assumptions C63_copies.
Theorem C63_failing_black_box : forall instance size bb s e, bb (repeat instance size) = Err e ->
  let s' := fst (simple_fit instance size bb s) in
  snd (simple_fit instance size bb s) = Some e /\ get_y s' = get_y s /\ exists X, get_X s' = Ok X /\ List.length (tb_rows X) = size /\ forall row, In row (tb_rows X) -> row = instance.
Proof.
  intros instance size bb s e H. unfold simple_fit. rewrite H. cbn [tryS fst snd]. split; [reflexivity|]. split; [reflexivity|]. eexists. split; [reflexivity|]. cbn [tb_rows]. split; [apply repeat_length|]. intros row I. apply repeat_spec in I. assumption.
Qed.
Print Assumptions C63_failing_black_box.
Example C63_instance : exists X, get_X (fst (simple_fit [CNum 1] 3 (fun rows => Ok (map (fun _ => 1%Z) rows)) new_nbhd)) = Ok X /\ tb_rows X = [[CNum 1]; [CNum 1]; [CNum 1]] /\
  get_y (fst (simple_fit [CNum 1] 3 (fun rows => Ok (map (fun _ => 1%Z) rows)) new_nbhd)) = Ok [1; 1; 1]%Z.
Proof. eexists. split; [reflexivity|]. split; reflexivity. Qed.

(** ** C83 *)
(** What a successful fuzzify('entropy') of a table of two or more rows leaves behind: a variable for every column, each listed as numerical or
    categorical, with the sets described by [variables_of]. *)
Theorem C83_variables : forall cut show show_cell inst k s kw s' X,
  fuzzify_of cut show show_cell inst k s "entropy" kw = (s', None) -> get_X s = Ok X -> NoDup (tb_cols X) -> (2 <= List.length (tb_rows X))%nat ->
  exists num cat vars, z_num kw = Some num /\ z_cat kw = Some cat /\ get_vars s' = Ok (map Some vars) /\ variables_of show show_cell X num cat vars.
Proof.
  intros cut show show_cell inst k s kw s' X H GX ND L2. destruct (fuzzify_ok cut show show_cell inst k s "entropy" kw H) as (X' & vars & xm & dec & im & HX & FV & _ & _ & _ & _ & V & _).
  unfold get_X in GX. rewrite HX in GX. injection GX as ->. destruct (@entropy_variables _ _ _ _ _ _ _ FV ND L2) as (num & cat & A & B & C & _). exists num, cat, vars. unfold get_vars. rewrite V. auto.
Qed.
Print Assumptions C83_variables.
(** which numerical columns get a set for each value, and the peaks of the others *)
Theorem C83_peaks : forall cut show show_cell inst k s kw s' X y,
  fuzzify_of cut show show_cell inst k s "entropy" kw = (s', None) -> fitted_with s X y -> NoDup (tb_cols X) -> (2 <= List.length (tb_rows X))%nat ->
  exists cat vars, z_cat kw = Some cat /\ get_vars s' = Ok (map Some vars) /\ peaks_of show X y (or_default None (z_th kw)) cat vars.
Proof.
  intros cut show show_cell inst k s kw s' X y H [GX GY] ND L2. destruct (fuzzify_ok cut show show_cell inst k s "entropy" kw H) as (X' & vars & xm & dec & im & HX & FV & _ & _ & _ & _ & V & _).
  unfold get_X in GX. rewrite HX in GX. injection GX as ->. unfold get_y in GY. destruct (nb_y s) as [y'|] eqn:HY; [|discriminate]. injection GY as ->.
  destruct (@entropy_variables _ _ _ _ _ _ _ FV ND L2) as (num & cat & _ & B & _ & P). exists cat, vars. unfold get_vars. rewrite V. split; [assumption|]. split; [reflexivity|]. apply P. exact HY.
Qed.
Print Assumptions C83_peaks.
(** for every row and column the degrees in the sets of the column's variable lie in [0,1] and add up to one; only a numerical value above all peaks has degree 0
    in every set *)
Theorem C83_degrees : forall cut show show_cell inst k s kw s' X vars cat,
  fuzzify_of cut show show_cell inst k s "entropy" kw = (s', None) -> get_X s = Ok X -> NoDup (tb_cols X) -> (2 <= List.length (tb_rows X))%nat ->
  (forall row, In row (tb_rows X) -> List.length row = List.length (tb_cols X)) -> get_vars s' = Ok (map Some vars) -> z_cat kw = Some cat ->
  forall row i v x, In row (tb_rows X) -> nth_error vars i = Some v -> nth_error row i = Some x ->
  exists ds, Forall2 (fun t d => membership t x = Ok d) (fv_sets v) ds /\ (forall d, In d ds -> 0 <= d /\ d <= 1) /\
    (qsum ds = 1 \/ (qsum ds = 0 /\ ~ In (fv_name v) cat /\ exists q, x = CNum q /\ forall t, In t (fv_sets v) -> exists c, t = FC c /\ pb c < q)).
Proof.
  intros cut show show_cell inst k s kw s' X vars cat H GX ND L2 W GV HC row i v x IR HV HX.
  destruct (C83_variables cut show show_cell inst k s kw s' X H GX ND L2) as (num & cat' & vars' & _ & HC' & GV' & V).
  rewrite HC in HC'. injection HC' as <-. rewrite GV in GV'. injection GV' as E. assert (vars = vars') as <-. { clear -E. revert vars' E. induction vars as [|a l IH]; intros [|b l'] E; try discriminate; [reflexivity|]. injection E as -> E. f_equal. apply IH. assumption. }
  apply In_nth_error in IR. destruct IR as [r IR]. eapply variables_degrees; [exact V| |eassumption|eassumption|eassumption]. intros row' I. rewrite W by assumption. lia.
Qed.
Print Assumptions C83_degrees.
(** if numbers and values print differently the result is fit for an explainer: names identify variables and sets, every variable has a set, and
    the instance membership gives, for the decoded instance, the degree of each set *)
Theorem C83_ready_for_explainer : forall cut show show_cell inst k s kw s' X,
  fuzzify_of cut show show_cell inst k s "entropy" kw = (s', None) -> get_X s = Ok X -> NoDup (tb_cols X) -> (2 <= List.length (tb_rows X))%nat ->
  (forall row, In row (tb_rows X) -> List.length row = List.length (tb_cols X)) -> (forall a b, show a = show b -> a = b) -> (forall a b, show_cell a = show_cell b -> a = b) ->
  exists vars dec m, n_vars (view s') = Ok vars /\ n_decoded (view s') = Ok dec /\ n_instance (view s') = Ok m /\ n_X (view s') = Ok (tb_rows X) /\
    distinct_names vars /\ (forall v, In v vars -> fv_sets v <> []) /\ readable vars [dec] /\ row_membership vars dec m /\ proper m.
Proof.
  intros cut show show_cell inst k s kw s' X H GX ND L2 W IS IC. destruct (fuzzify_ok cut show show_cell inst k s "entropy" kw H) as (X' & vars & xm & dec & im & HX & FV & _ & HD & HI & (D1 & _ & _ & D4 & _) & V & _ & IM).
  unfold get_X in GX. rewrite HX in GX. injection GX as ->. destruct (@entropy_variables _ _ _ _ _ _ _ FV ND L2) as (num & cat & _ & _ & C & _).
  destruct (@variables_distinct show show_cell X num cat vars IS IC ND) as [DN NE]; [destruct (tb_rows X); [cbn in L2; lia|discriminate]|intros row I; rewrite W by assumption; lia|assumption|].
  destruct (@single_membership vars dec im DN NE HI) as (R & RM & P). exists vars, dec, (single im). unfold view; cbn [n_vars n_decoded n_instance n_X]. unfold get_vars, get_X, get_instance_membership. rewrite V, D4, HD, IM, D1, HX. cbn [bind ret_opt]. rewrite all_some_map.
  do 8 (split; [first [assumption|reflexivity]|]). assumption.
Qed.
Print Assumptions C83_ready_for_explainer.
(** The whole pipeline: fit, fuzzify('entropy') and an FDT explainer asked about the decoded instance.  If everything succeeds the explained class has
    the largest support under the tree's rules, the least of these; if it is the only one, the rules predict it and the counterfactual is not empty. *)
Theorem C83_pipeline : forall cut show show_cell inst k s kw s' X ord same parse mixed e e' a dec,
  fuzzify_of cut show show_cell inst k s "entropy" kw = (s', None) -> get_X s = Ok X -> NoDup (tb_cols X) -> (2 <= List.length (tb_rows X))%nat ->
  (forall row, In row (tb_rows X) -> List.length row = List.length (tb_cols X)) -> (forall a b, show a = show b -> a = b) -> (forall a b, show_cell a = show_cell b -> a = b) ->
  (forall p l, Permutation (ord p l) l) ->
  a_nb a = view s' -> n_decoded (view s') = Ok dec -> a_instance a = [dec] -> (0 < or_default (1 / 10000)%R (k_threshold (a_kw a)))%R ->
  fdt_fit ord same parse mixed e a = (e', None) ->
  exists vars m y t rules ms c, n_vars (view s') = Ok vars /\ n_instance (view s') = Ok m /\ get_y s = Ok y /\
    fit (fdt_config vars (a_kw a)) ord fresh_root (tb_rows X) y = Ok t /\ tree_rules t 0 = Ok rules /\
    Forall2 (fun r x => matching m r = Ok x) rules ms /\ In c y /\ hit e' = Ok (map (Z.eqb c) (a_target a)) /\
    (forall j, In j y -> support rules ms j <= support rules ms c /\ ((j < c)%Z -> support rules ms j < support rules ms c)) /\
    ((forall j, In j y -> j <> c -> support rules ms j < support rules ms c) ->
       weighted_vote rules m = Ok c /\ forall fact cf, explain e' = Ok (fact, cf) -> cf <> Some []).
Proof.
  intros cut show show_cell inst k s kw s' X ord same parse mixed e e' a dec H GX ND L2 W IS IC Ho NB HD HI TH FE.
  destruct (C83_ready_for_explainer cut show show_cell inst k s kw s' X H GX ND L2 W IS IC) as (vars & dec' & m & V & D & M & HXX & DN & NE & R & RM & P). rewrite HD in D. injection D as <-.
  assert (CD : List.concat (a_instance a) = dec) by (rewrite HI; cbn; apply app_nil_r).
  destruct (C81_explained_class_is_supported ord same parse mixed e a e' vars m) as (X' & y & t & rules & ms & c & A1 & A2 & A3); rewrite ?NB, ?CD; try assumption; [left; exact TH|].
  rewrite NB in A1, A2. rewrite HXX in A1. injection A1 as <-. exists vars, m, y, t, rules, ms, c. split; [assumption|]. split; [assumption|]. split; [|assumption].
  destruct (fuzzify_ok cut show show_cell inst k s "entropy" kw H) as (_ & _ & _ & _ & _ & _ & _ & _ & _ & _ & (_ & D2 & _) & _). unfold view in A2. cbn [n_y] in A2. unfold get_y in *. rewrite D2 in A2. assumption.
Qed.
Print Assumptions C83_pipeline.
(** fuzzify('entropy') succeeds whenever the object is fitted with two or more rows, the columns are distinct and all listed, the numerical ones
    hold numbers, there is a numerical one, and the decoded instance (for a LORE neighbourhood also the instance) fits the columns *)
Theorem C83_succeeds : forall cut show show_cell inst k ops kw X y dec num cat,
  let s := history cut show show_cell inst k ops in
  fitted_with s X y -> nb_decoded s = Some dec -> z_num kw = Some num -> z_cat kw = Some cat -> z_verbose kw = false -> (k = Sampling -> z_inst kw = None) ->
  NoDup (tb_cols X) -> (2 <= List.length (tb_rows X))%nat -> List.length (tb_rows X) = List.length y -> num <> [] ->
  (forall c, In c num \/ In c cat <-> In c (tb_cols X)) ->
  (forall row, In row (tb_rows X) -> List.length row = List.length (tb_cols X) /\ forall i c, nth_error (tb_cols X) i = Some c -> In c num -> exists q, nth_error row i = Some (CNum q)) ->
  fits (tb_cols X) cat dec -> (k = Lore -> z_inst kw <> Some false -> fits (tb_cols X) cat inst) ->
  exists s', fuzzify_of cut show show_cell inst k s "entropy" kw = (s', None).
Proof.
  intros cut show show_cell inst k ops kw X y dec num cat s [FX FY] HD HN HC HV HK ND L2 LY NE COV ROWS FD' FI.
  assert (HX : nb_X s = Some X) by (unfold get_X in FX; destruct (nb_X s); [injection FX as ->; reflexivity|discriminate]).
  assert (HY : nb_y s = Some y) by (unfold get_y in FY; destruct (nb_y s); [injection FY as ->; reflexivity|discriminate]).
  assert (HXY : nb_Xy s = true) by (apply (history_Xy cut show show_cell inst k ops); fold s; congruence).
  eapply fuzzify_total; eassumption.
Qed.
Print Assumptions C83_succeeds.
(** a table of one row has no entropy partition: without a threshold fuzzify raises ValueError *)
Theorem C83_one_row_fails : forall cut show show_cell inst k ops kw X y num cat,
  let s := history cut show show_cell inst k ops in
  fitted_with s X y -> List.length (tb_rows X) = 1%nat -> z_num kw = Some num -> z_cat kw = Some cat -> z_verbose kw = false -> z_th kw = None -> (k = Sampling -> z_inst kw = None) ->
  (forall c, In c num -> exists qs, tb_column X c = Ok (map CNum qs)) ->
  fuzzify_of cut show show_cell inst k s "entropy" kw = (s, Some ValueError).
Proof.
  intros cut show show_cell inst k ops kw X y num cat s [FX FY] L1 HN HC HV HT HK HQ. apply fuzzify_err; [assumption|].
  assert (HX : nb_X s = Some X) by (unfold get_X in FX; destruct (nb_X s); [injection FX as ->; reflexivity|discriminate]).
  assert (HY : nb_y s = Some y) by (unfold get_y in FY; destruct (nb_y s); [injection FY as ->; reflexivity|discriminate]).
  assert (HXY : nb_Xy s = true) by (apply (history_Xy cut show show_cell inst k ops); fold s; congruence).
  unfold fuzzy_vars. rewrite HX, HY, HXY, HN, HC, HV, HT. change ((eqb "entropy"%string "equal_width"%string || eqb "entropy"%string "equal_freq"%string)) with false. cbn [andb].
  assert (EC : exists cols, mapM (fun c => do col <- tb_column X c; do q <- numbers col; Ok (c, q)) num = Ok cols /\ forall c qs, In (c, qs) cols -> exists q, qs = [q]).
  { clear -HQ L1. induction num as [|c num IH]; [exists []; split; [reflexivity|intros ? ? []]|]. destruct IH as (cols & E & P); [intros; apply HQ; right; assumption|]. destruct (HQ c (or_introl eq_refl)) as [qs C].
    assert (L : List.length qs = 1%nat). { unfold tb_column in C. match type of C with bind ?r _ = _ => destruct r; [|discriminate] end. cbn [bind] in C. apply column_length in C. rewrite map_length in C. lia. }
    destruct qs as [|q [|]]; try discriminate L. exists ((c, [q]) :: cols). cbn [mapM]. rewrite C. cbn [bind numbers mapM map]. rewrite E. cbn [bind]. split; [reflexivity|]. intros c' qs [H|H]; [injection H as _ <-; eauto|eauto]. }
  destruct EC as (cols & EC & P). rewrite EC. cbn [bind]. unfold get_fuzzy_points. match goal with |- context[if ?b then Err ValueError else _] => destruct b eqn:B; [reflexivity|] end.
  change (memb "entropy" ["equal_freq"; "equal_width"; "entropy"]) with true. cbn [negb]. cbv iota.
  replace (map fst (filter (fun cq : string * list Qc => small_std (snd cq)) cols)) with (@nil string).
  2:{ clear -P. induction cols as [|[c qs] cols IH]; [reflexivity|]. destruct (P c qs (or_introl eq_refl)) as [q ->]. cbn. apply IH. intros; eapply P; right; eassumption. }
  apply orb_false_elim in B. destruct B as [B B3]. apply orb_false_elim in B. destruct B as [B1 B2]. apply negb_false_iff, Nat.eqb_eq in B3.
  destruct cols as [|[c qs] cols]; [discriminate|]. destruct (P c qs (or_introl eq_refl)) as [q ->]. destruct y as [|y [|]]; try (cbn in B3; lia). cbn [mapM bind]. unfold points_of at 1. change (memb c []) with false. cbv iota. change (eqb "entropy" "entropy") with true. cbv iota.
  change (zip [q] [y]) with [(q, y)]. cbn [or_default]. rewrite C14_single. reflexivity.
Qed.
Print Assumptions C83_one_row_fails.
(** a numerical column with two values and a categorical one *)
Definition ex2_table : table := mkTb ["x"; "c"] [[CNum 1; CStr "a"]; [CNum (qz 3); CStr "b"]].
Definition ex2_outcome : outcome := mkO (Ok [CNum 1; CStr "a"]) (Ok ex2_table) (Ok tt) (Ok ex2_table) (Ok [0; 1]%Z) (Ok []).
Example C83_instance : forall k, exists s', fuzzify_of no_cut show_q show_c [CNum 1; CNum 0] k (ex_history k [Fit ex2_outcome]) "entropy" (ex_args ["x"] ["c"]) = (s', None) /\
  get_X (ex_history k [Fit ex2_outcome]) = Ok ex2_table /\ NoDup (tb_cols ex2_table) /\ (2 <= List.length (tb_rows ex2_table))%nat /\ (forall row, In row (tb_rows ex2_table) -> List.length row = List.length (tb_cols ex2_table)).
Proof.
  intro k. assert (ND : NoDup ["x"; "c"]) by (repeat constructor; cbn; intuition discriminate).
  assert (LR : forall row, In row (tb_rows ex2_table) -> List.length row = List.length (tb_cols ex2_table)) by (intros row [<-|[<-|[]]]; reflexivity).
  destruct (C83_succeeds no_cut show_q show_c [CNum 1; CNum 0] k [Fit ex2_outcome] (ex_args ["x"] ["c"]) ex2_table [0; 1]%Z [CNum 1; CStr "a"] ["x"] ["c"]) as [s' H]; try reflexivity.
  - destruct k; split; reflexivity.
  - destruct k; reflexivity.
  - exact ND.
  - discriminate.
  - intro c. cbn. tauto.
  - intros row I. split; [apply LR; assumption|]. intros i c Hi [<-|[]]. destruct I as [<-|[<-|[]]]; (destruct i as [|[|i]]; [eexists; reflexivity|discriminate|destruct i; discriminate]).
  - split; [reflexivity|]. intros i c Hi N. destruct i as [|[|i]]; [eexists; reflexivity| |destruct i; discriminate]. injection Hi as <-. exfalso. apply N. left. reflexivity.
  - intros _ _. split; [reflexivity|]. intros i c Hi N. destruct i as [|[|i]]; [eexists; reflexivity| |destruct i; discriminate]. injection Hi as <-. exfalso. apply N. left. reflexivity.
  - exists s'. split; [exact H|]. split; [destruct k; reflexivity|]. split; [exact ND|]. split; [cbn; lia|exact LR].
Qed.
(** the divisor is n - 1: two values 0.000014 apart are nearly constant, 0.000015 apart they are not *)
Example C83_nearly_constant : nearly_constant [0; qc 14 1000000] /\ ~ nearly_constant [0; qc 15 1000000].
Proof.
  split.
  - split; [cbn; lia|]. exists (qc 7 1000000), (qc 98 1000000000000). split; [qex|]. split; [qex|]. reflexivity.
  - intros (_ & m & v & M & V & H). change (qn (List.length [0; qc 15 1000000])) with (qn 2) in *. assert (Em : m = qc 15 2000000).
    { replace m with (qn 2 * m / qn 2) by (field; discriminate). rewrite M. qex. }
    subst m. assert (Ev : v = qc 225 2000000000000). { replace v with ((qn 2 - 1) * v) by (assert (Q : qn 2 - 1 = 1) by qex; rewrite Q; ring). rewrite V. qex. }
    subst v. discriminate H.
Qed.
