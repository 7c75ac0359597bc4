(** * C144 continued: fuzzify does not depend on the order of the rows either, when all columns are numerical *)
From Verif Require Import Prelude M_Fuzzy M_Discretize M_Rule S_Rule P_Rule M_FDT S_FDT P_FDT P_FDT2 P_FDT3 P_FDT4 M_FBDT M_ID3 M_Metrics M_Factual M_Counterfactual M_Explainer M_Neighborhood S_Neighborhood
  S_FBDT P_Entropy Properties_FDT S_Rows P_Rows3 S_Degrees Properties_Units M_Distr M_Cut M_Cut2 P_Depth Properties_Explainer S_Success Properties_Success Properties_ExplainOrder.
From Coq Require Import Reals Lra.
Local Notation eqb := Prelude.eqb.
Open Scope string_scope. Open Scope list_scope. Open Scope Qc_scope.

(** what a division method may depend on: the values of a column, not their order *)
Definition order_blind (cut : string -> list Qc -> Z -> option (list Qc * Qc) * option (list Qc * Qc)) : Prop :=
  forall method l l' sets, Permutation l l' -> cut method l sets = cut method l' sets.
Lemma sorted_unique (l : list Qc) : forall l', StronglySorted (fun a b => qleb a b = true) l -> StronglySorted (fun a b => qleb a b = true) l' -> Permutation l l' -> l = l'.
Proof.
  induction l as [|a l IH]; intros [|b l'] S S' P; [reflexivity|apply Permutation_nil in P; discriminate|apply Permutation_sym, Permutation_nil in P; discriminate|].
  assert (a = b).
  { inversion S as [|? ? _ F]; subst. inversion S' as [|? ? _ F']; subst. rewrite Forall_forall in F, F'.
    assert (I : In a (b :: l')) by (eapply Permutation_in; [exact P|left; reflexivity]). assert (I' : In b (a :: l)) by (eapply Permutation_in; [apply Permutation_sym; exact P|left; reflexivity]).
    destruct I as [I|I]; [auto|]. destruct I' as [I'|I']; [auto|]. apply F in I'. apply F' in I. apply qleb_le in I. apply qleb_le in I'. apply Qcle_antisym; assumption. }
  subst b. apply Permutation_cons_inv in P. inversion S; inversion S'; subst. f_equal. auto.
Qed.
Lemma percentile_perm q l l' : Permutation l l' -> percentile q l = percentile q l'.
Proof.
  intro P. unfold percentile. rewrite (Permutation_length P). assert (E : sort_asc (fun v => v) l = sort_asc (fun v => v) l'); [|rewrite E; reflexivity].
  assert (T : forall a b, qleb a b = true \/ qleb b a = true). { intros a b. rewrite !qleb_le. destruct (Qclt_le_dec a b) as [H|H]; [left; apply Qclt_le_weak|right]; assumption. }
  assert (TR : forall a b c, qleb a b = true -> qleb b c = true -> qleb a c = true) by (intros a b c; rewrite !qleb_le; apply Qcle_trans).
  unfold sort_asc. apply sorted_unique; try (apply sort_by_sorted; assumption).
  eapply Permutation_trans; [apply Permutation_sym, sort_by_perm|]. eapply Permutation_trans; [exact P|apply sort_by_perm].
Qed.
Lemma qmaximum_perm l l' : Permutation l l' -> qmaximum l = qmaximum l'.
Proof.
  intro P. destruct (qmaximum l) as [m|e] eqn:E.
  - symmetry. apply qmaximum_spec in E. destruct E as (I & M). apply qmaximum_unique; [eapply Permutation_in; eassumption|]. intros x H. apply M. eapply Permutation_in; [apply Permutation_sym|]; eassumption.
  - apply qmaximum_err in E. destruct E as (-> & ->). apply Permutation_nil in P. subst. reflexivity.
Qed.
(** pandas.cut and pandas.qcut as modelled *)
Theorem C144_pandas_order_blind : order_blind pandas_cut.
Proof.
  intros method l l' sets P. unfold pandas_cut. assert (C : cut_bins l (sets - 1) = cut_bins l' (sets - 1)) by (unfold cut_bins; rewrite (qminimum_perm P), (qmaximum_perm _ _ P); reflexivity).
  rewrite C. assert (Q : qcut_bins l (Z.to_nat (sets - 1)) = qcut_bins l' (Z.to_nat (sets - 1))) by (unfold qcut_bins; apply map_ext; intro q; apply percentile_perm, P). rewrite Q. reflexivity.
Qed.
Lemma num_column X i q : (do col <- column X i; numbers col) = Ok q <-> Forall2 (fun row v => nth_error row i = Some (CNum v)) X q.
Proof.
  unfold column, numbers. revert q. induction X as [|row X IH]; intro q.
  - cbn. split; [intro H; injection H as <-; constructor|intro H; inversion H; reflexivity].
  - cbn [mapM]. destruct (nth_error row i) as [c|] eqn:E; cbn [ret_opt bind].
    2:{ split; [discriminate|]. intro H; inversion H; subst. congruence. }
    destruct (mapM _ X) as [col|] eqn:EC; cbn [bind] in *.
    2:{ split; [discriminate|]. intro H; inversion H; subst. exfalso. match goal with F : Forall2 _ X ?l |- _ => apply IH in F; discriminate F end. }
    cbn [mapM]. destruct c as [v|]; cbn [bind].
    2:{ split; [discriminate|]. intro H; inversion H; subst. congruence. }
    split.
    + destruct (mapM _ col) as [qs|] eqn:EN; cbn [bind]; [|discriminate]. intro H. injection H as <-. constructor; [exact E|]. apply IH. reflexivity.
    + intro H. inversion H as [|? ? ? l Hv F]; subst. assert (y = v) by congruence. subst. apply IH in F. rewrite F. reflexivity.
Qed.
Lemma swap_perm A B (l l' : list A) (m m' : list B) : Permutation (combine m' l') (combine m l) -> Permutation (combine l' m') (combine l m).
Proof.
  intro P. assert (S : forall (l : list A) (m : list B), combine l m = map (fun t => (snd t, fst t)) (combine m l)) by (clear; induction l as [|a l IH]; intros [|b m]; cbn; [reflexivity|reflexivity|reflexivity|rewrite IH; reflexivity]).
  rewrite (S l m), (S l' m'). apply Permutation_map, P.
Qed.
Lemma entropy_perm max_depth th data data' : Permutation data' data -> entropy_points max_depth th data' = entropy_points max_depth th data.
Proof.
  intro P. assert (H := C111_discretisation_in_other_units max_depth th (1, 0) (fun c => c) data data'). cbn [fst snd] in H.
  assert (U : forall x, other_units (1, 0) x = x) by (intro x; unfold other_units; cbn [fst snd]; ring).
  assert (E : map (fun r : Qc * Z => (other_units (1, 0) (fst r), snd r)) data = data) by (clear - U; induction data as [|[a b] l IH]; cbn [map fst snd]; [reflexivity|rewrite U, IH; reflexivity]).
  rewrite E in H. specialize (H ltac:(reflexivity) ltac:(auto) P). destruct (entropy_points max_depth th data) as [pts|e]; [|exact H].
  rewrite H. f_equal. clear - U. induction pts as [|a l IH]; cbn; [reflexivity|rewrite U, IH; reflexivity].
Qed.
Lemma small_std_perm l l' : Permutation l l' -> small_std l = small_std l'.
Proof.
  intro P. assert (L := Permutation_length P). assert (Q : forall m, qsum (map (fun x => (x - m) * (x - m)) l) = qsum (map (fun x => (x - m) * (x - m)) l')) by (intro m; apply qsum_perm, Permutation_map, P).
  assert (S := qsum_perm P). destruct l as [|a [|b l]], l' as [|a' [|b' l']]; try discriminate L; try reflexivity. unfold small_std. rewrite S, L. cbv zeta. rewrite Q. reflexivity.
Qed.
Section Fuzzify.
  Variables (cut : string -> list Qc -> Z -> option (list Qc * Qc) * option (list Qc * Qc)) (show : Qc -> string) (show_cell : cell -> string).
  Hypothesis blind : order_blind cut.
  Variables (rows rows' : list (list cell)) (y y' : list Z).
  Hypotheses (L : List.length rows = List.length y) (L' : List.length rows' = List.length y') (P : Permutation (combine rows' y') (combine rows y)).
  Lemma same_column i q : (do col <- column rows i; numbers col) = Ok q ->
    exists q', (do col <- column rows' i; numbers col) = Ok q' /\ List.length q' = List.length y' /\ List.length q = List.length y /\ Permutation (combine q' y') (combine q y).
  Proof.
    intro E. apply num_column in E. assert (PR := perm_rows _ _ _ _ L L' P).
    assert (EX : exists q', Forall2 (fun row v => nth_error row i = Some (CNum v)) rows' q').
    { assert (F : forall row, In row rows' -> exists v, nth_error row i = Some (CNum v)).
      { intros row H. apply (Permutation_in _ PR) in H. clear - E H. induction E as [|r v X q Hr F IH]; [destruct H|]. destruct H as [<-|H]; eauto. }
      clear - F. induction rows' as [|r X IH]; [exists []; constructor|]. destruct IH as [q' Q]; [intros; apply F; right; assumption|]. destruct (F r (or_introl eq_refl)) as [v V]. exists (v :: q'). constructor; assumption. }
    destruct EX as [q' E']. exists q'. split; [apply num_column; exact E'|]. split; [rewrite <- L'; clear - E'; induction E'; cbn; congruence|]. split; [rewrite <- L; clear - E; induction E; cbn; congruence|].
    apply swap_perm. apply (labelled_perm _ _ _ (fun row v => nth_error row i = Some (CNum v))) with (X := rows) (X' := rows'); try assumption. intros x c c' H H'. congruence.
  Qed.
  Definition same_values (a b : string * list Qc) : Prop := fst a = fst b /\ List.length (snd a) = List.length y' /\ List.length (snd b) = List.length y /\ Permutation (combine (snd a) y') (combine (snd b) y).
  Lemma same_values_perm a b : same_values a b -> Permutation (snd a) (snd b).
  Proof. intros (_ & La & Lb & Q). rewrite <- (map_fst_combine (snd a) y' La), <- (map_fst_combine (snd b) y Lb). apply Permutation_map, Q. Qed.
  Lemma same_points method sets th pv a b : same_values a b -> points_of cut method y' sets th pv a = points_of cut method y sets th pv b.
  Proof.
    intro S. assert (Q := same_values_perm _ _ S). destruct S as (E & _ & _ & PP). destruct a as [na a], b as [nb b]. cbn [fst snd] in *. subst nb. unfold points_of. destruct (memb na pv); [f_equal; apply qunique_perm, Q|].
    destruct (eqb method "entropy"); [apply entropy_perm; exact PP|]. destruct (eqb method "equal_width"); rewrite (blind _ _ _ sets Q); [unfold equal_width|unfold equal_freq]; rewrite (qminimum_perm Q); reflexivity.
  Qed.
  Theorem fuzzy_vars_order s cols division kw vars num X0 : nb_X s = Some (mkTb cols rows) -> nb_y s = Some y -> z_num kw = Some num -> z_cat kw = Some [] ->
    fuzzy_vars cut show show_cell s division kw = Ok (X0, vars) ->
    fuzzy_vars cut show show_cell (set_y (set_X s (mkTb cols rows')) y') division kw = Ok (mkTb cols rows', vars).
  Proof.
    intros EX EY EN EC H. unfold fuzzy_vars in *. cbn [nb_X nb_y nb_Xy set_y set_X] in *. rewrite EX, EY, EN, EC in H. rewrite EN, EC. destruct (nb_Xy s); [|discriminate].
    match type of H with (if ?b then _ else _) = _ => destruct b; [discriminate|] end.
    match type of H with bind ?r _ = _ => destruct r as [cs|] eqn:ECS; [|discriminate] end. cbn [bind] in H.
    apply (@mapM_related _ _ same_values (fun c => do col <- tb_column (mkTb cols rows') c; do q <- numbers col; Ok (c, q))) in ECS.
    2:{ intros c z _ Hz. unfold tb_column in *. cbn [tb_cols tb_rows] in *. destruct (index_of c cols) as [i|]; cbn [bind] in *; [|discriminate].
        destruct (column rows i) as [col|] eqn:E1; cbn [bind] in *; [|discriminate]. destruct (numbers col) as [q|] eqn:E2; cbn [bind] in *; [|discriminate]. injection Hz as <-.
        destruct (same_column i q) as (q' & E' & A1 & A2 & A3); [rewrite E1; exact E2|]. destruct (column rows' i) as [col'|]; cbn [bind] in *; [|discriminate]. rewrite E'. cbn [bind]. eexists. split; [reflexivity|]. repeat split; assumption. }
    destruct ECS as (cs' & ECS' & F). rewrite ECS'. cbn [bind]. cbv zeta in *.
    assert (PV : map fst (filter (fun cq : string * list Qc => small_std (snd cq)) cs') = map fst (filter (fun cq : string * list Qc => small_std (snd cq)) cs)).
    { clear - F. induction F as [|a b l l' H F IH]; [reflexivity|]. cbn [filter]. rewrite (small_std_perm _ _ (same_values_perm _ _ H)). destruct (small_std (snd b)); cbn [map]; rewrite IH; [destruct H as (-> & _)|]; reflexivity. }
    rewrite PV. destruct (z_verbose kw); [discriminate|].
    match type of H with bind ?r _ = _ => destruct r as [pts|] eqn:EP; [|discriminate] end. cbn [bind mapM] in H.
    assert (EP' : get_fuzzy_points cut division cs' (List.length (tb_rows (mkTb cols rows'))) y' (or_default 0%Z (z_sets kw)) (or_default None (z_th kw)) (map fst (filter (fun cq : string * list Qc => small_std (snd cq)) cs)) = Ok pts).
    { rewrite <- EP. unfold get_fuzzy_points. cbn [tb_rows]. assert (LF : List.length cs' = List.length cs) by (clear - F; induction F; cbn; congruence).
      assert (LR : List.length rows' = List.length rows) by (apply Permutation_length; exact (perm_rows _ _ _ _ L L' P)). rewrite LF, <- L', <- L, LR. 
      destruct (_ || _); [reflexivity|]. destruct (negb _); [reflexivity|].
      match goal with |- bind (mapM ?f cs') _ = bind (mapM ?g cs) _ => assert (M : mapM f cs' = mapM g cs) end.
      { generalize (map fst (filter (fun cq : string * list Qc => small_std (snd cq)) cs)). intro pv. clear - F blind. induction F as [|a b l l' H F IH]; [reflexivity|]. cbn [mapM]. rewrite (same_points division (or_default 0%Z (z_sets kw)) (or_default None (z_th kw)) pv a b H).
        destruct H as (-> & _). rewrite IH. reflexivity. }
      rewrite M. reflexivity. }
    rewrite EP'. cbn [bind mapM tb_cols] in *. match type of H with bind ?r _ = _ => destruct r as [vs|]; [|discriminate] end. cbn [bind] in *. injection H as _ <-. reflexivity.
  Qed.
End Fuzzify.
Lemma mapM_perm A B (f : A -> res B) l l' r : Permutation l l' -> mapM f l = Ok r -> exists r', mapM f l' = Ok r' /\ Permutation r r'.
Proof.
  intro P. revert r. induction P as [|x l l' P IH|x z l|l l1 l2 P1 IH1 P2 IH2]; intros r H.
  - injection H as <-. exists []. split; [reflexivity|constructor].
  - cbn [mapM] in *. destruct (f x) as [b|]; cbn [bind] in *; [|discriminate]. destruct (mapM f l) as [r0|]; cbn [bind] in *; [|discriminate]. injection H as <-. destruct (IH r0 eq_refl) as (r' & -> & Q). cbn [bind]. eexists. split; [reflexivity|]. constructor. exact Q.
  - cbn [mapM] in *. destruct (f z) as [b|]; cbn [bind] in *; [|discriminate]. destruct (f x) as [c|]; cbn [bind] in *; [|discriminate]. destruct (mapM f l) as [r0|]; cbn [bind] in *; [|discriminate]. injection H as <-. eexists. split; [reflexivity|constructor].
  - destruct (IH1 r H) as (r1 & H1 & Q1). destruct (IH2 r1 H1) as (r2 & H2 & Q2). exists r2. split; [exact H2|]. eapply Permutation_trans; eassumption.
Qed.
Lemma dmo_perm X X' vars xm : Permutation X X' -> dataset_membership_opt X vars = Ok xm -> exists xm', dataset_membership_opt X' vars = Ok xm'.
Proof.
  intros P H. unfold dataset_membership_opt in *. match type of H with bind (mapM ?f ?l) _ = _ => destruct (mapM f l) as [r|] eqn:E; [|discriminate] end. clear H.
  match goal with |- exists xm', bind (mapM ?g ?l) _ = Ok xm' => assert (Q : exists r', mapM g l = Ok r'); [|destruct Q as [r' ->]; eexists; reflexivity] end.
  revert r E. induction (enumerate vars) as [|[i ov] l IH]; intros r E; [eexists; reflexivity|]. cbn [mapM] in *. destruct ov as [v|]; cbn [bind] in *; [|discriminate].
  destruct (column X i) as [col|] eqn:EC; cbn [bind] in *; [|discriminate]. destruct (mapM_perm _ _ _ _ _ _ P EC) as (col' & EC' & PC). unfold column. rewrite EC'. cbn [bind].
  destruct (var_membership v col) as [d|] eqn:EV; cbn [bind] in *; [|discriminate].
  assert (EV' : exists d', var_membership v col' = Ok d').
  { unfold var_membership in *. match type of EV with bind (mapM ?f ?l) _ = _ => destruct (mapM f l) as [m|] eqn:EM; [|discriminate] end. clear EV.
    match goal with |- exists d', bind (mapM ?g ?l) _ = Ok d' => assert (Q : exists r', mapM g l = Ok r'); [|destruct Q as [r' ->]; eexists; reflexivity] end.
    revert m EM. induction (fv_sets v) as [|s ss IHs]; intros m EM; [eexists; reflexivity|]. cbn [mapM] in *. destruct (membership_col s col) as [dc|] eqn:ED; cbn [bind] in *; [|discriminate].
    destruct (mapM_perm _ _ _ _ _ _ PC ED) as (dc' & ED' & _). unfold membership_col. rewrite ED'. cbn [bind]. destruct (mapM _ ss) as [m0|] eqn:E0; cbn [bind] in *; [|discriminate]. destruct (IHs m0 eq_refl) as [m1 E1]. unfold membership_col in E1. rewrite E1. eexists. reflexivity. }
  destruct EV' as [d' ->]. cbn [bind]. destruct (mapM _ l) as [r0|] eqn:E0; cbn [bind] in *; [|discriminate]. destruct (IH r0 eq_refl) as [r1 E1]. unfold column in E1. rewrite E1. eexists. reflexivity.
Qed.
Lemma fuzzy_vars_table cut show show_cell s division kw X0 vars : fuzzy_vars cut show show_cell s division kw = Ok (X0, vars) ->
  nb_X s = Some X0 /\ (exists num, z_num kw = Some num).
Proof.
  unfold fuzzy_vars. intro H. destruct (nb_X s) as [X|]; [|discriminate]. destruct (nb_y s); [|discriminate]. destruct (nb_Xy s); [|discriminate].
  match type of H with (if ?b then _ else _) = _ => destruct b; [discriminate|] end. destruct (z_num kw) as [num|]; [|discriminate]. destruct (z_cat kw) as [cat|]; [|discriminate].
  match type of H with bind ?r _ = _ => destruct r; [|discriminate] end. cbn [bind] in H. cbv zeta in H. destruct (z_verbose kw); [discriminate|].
  do 3 (match type of H with bind ?r _ = _ => destruct r; [|discriminate] end; cbn [bind] in H). injection H as <- <-. split; [reflexivity|eauto].
Qed.
(** fuzzify of the same neighbourhood with its rows in another order gives the same fuzzy variables and memberships of the instance *)
Theorem C144_fuzzify : forall cut show show_cell inst k s division kw s1 cols rows rows' y y', order_blind cut ->
  nb_X s = Some (mkTb cols rows) -> nb_y s = Some y -> z_cat kw = Some [] ->
  List.length rows = List.length y -> List.length rows' = List.length y' -> Permutation (combine rows' y') (combine rows y) ->
  fuzzify_of cut show show_cell inst k s division kw = (s1, None) ->
  exists s2, fuzzify_of cut show show_cell inst k (set_y (set_X s (mkTb cols rows')) y') division kw = (s2, None) /\
    nb_vars s2 = nb_vars s1 /\ nb_IM s2 = nb_IM s1 /\ nb_decoded s2 = nb_decoded s1 /\
    nb_X s1 = Some (mkTb cols rows) /\ nb_y s1 = Some y /\ nb_X s2 = Some (mkTb cols rows') /\ nb_y s2 = Some y'.
Proof.
  intros cut show show_cell inst k s division kw s1 cols rows rows' y y' BL EX EY EC L L' P H.
  assert (PR := Permutation_sym (perm_rows _ _ _ _ L L' P)).
  assert (B : forall w s1, decoded_membership (fuzzify_base cut show show_cell inst w s division kw) = (s1, None) ->
    exists s2, decoded_membership (fuzzify_base cut show show_cell inst w (set_y (set_X s (mkTb cols rows')) y') division kw) = (s2, None) /\
      nb_vars s2 = nb_vars s1 /\ nb_IM s2 = nb_IM s1 /\ nb_decoded s2 = nb_decoded s1 /\ nb_X s1 = Some (mkTb cols rows) /\ nb_y s1 = Some y /\ nb_X s2 = Some (mkTb cols rows') /\ nb_y s2 = Some y').
  { clear H s1. intros w s1 H. unfold fuzzify_base in *. destruct (fuzzy_vars cut show show_cell s division kw) as [[X0 vars]|] eqn:FV; cbn [tryS decoded_membership] in H; [|discriminate].
    destruct (fuzzy_vars_table _ _ _ _ _ _ _ _ FV) as (Q & num & EN). rewrite EX in Q. injection Q as <-.
    rewrite (fuzzy_vars_order cut show show_cell BL rows rows' y y' L L' P s cols division kw vars num _ EX EY EN EC FV). cbn [tryS fst snd tb_rows tb_cols] in *.
    destruct (dataset_membership_opt rows vars) as [xm|] eqn:EM; cbn [tryS decoded_membership] in H; [|discriminate]. destruct (dmo_perm _ _ _ _ PR EM) as [xm' ->]. cbn [tryS].
    destruct w.
    - destruct (if Nat.ltb (List.length cols) (List.length inst) then Err IndexError else dataset_membership_opt [inst] vars) as [im|]; cbn [tryS decoded_membership] in *; [|discriminate].
      cbn [nb_decoded nb_vars set_IM set_XM set_vars set_y set_X] in *. destruct (nb_decoded s) as [d|] eqn:ED; cbn [ret_opt tryS] in *; [|discriminate]. destruct (dataset_membership_opt [d] vars) as [im2|]; cbn [tryS] in *; [|discriminate]. injection H as <-. eexists. split; [reflexivity|]. cbn. rewrite ?ED. repeat split; assumption.
    - cbn [decoded_membership nb_decoded nb_vars set_IM set_XM set_vars set_y set_X] in *. destruct (nb_decoded s) as [d|] eqn:ED; cbn [ret_opt tryS] in *; [|discriminate]. destruct (dataset_membership_opt [d] vars) as [im2|]; cbn [tryS] in *; [|discriminate]. injection H as <-. eexists. split; [reflexivity|]. cbn. rewrite ?ED. repeat split; assumption. }
  destruct k; cbn [fuzzify_of] in *; [unfold sampling_fuzzify in *; destruct (z_inst kw); [discriminate|]|unfold lore_fuzzify in *]; apply B; assumption.
Qed.
(** so the whole pipeline - fuzzify and explain - gives the same explanation, class and fidelity, or the same exception *)
Theorem C144_pipeline : forall cut show show_cell inst k s division kw s1 cols rows rows' y y' vars ord same parse mixed e i tg num f c kws, order_blind cut ->
  nb_X s = Some (mkTb cols rows) -> nb_y s = Some y -> z_cat kw = Some [] ->
  List.length rows = List.length y -> List.length rows' = List.length y' -> Permutation (combine rows' y') (combine rows y) ->
  fuzzify_of cut show show_cell inst k s division kw = (s1, None) -> n_vars (view s1) = Ok vars ->
  (forall p l, Permutation (ord p l) l) -> distinct_names vars -> (forall v, In v vars -> fv_sets v <> []) ->
  (forall th, k_threshold kws = Some th -> (0 < th)%R) -> readable vars rows ->
  exists s2, fuzzify_of cut show show_cell inst k (set_y (set_X s (mkTb cols rows')) y') division kw = (s2, None) /\
    fdt_fit ord same parse mixed e (mkFA i tg (view s2) num f c kws) = fdt_fit ord same parse mixed e (mkFA i tg (view s1) num f c kws).
Proof.
  intros cut show show_cell inst k s division kw s1 cols rows rows' y y' vars ord same parse mixed e i tg num f c kws BL EX EY EC L L' P H EV Ho DN NE TH RX.
  destruct (C144_fuzzify _ _ _ _ _ _ _ _ _ _ _ _ _ _ BL EX EY EC L L' P H) as (s2 & H2 & A1 & A2 & A3 & A4 & A5 & A6 & A7). exists s2. split; [exact H2|].
  assert (VX : n_X (view s1) = Ok rows) by (unfold view, get_X; cbn [n_X]; rewrite A4; reflexivity). assert (VY : n_y (view s1) = Ok y) by (unfold view, get_y; cbn [n_y]; rewrite A5; reflexivity).
  rewrite <- (C144_fdt ord same parse mixed e (mkFA i tg (view s1) num f c kws) vars rows y rows' y' EV VX VY Ho DN NE TH RX L L' P).
  assert (W : view s2 = mkN (n_vars (view s1)) (n_instance (view s1)) (n_decoded (view s1)) (Ok rows') (Ok y') (n_XM (view s2))).
  { unfold view, get_vars, get_instance_membership, get_X, get_y. cbn [n_vars n_instance n_decoded n_XM]. rewrite A1, A2, A3, A6, A7. reflexivity. }
  rewrite W. reflexivity.
Qed.
(** with categorical columns the order matters: the sets of such a variable are listed as they first appear *)
Theorem C144_categories_refuted : exists s division kw cols rows rows' y y' show show_cell X1 v1 X2 v2,
  nb_X s = Some (mkTb cols rows) /\ nb_y s = Some y /\ Permutation (combine rows' y') (combine rows y) /\
  fuzzy_vars pandas_cut show show_cell s division kw = Ok (X1, v1) /\
  fuzzy_vars pandas_cut show show_cell (set_y (set_X s (mkTb cols rows')) y') division kw = Ok (X2, v2) /\ v1 <> v2.
Proof.
  set (show := fun q : Qc => if qltb q 1 then "0" else "1"). set (show_cell := fun c => match c with CStr s => s | CNum _ => "n" end).
  set (r1 := [CNum 0; CStr "a"]). set (r2 := [CNum 1; CStr "b"]).
  set (kw := mkZ (Some 2%Z) false (Some ["n"]) (Some ["c"]) None None).
  set (s := fun rows y => mkNb (Some (mkTb ["n"; "c"] rows)) (Some y) true None None None None None).
  exists (s [r1; r2] [0; 1]%Z), "equal_width", kw, ["n"; "c"], [r1; r2], [r2; r1], [0; 1]%Z, [1; 0]%Z, show, show_cell.
  eexists. eexists. eexists. eexists. split; [reflexivity|]. split; [reflexivity|]. split; [apply perm_swap|]. split; [vm_compute; reflexivity|]. split; [vm_compute; reflexivity|]. intro E. injection E. discriminate.
Qed.
Print Assumptions C144_fuzzify. Print Assumptions C144_pipeline. Print Assumptions C144_categories_refuted. Print Assumptions C144_pandas_order_blind.
(** the example of Properties_Explainer with its two rows exchanged *)
Example C144_instance : ex_fdt new_explainer (fdt_call_with ex_call (rev ex_X) (rev ex_y)) = ex_fdt new_explainer ex_call /\
  (exists s', ex_fdt new_explainer ex_call = (s', None)) /\ rev ex_X <> ex_X.
Proof.
  destruct C129_instance as ((HV & HM & _ & HX & HY & Ho & DN & NE & _ & HL & _ & RX & _ & _ & _ & TH) & _ & _ & _ & _ & _ & _ & _ & _ & s' & E). split; [|split; [exists s'; exact E|discriminate]].
  eapply C144_fdt; try eassumption; first [reflexivity|apply perm_swap].
Qed.
