(** * Proofs: [fit] with its final state agrees with [fit], and what an exception leaves behind *)
From Verif Require Import Prelude M_Fuzzy M_Discretize P_FuzzySet P_FuzzyVar P_Entropy M_Rule M_FDT S_FDT P_FDT P_FDT2 P_Degrees M_FBDT S_FBDT P_FBDT P_FBDT2 P_FBDT7 M_ID3 S_ID3 P_ID3 P_ID3b P_ID3c M_FitState.
From Coq Require Import Reals Lra.
Local Notation eqb := Prelude.eqb.
Set Implicit Arguments.
Open Scope Qc_scope.

Section Run.
  Variables A B C : Type.
  Variable V : B -> C -> Prop.
  Variable step : A -> list B * option exn.
  Variable u : A -> res C.
  Definition step_ok (x : A) : Prop :=
    match snd (step x) with None => exists b c, fst (step x) = [b] /\ u x = Ok c /\ V b c | Some e => u x = Err e end.
  Lemma run_mapM l : (forall x, In x l -> step_ok x) ->
    match snd (run_st step l) with None => exists cs, mapM u l = Ok cs /\ Forall2 V (fst (run_st step l)) cs | Some e => mapM u l = Err e end.
  Proof.
    induction l as [|x l IH]; intro H; [exists []; split; [reflexivity|constructor]|]. cbn [run_st mapM].
    assert (S := H x (or_introl eq_refl)). unfold step_ok in S. destruct (snd (step x)) as [e|] eqn:E; cbn [snd fst]; [rewrite S; reflexivity|].
    destruct S as (b & c & Fb & Uc & Vb). rewrite Uc, Fb. cbn [bind app]. assert (IH' := IH (fun z Hz => H z (or_intror Hz))).
    destruct (snd (run_st step l)) as [e|]; [rewrite IH'; reflexivity|]. destruct IH' as (cs & M & F). rewrite M. cbn [bind]. exists (c :: cs). split; [reflexivity|constructor; assumption].
  Qed.
End Run.

Lemma Forall2_eq A (l l' : list A) : Forall2 eq l l' -> l = l'.
Proof. intro H. induction H; congruence. Qed.

(** ** FDT *)
Lemma partial_fit_agrees cfg ord XM y : forall fuel node path feats depth,
  partial_fit fuel cfg ord XM y node path feats depth =
  match snd (partial_fit_st fuel cfg ord XM y node path feats depth) with
  | None => Ok (fst (partial_fit_st fuel cfg ord XM y node path feats depth))
  | Some e => Err e
  end.
Proof.
  induction fuel as [|fuel IH]; intros node path feats depth; [reflexivity|]. cbn [partial_fit partial_fit_st]. cbv zeta.
  destruct (max_f_gain qmin (t_mu node) (ord path feats) XM y) as [[[att g] cm]|]; cbn [bind]; [|reflexivity].
  destruct (stop_met cfg g (masked (t_mu node) y) depth).
  { destruct (get_class_value (t_mu node) y); cbn [bind fst snd]; [rewrite app_nil_r|]; reflexivity. }
  destruct (dget att XM) as [sets|]; cbn [ret_opt bind]; [|reflexivity].
  match goal with |- bind (mapM ?u ?l) _ = _ => match goal with |- context [run_st ?step l] => assert (R := @run_mapM _ _ _ eq step u l) end end.
  match type of R with ?P -> _ => assert (Q : P) end.
  { intros [i value] _. unfold step_ok. destruct (negb (memb att feats)); [reflexivity|]. destruct (dget att (f_positions (f_vars cfg))) as [a|]; cbn [ret_opt bind]; [|reflexivity].
    destruct (nth_error (f_vars cfg) a) as [v|]; cbn [ret_opt bind]; [|reflexivity]. destruct (dget value cm) as [m|]; cbn [ret_opt bind]; [|reflexivity].
    destruct (qltb 0 (qsum m)); cbn [fst snd].
    - rewrite IH. destruct (snd (partial_fit_st _ _ _ _ _ _ _ _ _)); [reflexivity|]. eauto.
    - destruct (get_class_value (t_mu node) y); cbn [bind fst snd]; [|reflexivity]. eauto. }
  specialize (R Q). clear Q IH. revert R. match goal with |- context [run_st ?step ?l] => generalize (run_st step l) as r end. intros [cs [e|]]; cbn [fst snd]; intro R.
  - rewrite R. reflexivity.
  - destruct R as (cs' & M & F). apply Forall2_eq in F. subst cs'. rewrite M. reflexivity.
Qed.
Lemma fit_agrees cfg ord root X y :
  fit cfg ord root X y = match snd (fit_st cfg ord root X y) with None => Ok (fst (fit_st cfg ord root X y)) | Some e => Err e end.
Proof.
  unfold fit, fit_st. destruct (_ || _); [reflexivity|]. destruct (dataset_membership X (f_vars cfg)); cbn [bind]; [|reflexivity]. apply partial_fit_agrees.
Qed.

(** ** FBDT *)
Definition same_end {H T} (a : res (H * T)) (b : list T * res H) : Prop :=
  match snd b with Ok h' => exists c, fst b = [c] /\ a = Ok (h', c) | Err e => a = Err e end.
Lemma two_sides (H T : Type) (ga : H -> bool -> res (H * T)) (gb : H -> bool -> list T * res H) (F : list T -> T) h1 :
  (forall h i, same_end (ga h i) (gb h i)) ->
  (do hl <- ga h1 true; do hr <- ga (fst hl) false; Ok (fst hr, F [snd hl; snd hr])) =
  let r := match snd (gb h1 true) with
           | Err e => (F (fst (gb h1 true)), Err e)
           | Ok h2 => (F (fst (gb h1 true) ++ fst (gb h2 false)), snd (gb h2 false))
           end in
  match snd r with Ok h' => Ok (h', fst r) | Err e => Err e end.
Proof.
  intro G. assert (L := G h1 true). unfold same_end in L. destruct (snd (gb h1 true)) as [h2|e]; [|rewrite L; reflexivity].
  destruct L as (c & F1 & A1). rewrite A1, F1. cbn [bind fst snd]. assert (R := G h2 false). unfold same_end in R.
  destruct (snd (gb h2 false)) as [h3|e]; [|rewrite R; reflexivity]. destruct R as (c2 & F2 & A2). rewrite A2, F2. reflexivity.
Qed.
Lemma bfit_agrees cfg psort cats XM y : forall fuel h node fd depth,
  bfit fuel cfg psort cats XM y h node fd depth =
  match snd (bfit_st fuel cfg psort cats XM y h node fd depth) with
  | Ok h' => Ok (h', fst (bfit_st fuel cfg psort cats XM y h node fd depth))
  | Err e => Err e
  end.
Proof.
  induction fuel as [|fuel IH]; intros h node fd depth; [reflexivity|]. cbn [bfit bfit_st]. cbv zeta.
  destruct (max_split psort cats h (b_mu node) (b_ignored node) fd XM y) as [[h1 best]|]; cbn [bind]; [|reflexivity].
  destruct (stop_met cfg (best_gain best) (masked (b_mu node) y) depth).
  { destruct (get_class_value (b_mu node) y); cbn [bind fst snd]; [rewrite app_nil_r|]; reflexivity. }
  destruct best as [s|]; [|cbn [snd]; destruct (dget _ _); reflexivity].
  destruct (dget (s_att s) (f_positions (f_vars cfg))) as [a|]; cbn [ret_opt bind]; [|reflexivity].
  destruct (nth_error (f_vars cfg) a) as [v|]; cbn [ret_opt bind]; [|reflexivity].
  pose (sd := dict_of (map (fun js => (fs_name (snd js), fst js)) (enumerate (fv_sets v)))).
  pose (names := fun i : bool => if i then s_left s else s_right s).
  pose (cmu := fun i : bool => if i then s_lmu s else s_rmu s).
  pose (caddr := fun i : bool => if i then s_lign s else s_rign s).
  pose (ga := fun (h : heap) (i : bool) =>
     do idx <- mapM (fun n => ret_opt KeyError (dget n sd)) (names i);
     let '(h2, cign) := update_ignored h (b_ignored node) (s_att s) (caddr i) in
     do avail <- ret_opt KeyError (dget (s_att s) fd);
     (if qltb 0 (qsum (cmu i))
      then bfit fuel cfg psort cats XM y h2 (BTree true [] None (-1) (Some (a, idx)) (Some v) (cmu i) cign) (dset (s_att s) (filter (fun x => memb x (names i)) avail) fd) (depth + 1)
      else do cv0 <- get_class_value (b_mu node) y; Ok (h2, BTree true [] (Some cv0) (-1) (Some (a, idx)) (Some v) (cmu i) cign))).
  pose (gb := fun (h : heap) (i : bool) =>
     match mapM (fun n => ret_opt KeyError (dget n sd)) (names i) with
              | Err e => ([], Err e)
              | Ok idx =>
                let '(h2, cign) := update_ignored h (b_ignored node) (s_att s) (caddr i) in
                match dget (s_att s) fd with
                | None => ([BTree true [] None (-1) (Some (a, idx)) (Some v) (cmu i) cign], Err KeyError)
                | Some avail =>
                  if qltb 0 (qsum (cmu i)) then
                    ([fst (bfit_st fuel cfg psort cats XM y h2 (BTree true [] None (-1) (Some (a, idx)) (Some v) (cmu i) cign) (dset (s_att s) (filter (fun x => memb x (names i)) avail) fd) (depth + 1))],
                      snd (bfit_st fuel cfg psort cats XM y h2 (BTree true [] None (-1) (Some (a, idx)) (Some v) (cmu i) cign) (dset (s_att s) (filter (fun x => memb x (names i)) avail) fd) (depth + 1)))
                  else
                    match get_class_value (b_mu node) y with
                    | Err e => ([BTree true [] None (-1) (Some (a, idx)) (Some v) (cmu i) cign], Err e)
                    | Ok cv => ([BTree true [] (Some cv) (-1) (Some (a, idx)) (Some v) (cmu i) cign], Ok h2)
                    end
                end
              end).
  assert (G : forall h i, same_end (ga h i) (gb h i)).
  { intros h0 i. unfold same_end, ga, gb. destruct (mapM _ (names i)) as [idx|]; cbn [bind fst snd]; [|reflexivity].
    destruct (update_ignored h0 (b_ignored node) (s_att s) (caddr i)) as [h2 cign]. destruct (dget (s_att s) fd) as [avail|]; cbn [bind ret_opt fst snd]; [|reflexivity].
    destruct (qltb 0 (qsum (cmu i))); cbn [fst snd].
    - rewrite IH. destruct (snd (bfit_st _ _ _ _ _ _ _ _ _ _)); [|reflexivity]. eauto.
    - destruct (get_class_value (b_mu node) y); cbn [bind fst snd]; [|reflexivity]. eauto. }
  exact (two_sides ga gb (fun cs => BTree false (b_children node ++ cs) (b_class node) depth (b_value node) (b_var node) (b_mu node) (b_ignored node)) h1 G).
Qed.
Lemma bt_fit_agrees cfg psort root X y :
  bt_fit cfg psort root X y = match snd (bt_fit_st cfg psort root X y) with Ok h => Ok (h, fst (bt_fit_st cfg psort root X y)) | Err e => Err e end.
Proof.
  unfold bt_fit, bt_fit_st. destruct (categorical_features (f_vars cfg)); cbn [bind]; [|reflexivity]. destruct (_ || _); [reflexivity|].
  destruct (dataset_membership X (f_vars cfg)); cbn [bind]; [|reflexivity]. apply bfit_agrees.
Qed.

(** ** ID3 *)
Lemma id3_partial_fit_agrees cfg cls fts SP yc : forall fuel X y t depth erased,
  id3_partial_fit fuel cfg cls fts SP yc X y t depth erased =
  match snd (id3_partial_fit_st fuel cfg cls fts SP yc X y t depth erased) with
  | None => Ok (fst (id3_partial_fit_st fuel cfg cls fts SP yc X y t depth erased))
  | Some e => Err e
  end.
Proof.
  induction fuel as [|fuel IH]; intros X y t depth erased; [reflexivity|]. cbn [id3_partial_fit id3_partial_fit_st]. cbv zeta.
  destruct (max_by _ (map (fun c => (c, count_class c y)) (cls y))) as [[c k]|]; [|destruct (nth_error yc 0); reflexivity].
  destruct (Nat.eqb (List.length X) 0); [reflexivity|]. destruct (Z.leb (i_max_depth cfg) depth); [reflexivity|].
  destruct (Z.ltb (Z.of_nat (List.length X)) (i_min_examples cfg)); [reflexivity|].
  destruct (best_feature (i_positions (i_features cfg)) SP X y (cls y) (fts erased)) as [best|]; cbn [bind]; [|reflexivity].
  destruct (match option_map fst (fst best) with Some i => _ | None => _ end) as [name|]; cbn [ret_opt bind]; [|reflexivity].
  set (var := option_map fst (fst best)). set (splits := match fst best with Some (_, s) => s | None => [] end).
  match goal with |- bind (mapM ?u ?l) _ = _ => match goal with |- context [run_st ?step l] => assert (R := @run_mapM _ _ _ (fun b cn => b = (fst cn, Some (snd cn))) step u l) end end.
  match type of R with ?P -> _ => assert (Q : P) end.
  { intros s _. unfold step_ok. destruct (match var with Some i => column X i | None => Ok [] end) as [col|]; cbn [bind]; [|reflexivity].
    destruct (map snd (filter _ _)) as [|r0 rows]; [cbn [snd fst]; eauto|]. rewrite IH. cbn [fst snd].
    destruct (snd (id3_partial_fit_st _ _ _ _ _ _ _ _ _ _ _)); cbn [bind]; [reflexivity|]. eauto. }
  specialize (R Q). clear Q IH. revert R. match goal with |- context [run_st ?step ?l] => generalize (run_st step l) as r end. intros [cs [e|]]; cbn [fst snd]; intro R.
  - rewrite R. reflexivity.
  - destruct R as (cs' & M & F). rewrite M. cbn [bind].
    assert (L : List.length cs' = List.length splits) by (eapply mapM_length; exact M).
    assert (D : flat_map (fun cn : itree * option nat => match snd cn with Some n => [(fst cn, n)] | None => [] end) cs = cs').
    { clear - F. induction F as [|b cn l l' E F IHF]; [reflexivity|]. subst b. cbn [flat_map fst snd app]. rewrite IHF. destruct cn; reflexivity. }
    assert (D2 : map fst cs = map fst cs').
    { clear - F. induction F as [|b cn l l' E F IHF]; [reflexivity|]. subst b. cbn [map fst]. congruence. }
    rewrite D, D2, L. destruct (i_prunning cfg); [|reflexivity]. destruct (qeqb _ 0); [reflexivity|]. destruct (qltb _ _); reflexivity.
Qed.
Lemma id3_fit_agrees cfg cls fts root X y :
  id3_fit cfg cls fts root X y =
  match snd (id3_fit_st cfg cls fts root X y) with None => Ok (fst (id3_fit_st cfg cls fts root X y)) | Some e => Err e end.
Proof.
  unfold id3_fit, id3_fit_st. destruct (mapM _ (seq 0 _)) as [SP|]; cbn [bind]; [|reflexivity]. apply id3_partial_fit_agrees.
Qed.

(** ** accepted data is readable *)
Lemma column_wide X i col : column X i = Ok col -> forall row, In row X -> (i < List.length row)%nat.
Proof.
  unfold column. intro H. apply mapM_ok in H. induction H as [|row c X col E F IH]; [intros ? []|].
  intros r [<-|Hr]; [|auto]. apply nth_error_Some. destruct (nth_error row i); [discriminate|discriminate E].
Qed.
Lemma membership_wide vars X XM : dataset_membership X vars = Ok XM -> wide vars X.
Proof.
  intros H row Hr. unfold dataset_membership in H. destruct (mapM _ (enumerate vars)) as [l|] eqn:E; [|discriminate]. clear H.
  apply mapM_ok in E. destruct (Nat.le_gt_cases (List.length vars) (List.length row)) as [L|L]; [assumption|exfalso].
  destruct (nth_error vars (List.length row)) as [v|] eqn:Ev; [|apply nth_error_None in Ev; lia].
  assert (I := proj2 (enumerate_In vars (List.length row) v) Ev).
  assert (C : exists col, column X (List.length row) = Ok col).
  { clear - E I. induction E as [|[i w] p l l' H F IH]; [destruct I|]. destruct I as [Q|I]; [|auto]. injection Q as -> ->.
    destruct (column X (List.length row)) as [col|]; [eauto|discriminate H]. }
  destruct C as [col C]. assert (W := column_wide X _ C row Hr). lia.
Qed.
Lemma membership_readable vars X XM : distinct_names vars -> dataset_membership X vars = Ok XM -> readable vars X /\ wide vars X.
Proof.
  intros N H. split; [|eapply membership_wide; exact H]. destruct (@dataset_membership_exact vars X XM N H) as [_ R]. intros row Hr a v s Hv Hs. exact (R a v s row Hv Hs Hr).
Qed.

(** ** what a failed fit leaves *)
Lemma fit_st_root cfg ord root X y : (forall p s, Permutation (ord p s) s) -> distinct_names (f_vars cfg) ->
  List.length X = List.length y -> y <> [] -> readable (f_vars cfg) X -> wide (f_vars cfg) X ->
  exists att g cm, gain_result cfg X y [] (ord [] (f_features cfg)) (att, g, cm) /\
    (stop_met cfg g (masked (acts (f_vars cfg) X []) y) 0 = true ->
     fit_st cfg ord root X y = (Tree true (t_children root) (Some (class_dist cfg X y [])) 0 (t_value root) (t_var root) (acts (f_vars cfg) X []), None)) /\
    (stop_met cfg g (masked (acts (f_vars cfg) X []) y) 0 = false ->
     exists added, fst (fit_st cfg ord root X y) = Tree false (t_children root ++ added) (t_class root) 0 (t_value root) (t_var root) (repeat 1 (List.length y)) /\
       (dget att (exact_mem (f_vars cfg) X) = None -> added = [] /\ snd (fit_st cfg ord root X y) = Some KeyError)).
Proof.
  intros Ho Hn HL Hy HR HW. unfold fit_st. rewrite HL, Nat.eqb_refl. cbn [negb orb].
  destruct (Nat.eqb_spec (List.length y) 0) as [E|_]; [destruct y; [congruence|discriminate]|].
  destruct (membership_total HR HW) as [XM EM]. rewrite EM. destruct (@dataset_membership_exact (f_vars cfg) X XM Hn EM) as [-> _].
  cbn [partial_fit_st t_mu t_leaf t_children t_class t_value t_var].
  assert (A : repeat 1 (List.length y) = acts (f_vars cfg) X []) by (rewrite acts_nil, HL; reflexivity).
  assert (M : 0 < mass (f_vars cfg) X []) by (apply (@root_mass cfg X y); assumption).
  assert (M' : mass (f_vars cfg) X [] <> 0) by (intro Q; rewrite Q in M; qlra).
  destruct (@remaining_spec cfg []) as [N [I _]]. assert (RN : remaining cfg [] = f_features cfg) by reflexivity. rewrite RN in N, I.
  destruct (@max_f_gain_exact cfg X y Hn [] (ord [] (f_features cfg)) M') as [[[att g] cm] [E G]].
  { exact (Permutation_NoDup (Permutation_sym (Ho [] (f_features cfg))) N). }
  { intros f Hf. apply I. exact (Permutation_in _ (Ho [] (f_features cfg)) Hf). }
  exists att, g, cm. split; [exact G|]. rewrite A. rewrite E. rewrite (@class_value_exact cfg X y [] M').
  destruct (stop_met _ _ _ _); (split; intro S; [|]); try discriminate; [rewrite app_nil_r; reflexivity|].
  destruct (dget att _) as [sets|].
  - eexists. split; [reflexivity|discriminate].
  - exists []. split; [reflexivity|]. intros _. split; reflexivity.
Qed.
Lemma fit_st_failed cfg ord root X y t e : (forall p s, Permutation (ord p s) s) -> distinct_names (f_vars cfg) ->
  List.length X = List.length y -> y <> [] -> readable (f_vars cfg) X -> wide (f_vars cfg) X ->
  fit_st cfg ord root X y = (t, Some e) ->
  exists added, t = Tree false (t_children root ++ added) (t_class root) 0 (t_value root) (t_var root) (repeat 1 (List.length y)).
Proof.
  intros Ho Hn HL Hy HR HW H. destruct (@fit_st_root cfg ord root X y Ho Hn HL Hy HR HW) as (att & g & cm & _ & S & F). rewrite H in S, F. cbn [fst snd] in F.
  destruct (stop_met _ _ _ _); [discriminate (S eq_refl)|]. destruct (F eq_refl) as (added & Q & _). eauto.
Qed.
Lemma fit_st_stuck cfg ord root X y : (forall p s, Permutation (ord p s) s) -> distinct_names (f_vars cfg) ->
  List.length X = List.length y -> y <> [] -> readable (f_vars cfg) X -> wide (f_vars cfg) X ->
  ~ In ""%string (map fv_name (f_vars cfg)) -> (f_threshold cfg <= 0)%R -> ~ limit_met cfg X y [] ->
  (forall a, (a < List.length (f_vars cfg))%nat -> (info_gain (f_vars cfg) X y [] a <= 0)%R) ->
  fit_st cfg ord root X y = (Tree false (t_children root) (t_class root) 0 (t_value root) (t_var root) (repeat 1 (List.length y)), Some KeyError).
Proof.
  intros Ho Hn HL Hy HR HW He T NL G. destruct (@fit_st_root cfg ord root X y Ho Hn HL Hy HR HW) as (att & g & cm & R & _ & F).
  destruct R as [[R _]|(a & v & l1 & l2 & Hv & _ & _ & P & _)].
  2:{ exfalso. assert (a < List.length (f_vars cfg))%nat by (apply nth_error_Some; congruence). specialize (G a H). lra. }
  injection R as -> -> ->.
  assert (S : stop_met cfg 0 (masked (acts (f_vars cfg) X []) y) 0 = false).
  { destruct (stop_met _ _ _ _) eqn:S; [exfalso|reflexivity]. unfold stop_met in S. rewrite (masked_reaching (f_vars cfg) X y []) in S. rewrite !orb_true_iff, zunique_lt2, Z.ltb_lt, Z.leb_le, Rltb_lt in S.
    unfold limit_met in *. cbn [List.length] in *. destruct S as [[[S|S]|S]|S]; [tauto|tauto|tauto|lra]. }
  destruct (F S) as (added & Q & D). destruct D as [-> D].
  { apply dget_None. unfold exact_mem, dkeys. rewrite map_map. cbn [fst]. rewrite (map_enumerate fv_name). assumption. }
  rewrite app_nil_r in Q. destruct (fit_st cfg ord root X y) as [t o]. cbn [fst snd] in *. congruence.
Qed.

Lemma bt_fit_st_failed cfg psort root X y t e : (forall l, Permutation (psort l) l) -> distinct_names (f_vars cfg) ->
  List.length X = List.length y -> y <> [] -> (forall v, In v (f_vars cfg) -> fv_sets v <> []) -> readable (f_vars cfg) X -> wide (f_vars cfg) X ->
  b_ignored root = [] -> bt_fit_st cfg psort root X y = (t, Err e) ->
  exists added, t = BTree false (b_children root ++ added) (b_class root) 0 (b_value root) (b_var root) (repeat 1 (List.length y)) [].
Proof.
  intros Hp Hn HL Hy Hs HR HW IG H. destruct (@bt_fit_eq cfg psort X y Hn HL Hy Hs HR HW) as (cats & C & Hc & _). unfold bt_fit_st in H. rewrite C in H.
  rewrite HL, Nat.eqb_refl in H. cbn [negb orb] in H.
  destruct (Nat.eqb_spec (List.length y) 0) as [E|_]; [destruct y; [congruence|discriminate]|].
  destruct (membership_total HR HW) as [XM EM]. rewrite EM in H. destruct (@dataset_membership_exact (f_vars cfg) X XM Hn EM) as [-> _]. rewrite IG in H.
  unfold fuel_for in H. cbn [bfit_st b_mu b_leaf b_children b_class b_value b_var b_ignored] in H.
  destruct (@broot_inv X y HL Hy) as (HH & HI & HM & HP). assert (HP' : qsum (b_mu (broot y)) <> 0) by (intro Z; rewrite Z in HP; qlra).
  destruct (@max_split_ok cfg psort X y cats Hp Hn HL Hy Hc [] [] (b_mu (broot y)) (b_ignored (broot y)) HH HM HI HP') as (h1 & best & E & _).
  rewrite <- (@fd_initial cfg Hn) in E. cbn [b_mu b_ignored broot] in E, HP'. rewrite E in H.
  destruct (stop_met _ _ _ _).
  - rewrite (@class_value_ok y _ HP') in H. discriminate H.
  - destruct best as [s|]; [|injection H as <- _; exists []; reflexivity].
    cbv zeta in H. destruct (ret_opt KeyError _) as [a|]; cbn [bind] in H; [|injection H as <- _; exists []; reflexivity].
    destruct (ret_opt IndexError _) as [v|]; cbn [bind] in H; [|injection H as <- _; exists []; reflexivity].
    match type of H with match ?r with Ok _ => _ | Err _ => _ end = _ => destruct r end; injection H as <- _; eexists; reflexivity.
Qed.

(** ** ID3 *)
Lemma unique_table features X y SP : NoDup features -> features <> [] -> List.length X = List.length y -> X <> [] ->
  mapM (fun i => do col <- column X i; np_unique col) (seq 0 (List.length features)) = Ok SP -> table features X y.
Proof.
  intros ND NE HL HX H. split; [assumption|]. split; [assumption|]. split; [assumption|]. split; [assumption|].
  assert (C : forall i, (i < List.length features)%nat -> exists col u, column X i = Ok col /\ np_unique col = Ok u).
  { intros i Hi. apply mapM_ok in H. assert (I : In i (seq 0 (List.length features))) by (apply in_seq; lia). clear - H I.
    induction H as [|j u l l' E F IH]; [destruct I|]. destruct I as [->|I]; [|auto]. destruct (column X i) as [col|]; [|discriminate]. cbn [bind] in E. eauto. }
  split.
  - intros x Hx. destruct (Nat.le_gt_cases (List.length features) (List.length x)) as [L|L]; [assumption|exfalso].
    destruct (C _ L) as (col & u & E & _). assert (Q := column_wide X _ E x Hx). lia.
  - intros i Hi. destruct (C i Hi) as (col & u & E & U). unfold column in E. apply mapM_ok in E. unfold np_unique in U.
    destruct (flat_map cnum col) as [|q qs] eqn:EN.
    + right. intros x Hx. clear - E EN Hx. induction E as [|r c X col E F IH]; [destruct Hx|]. destruct (nth_error r i) as [v|] eqn:Ev; [|discriminate]. injection E as ->.
      cbn [flat_map] in EN. apply app_eq_nil in EN. destruct EN as [A B]. destruct Hx as [<-|Hx]; [|auto]. destruct c as [q|s]; [discriminate A|eauto].
    + destruct (flat_map cstr col) as [|s ss] eqn:ES; [|discriminate]. left. intros x Hx. clear - E ES Hx.
      induction E as [|r c X col E F IH]; [destruct Hx|]. destruct (nth_error r i) as [v|] eqn:Ev; [|discriminate]. injection E as ->.
      cbn [flat_map] in ES. apply app_eq_nil in ES. destruct ES as [A B]. destruct Hx as [<-|Hx]; [|auto]. destruct c as [q|s]; [eauto|discriminate A].
Qed.
Lemma run_st_length A B (step : A -> list B * option exn) l : (forall x, (List.length (fst (step x)) <= 1)%nat) -> (List.length (fst (run_st step l)) <= List.length l)%nat.
Proof.
  intro H. induction l as [|x l IH]; [apply le_n|]. cbn [run_st]. assert (Hx := H x). destruct (snd (step x)); cbn [fst List.length]; [lia|]. rewrite app_length. lia.
Qed.
Lemma id3_fit_st_failed cfg cls fts root X y t e : table (i_features cfg) X y -> set_orders cfg cls fts ->
  id3_fit_st cfg cls fts root X y = (t, Some e) ->
  i_leaf t = false /\ i_level t = 0%Z /\ (List.length (i_children t) <= List.length (i_splits t))%nat /\
  exists i, i_var t = Some i /\ (i < List.length (i_features cfg))%nat /\ forall v, In v (i_splits t) <-> occurs X i v.
Proof.
  intros TB SO H. destruct (table_context _ TB) as [SP C]. unfold id3_fit_st in H. rewrite (cx_fit C) in H.
  assert (FR := fts_root SO (cx_some C)). destruct FR as [FR _].
  cbn [id3_partial_fit_st] in H. cbv zeta in H.
  destruct (@majority_ok cfg cls fts SO (combine X y) (cx_rows C)) as (c & k & E & _). rewrite (cx_snd C) in E. rewrite E in H. clear E.
  destruct (Nat.eqb_spec (List.length X) 0) as [Z0|_]; [destruct TB as (_ & _ & _ & N & _); destruct X; [congruence|discriminate]|].
  destruct (Z.leb _ _); [discriminate|]. destruct (Z.ltb _ _); [discriminate|].
  destruct (@best_feature_ok cfg cls fts SP SO (cx_nodup C) (cx_sp C) (combine X y) (fts []) (cx_fine C) (cx_rows C)) as (best & E & P).
  { intros f Hf. apply (Permutation_in _ (proj2 SO [])) in Hf. apply filter_In in Hf. apply (nodup_In string_dec). apply Hf. }
  rewrite (cx_fst C), (cx_snd C) in E. rewrite E in H. clear E. destruct (fts []) as [|f l] eqn:EF; [congruence|].
  destruct (@picked_some _ _ _ _ _ _ P) as (i & spl & g & EB & _ & Gi & Si). rewrite EB in H. cbn [option_map fst] in H. rewrite Gi in H.
  match type of H with context [run_st ?step ?l] => assert (RL := @run_st_length _ _ step l); destruct (run_st step l) as [cs o] end.
  assert (RL' : (List.length cs <= List.length spl)%nat).
  { apply RL. intro s. destruct (column X i); [|apply le_n]. destruct (map snd (filter _ _)); apply le_n. }
  clear RL. cbn [fst snd] in H.
  assert (Q : forall er nl, (ITree (Some i) false (map fst cs) spl c (Some (List.length X, k)) 0 er nl) = t -> 
    i_leaf t = false /\ i_level t = 0%Z /\ (List.length (i_children t) <= List.length (i_splits t))%nat /\
    exists i, i_var t = Some i /\ (i < List.length (i_features cfg))%nat /\ forall v, In v (i_splits t) <-> occurs X i v).
  { intros er nl <-. cbn [i_leaf i_level i_children i_splits i_var]. rewrite map_length. split; [reflexivity|]. split; [reflexivity|]. split; [exact RL'|]. exists i.
    split; [reflexivity|]. split; [apply nth_error_Some; congruence|]. intro v. apply (cx_occurs C). assumption. }
  destruct o as [e'|]; [injection H as H _; eapply Q; exact H|]. destruct (i_prunning cfg); [|discriminate].
  destruct (qeqb _ 0); [injection H as H _; eapply Q; exact H|]. destruct (qltb _ _); discriminate.
Qed.
