(** * Proofs: the order of the columns (C125) *)
From Verif Require Import Prelude M_Fuzzy M_Discretize P_FuzzySet P_FuzzyVar P_Entropy M_Rule M_FDT S_FDT P_FDT P_FDT2 P_FDT3 P_Degrees M_ID3 S_Columns P_FitState.
From Coq Require Import Reals Lra.
Local Notation eqb := Prelude.eqb.
Set Implicit Arguments.
Open Scope Qc_scope.

Lemma moved_back A (pi sigma : nat -> nat) (l l' : list A) : (forall a, pi (sigma a) = a) -> moved pi l l' -> moved sigma l' l.
Proof. intros H M a. rewrite <- (H a) at 2. symmetry. apply M. Qed.
Lemma moved_le A (pi sigma : nat -> nat) (l l' : list A) : (forall a, sigma (pi a) = a) -> moved pi l l' -> (List.length l <= List.length l')%nat.
Proof.
  intros H M. assert (I : (List.length (map pi (seq 0 (List.length l))) <= List.length (seq 0 (List.length l')))%nat).
  { apply NoDup_incl_length.
    - apply FinFun.Injective_map_NoDup; [|apply seq_NoDup]. intros a b E. rewrite <- (H a), <- (H b), E. reflexivity.
    - intros b Hb. apply in_map_iff in Hb. destruct Hb as [a [<- Ha]]. apply in_seq in Ha. apply in_seq. split; [lia|]. cbn. apply nth_error_Some. rewrite M. apply nth_error_Some. lia. }
  rewrite map_length, !seq_length in I. exact I.
Qed.
Lemma moved_perm A (pi : nat -> nat) (l l' : list A) : bijective pi -> moved pi l l' -> Permutation l l'.
Proof.
  intros (sigma & H1 & H2) M. apply Permutation_nth_error. assert (B := @moved_back A pi sigma l l' H2 M). split.
  - apply Nat.le_antisymm; [exact (@moved_le A pi sigma l l' H1 M)|exact (@moved_le A sigma pi l' l H2 B)].
  - exists sigma. split; [intros a b E; rewrite <- (H2 a), <- (H2 b), E; reflexivity|]. intro n. symmetry. apply B.
Qed.
Lemma moved_map A B (f : A -> B) pi l l' : moved pi l l' -> moved pi (map f l) (map f l').
Proof. intros M a. rewrite !nth_error_map, M. reflexivity. Qed.

Section FDT.
  Variable pi : nat -> nat.
  Hypothesis HB : bijective pi.
  Variables vars vars' : list fvar.
  Hypothesis HV : moved pi vars vars'.
  Hypothesis HN : distinct_names vars.
  Lemma names_moved : distinct_names vars'.
  Proof.
    destruct HN as [N1 N2]. assert (P := moved_perm HB HV). split.
    - apply (Permutation_NoDup (Permutation_map fv_name P) N1).
    - intros v Hv. apply N2. apply (Permutation_in _ (Permutation_sym P) Hv).
  Qed.
  Lemma positions_miss vs n : ~ In n (map fv_name vs) -> dget n (f_positions vs) = None.
  Proof.
    intro H. apply dget_None. intro Q. apply H. unfold f_positions in Q. rewrite dict_of_keys_In in Q. rewrite map_map in Q. cbn [fst] in Q. rewrite (map_enumerate fv_name) in Q. exact Q.
  Qed.
  Lemma positions_moved n : dget n (f_positions vars') = option_map pi (dget n (f_positions vars)).
  Proof.
    assert (P := Permutation_map fv_name (moved_perm HB HV)). destruct (in_dec string_dec n (map fv_name vars)) as [I|I].
    - apply in_map_iff in I. destruct I as [v [<- I]]. apply In_nth_error in I. destruct I as [a Ha].
      rewrite (positions_get vars _ (proj1 HN) Ha). cbn [option_map]. apply (positions_get vars' _ (proj1 names_moved)). rewrite HV. exact Ha.
    - rewrite !positions_miss; [reflexivity|assumption|]. intro Q. apply I. apply (Permutation_in _ (Permutation_sym P) Q).
  Qed.

  (** ** degrees *)
  Lemma degree_moved row row' a i : moved pi row row' -> lit_degree vars' row' (pi a, i) = lit_degree vars row (a, i).
  Proof. intro M. unfold lit_degree. cbn [fst snd]. rewrite HV, M. reflexivity. Qed.
  Lemma exact_sets_moved X X' a v : moved_table pi X X' -> exact_sets vars' X' (pi a) v = exact_sets vars X a v.
  Proof.
    intro M. unfold exact_sets. apply map_ext. intros [i s]. cbn [fst snd]. f_equal. induction M as [|row row' X X' R M IH]; [reflexivity|]. cbn [map]. rewrite IH, (@degree_moved _ _ a i R). reflexivity.
  Qed.
  Lemma readable_moved X X' : moved_table pi X X' -> readable vars X -> wide vars X -> readable vars' X' /\ wide vars' X'.
  Proof.
    intros M R W. destruct HB as (sigma & H1 & H2). split.
    - intros row' Hr a' v s Hv Hs.
      assert (exists row, In row X /\ moved pi row row') as (row & Ir & Mr).
      { clear - M Hr. induction M as [|r r' X X' R M IH]; [destruct Hr|]. destruct Hr as [<-|Hr]; [exists r; split; [left; reflexivity|assumption]|]. destruct (IH Hr) as (q & A & B). exists q. split; [right|]; assumption. }
      rewrite <- (H2 a') in Hv. rewrite HV in Hv. destruct (R row Ir _ v s Hv Hs) as (x & d & A & B). exists x, d. split; [|assumption]. rewrite <- (H2 a'), Mr. assumption.
    - intros row' Hr. assert (exists row, In row X /\ moved pi row row') as (row & Ir & Mr).
      { clear - M Hr. induction M as [|r r' X X' R M IH]; [destruct Hr|]. destruct Hr as [<-|Hr]; [exists r; split; [left; reflexivity|assumption]|]. destruct (IH Hr) as (q & A & B). exists q. split; [right|]; assumption. }
      rewrite <- (Permutation_length (moved_perm HB HV)), <- (Permutation_length (moved_perm HB Mr)). apply W. assumption.
  Qed.
  Lemma membership_moved X X' XM : moved_table pi X X' -> dataset_membership X vars = Ok XM ->
    exists XM', dataset_membership X' vars' = Ok XM' /\ forall n, dget n XM' = dget n XM.
  Proof.
    intros M H. destruct (@membership_readable vars X XM HN H) as [R W]. destruct (readable_moved M R W) as [R' W'].
    destruct (membership_total R' W') as [XM' H']. exists XM'. split; [assumption|].
    destruct (@dataset_membership_exact vars X XM HN H) as [-> _]. destruct (@dataset_membership_exact vars' X' XM' names_moved H') as [-> _]. clear H H'.
    intro n. assert (P := Permutation_map fv_name (moved_perm HB HV)). destruct (in_dec string_dec n (map fv_name vars)) as [I|I].
    - apply in_map_iff in I. destruct I as [v [<- I]]. apply In_nth_error in I. destruct I as [a Ha].
      rewrite (@exact_mem_get vars X a v (proj1 HN) Ha). rewrite (@exact_mem_get vars' X' (pi a) v (proj1 names_moved)) by (rewrite HV; exact Ha). rewrite (exact_sets_moved a v M). reflexivity.
    - assert (I' : ~ In n (map fv_name vars')) by (intro Q; apply I; apply (Permutation_in _ (Permutation_sym P) Q)).
      assert (K : forall vs Y, dkeys (exact_mem vs Y) = map fv_name vs) by (intros vs Y; unfold exact_mem, dkeys; rewrite map_map; cbn [fst]; apply (map_enumerate fv_name)).
      rewrite (proj2 (dget_None n (exact_mem vars X))), (proj2 (dget_None n (exact_mem vars' X'))); [reflexivity| |]; rewrite K; assumption.
  Qed.

  (** ** training *)
  Lemma max_f_gain_ext tn mu l (XM XM' : xmem) y : (forall n, dget n XM' = dget n XM) -> max_f_gain tn mu l XM' y = max_f_gain tn mu l XM y.
  Proof.
    intro E. unfold max_f_gain. generalize (""%string, 0%R, @nil (string * list Qc)) as b. induction l as [|n l IH]; intro b; [reflexivity|]. cbn [foldM].
    unfold feature_gain at 1 3. rewrite E. match goal with |- bind ?a _ = bind ?a _ => destruct a end; cbn [bind]; [|reflexivity]. apply IH.
  Qed.
  Lemma remove_perm (n : string) l l' : Permutation l l' -> Permutation (remove string_dec n l) (remove string_dec n l').
  Proof.
    intro P. induction P as [|x l l' P IH|x z l|l l2 l3 P1 IH1 P2 IH2]; cbn [remove]; [constructor| | |etransitivity; eassumption].
    - destruct (string_dec n x); [assumption|constructor; assumption].
    - destruct (string_dec n x), (string_dec n z); try constructor; apply Permutation_refl.
  Qed.
  Variable cfg : fdt_cfg.
  Hypothesis Hcfg : f_vars cfg = vars.
  Variables ord ord' : list (nat * nat) -> list string -> list string.
  Hypothesis Hord : forall p l l', Permutation l l' -> ord' (renumber_path pi p) l' = ord p l.
  Lemma partial_fit_moved (XM XM' : xmem) y : (forall n, dget n XM' = dget n XM) -> forall fuel node path feats feats' depth, Permutation feats feats' ->
    partial_fit fuel (move_vars vars' cfg) ord' XM' y (renumber pi node) (renumber_path pi path) feats' depth =
    rmap (renumber pi) (partial_fit fuel cfg ord XM y node path feats depth).
  Proof.
    intro E. induction fuel as [|fuel IH]; intros node path feats feats' depth P; [reflexivity|]. cbn [partial_fit].
    destruct node as [l cs cv lv va vr mu]. cbn [renumber t_mu t_children t_value t_var t_class].
    rewrite (Hord path P), (max_f_gain_ext qmin mu (ord path feats) XM XM' y E).
    destruct (max_f_gain qmin mu (ord path feats) XM y) as [[[att x] cm]|]; cbn [bind rmap]; [|reflexivity].
    change (stop_met (move_vars vars' cfg) x (masked mu y) depth) with (stop_met cfg x (masked mu y) depth).
    destruct (stop_met cfg x (masked mu y) depth); [destruct (get_class_value mu y); reflexivity|].
    rewrite E. destruct (dget att XM) as [sets|]; cbn [ret_opt bind rmap]; [|reflexivity].
    match goal with |- bind ?m' _ = rmap _ (bind ?m _) => assert (Q : m' = rmap (map (renumber pi)) m) end.
    { generalize (enumerate (dkeys sets)) as js. induction js as [|[i value] js IHj]; [reflexivity|]. cbn [mapM].
      match goal with |- bind ?s' _ = rmap _ (bind ?s _) => assert (Q : s' = rmap (renumber pi) s) end.
      { replace (memb att feats') with (memb att feats).
        2:{ destruct (memb att feats) eqn:B.
            - symmetry. apply memb_In. apply (Permutation_in _ P). apply (proj1 (@memb_In _ _ _ _) B).
            - symmetry. apply memb_not_In. intro Q. apply (proj1 (@memb_not_In _ _ _ _) B). apply (Permutation_in _ (Permutation_sym P) Q). }
        destruct (negb (memb att feats)); [reflexivity|]. change (f_vars (move_vars vars' cfg)) with vars'. rewrite Hcfg, positions_moved.
        destruct (dget att (f_positions vars)) as [a|]; cbn [option_map ret_opt bind rmap]; [|reflexivity]. rewrite HV.
        destruct (nth_error vars a) as [v|]; cbn [ret_opt bind rmap]; [|reflexivity].
        destruct (dget value cm) as [m|]; cbn [ret_opt bind rmap]; [|reflexivity]. cbv zeta. destruct (qltb 0 (qsum m)).
        - rewrite <- (IH (new_tree (Some (a, i)) (Some v) m) (path ++ [(a, i)]) (remove string_dec att feats) _ (depth + 1)%Z (@remove_perm att _ _ P)).
          unfold renumber_path. rewrite map_app. reflexivity.
        - destruct (get_class_value mu y); reflexivity. }
      rewrite Q, IHj. match goal with |- bind (rmap _ ?s) _ = _ => destruct s end; cbn [rmap bind]; [|reflexivity].
      match goal with |- bind (rmap _ ?s) _ = _ => destruct s end; reflexivity. }
    rewrite Q. match goal with |- bind (rmap _ ?m) _ = _ => destruct m end; cbn [rmap bind renumber]; [|reflexivity]. rewrite map_app. reflexivity.
  Qed.
  Lemma fit_moved root X X' y t : moved_table pi X X' -> fit cfg ord root X y = Ok t -> fit (move_vars vars' cfg) ord' (renumber pi root) X' y = Ok (renumber pi t).
  Proof.
    intros M H. unfold fit in *. rewrite <- (Forall2_length M). destruct (_ || _); [discriminate|]. rewrite Hcfg in H. change (f_vars (move_vars vars' cfg)) with vars'.
    destruct (dataset_membership X vars) as [XM|] eqn:EM; cbn [bind] in H; [|discriminate]. destruct (membership_moved M EM) as (XM' & -> & E). cbn [bind].
    assert (P : Permutation (f_features cfg) (f_features (move_vars vars' cfg))).
    { unfold f_features. change (f_vars (move_vars vars' cfg)) with vars'. rewrite Hcfg, !nodup_fixed_point; [apply Permutation_map, (moved_perm HB HV)|apply names_moved|apply HN]. }
    rewrite <- (Permutation_length P).
    assert (Q := @partial_fit_moved XM XM' y E (S (List.length (f_features cfg))) (Tree (t_leaf root) (t_children root) (t_class root) (t_level root) (t_value root) (t_var root) (repeat 1 (List.length y))) [] _ _ 0%Z P).
    rewrite H in Q. cbn [rmap] in Q. rewrite <- Q. destruct root. reflexivity.
  Qed.
End FDT.

(** ** prediction and rules *)
Lemma column_moved pi X X' a : moved_table pi X X' -> column X' (pi a) = column X a.
Proof. intro M. unfold column. induction M as [|row row' X X' R M IH]; [reflexivity|]. cbn [mapM]. rewrite R, IH. reflexivity. Qed.
Lemma predict_moved pi tn X X' : moved_table pi X X' -> forall t mu, partial_predict tn X' mu (renumber pi t) = partial_predict tn X mu t.
Proof.
  intro M. induction t as [l cs cv lv va vr m IH] using tree_ind'. intro mu. cbn [renumber partial_predict].
  match goal with |- bind ?a _ = bind ?b _ => assert (E : a = b) end.
  { destruct va as [[a i]|]; cbn [option_map fst snd]; [|reflexivity]. rewrite (column_moved a M). reflexivity. }
  rewrite E. match goal with |- bind ?a _ = bind ?a _ => destruct a as [mu'|]; cbn [bind]; [|reflexivity] end. destruct l; [reflexivity|].
  destruct cs as [|c cs]; [reflexivity|]. cbn [map].
  match goal with |- bind ?a _ = bind ?b _ => assert (Q : a = b); [|rewrite Q; reflexivity] end.
  rewrite <- (@map_cons _ _ (renumber pi) c cs). revert IH. generalize (c :: cs). clear. induction l as [|c l IHl]; intro F; [reflexivity|]. inversion F as [|? ? F1 F2]; subst. cbn [map mapM]. rewrite F1, (IHl F2). reflexivity.
Qed.
Lemma rules_moved pi th : forall t prefix, get_rules (renumber pi t) prefix th = get_rules t prefix th.
Proof.
  induction t as [l cs cv lv va vr m IH] using tree_ind'. intro prefix. cbn [renumber get_rules].
  match goal with |- bind ?a _ = bind ?b _ => assert (E : a = b) end.
  { destruct va as [[a i]|]; reflexivity. }
  rewrite E. match goal with |- bind ?a _ = bind ?a _ => destruct a as [p'|]; cbn [bind]; [|reflexivity] end. destruct l; [reflexivity|].
  match goal with |- bind ?a _ = bind ?b _ => assert (Q : a = b); [|rewrite Q; reflexivity] end.
  revert IH. clear. induction cs as [|c l IHl]; intro F; [reflexivity|]. inversion F as [|? ? F1 F2]; subst. cbn [map mapM]. rewrite F1, (IHl F2). reflexivity.
Qed.
