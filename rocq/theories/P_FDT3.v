(** * Fitted fuzzy trees: prediction and rules *)
From Verif Require Import Prelude M_Fuzzy M_Discretize M_Rule M_FDT S_Rule S_FDT P_FuzzySet P_FuzzyVar P_Entropy P_Rule P_FDT P_FDT2.
From Coq Require Import Reals Lra.
Set Implicit Arguments.
Open Scope Qc_scope.

Lemma tree_ind' (P : tree -> Prop) :
  (forall l cs cv lv va vr mu, Forall P cs -> P (Tree l cs cv lv va vr mu)) -> forall t, P t.
Proof.
  intro H. fix IH 1. intros [l cs cv lv va vr mu]. apply H. induction cs as [|c cs IHcs]; constructor; [apply IH|exact IHcs].
Qed.

Definition own (t : tree) : list (nat * nat) := match t_value t with Some l => [l] | None => [] end.
Definition own_ok (vars : list fvar) (value : option (nat * nat)) (var : option fvar) : Prop :=
  match value with
  | Some (a, i) => exists v s, var = Some v /\ nth_error vars a = Some v /\ nth_error (fv_sets v) i = Some s
  | None => True
  end.
Definition cv_ok (classes : list Z) (cv : dict Z Qc) : Prop :=
  map fst cv = classes /\ (forall c w, In (c, w) cv -> 0 <= w /\ w <= 1) /\ qsum (map snd cv) = 1.
Fixpoint wf (vars : list fvar) (classes : list Z) (t : tree) : Prop :=
  let 'Tree leaf cs cv _ value var _ := t in
  own_ok vars value var /\
  if leaf then exists d, cv = Some d /\ cv_ok classes d
  else cs <> [] /\ fold_right (fun c P => (t_value c <> None /\ wf vars classes c) /\ P) True cs.
Lemma fold_and A (Q : A -> Prop) l : fold_right (fun c P => Q c /\ P) True l <-> Forall Q l.
Proof. induction l as [|x l IH]; cbn; [split; [constructor|trivial]|]. rewrite IH. split; [intros []; constructor; assumption|intro H; inversion H; auto]. Qed.
Lemma wf_own vars classes t : wf vars classes t -> own_ok vars (t_value t) (t_var t).
Proof. destruct t. cbn. tauto. Qed.

Lemma trained_wf_gen cfg ord X y : (forall p s, Permutation (ord p s) s) -> distinct_names (f_vars cfg) ->
  List.length X = List.length y ->
  (0 < f_threshold cfg)%R \/ ~ In ""%string (map fv_name (f_vars cfg)) ->
  (forall v, In v (f_vars cfg) -> fv_sets v <> []) ->
  forall n p node, fitted cfg ord X y p node n -> own_ok (f_vars cfg) (t_value node) (t_var node) -> wf (f_vars cfg) (zunique y) n.
Proof.
  intros Ho Hn HL Hth Hs. induction n as [lf cs cv lv va vr mu IH] using tree_ind'. intros p node F O.
  assert (D : forall q, 0 < mass (f_vars cfg) X q -> cv_ok (zunique y) (class_dist cfg X y q)).
  { intros q Hq. destruct (@class_dist_spec cfg X y HL q Hq) as (A & B & C). split; [assumption|]. split; [|assumption].
    intros c w H. destruct (B c w H) as (B1 & B2 & _). auto. }
  destruct (@fitted_cases cfg ord X y Ho Hn Hth p node _ F) as [[E _]|(a & v & cs' & Ch & _ & E & FF)].
  - unfold leaf_result in E. injection E as -> -> -> -> -> -> ->. cbn. split; [assumption|]. eexists. split; [reflexivity|]. apply D, F.
  - injection E as -> -> -> -> -> -> ->. cbn [wf]. split; [assumption|]. split.
    + intros ->. inversion FF as [E|]. destruct Ch as [Hv _]. apply nth_error_In in Hv. apply (Hs v Hv). destruct (fv_sets v); [reflexivity|discriminate].
    + apply (@fold_and _ (fun c => t_value c <> None /\ wf (f_vars cfg) (zunique y) c)). apply Forall_forall. intros c Hc.
      rewrite Forall_forall in IH. destruct (@Forall2_In_r _ _ _ _ _ c FF Hc) as [i [Hi Hi']].
      assert (Oc : own_ok (f_vars cfg) (Some (a, i)) (Some v)).
      { apply in_seq in Hi. destruct (nth_error (fv_sets v) i) as [s|] eqn:Es; [|apply nth_error_None in Es; lia].
        exists v, s. split; [reflexivity|]. split; [apply Ch|assumption]. }
      destruct Hi' as [[M Fc]|[M ->]].
      * destruct (@fitted_value cfg ord X y Ho Hn Hth _ _ _ Fc) as (A & _). split; [rewrite A; discriminate|].
        apply (IH c Hc _ _ Fc). exact Oc.
      * split; [discriminate|]. unfold zero_leaf. cbn [wf]. split; [exact Oc|]. eexists. split; [reflexivity|]. apply D, F.
Qed.
Lemma trained_wf cfg ord X y t : trained cfg ord X y t -> (forall v, In v (f_vars cfg) -> fv_sets v <> []) ->
  wf (f_vars cfg) (zunique y) t /\ t_value t = None.
Proof.
  intros T Hs. destruct (trained_fitted T) as (HL & _ & _ & F). destruct T as (Ho & Hn & Hth & _). split.
  - apply (trained_wf_gen Ho Hn HL Hth Hs F). cbn. trivial.
  - apply (@fitted_value cfg ord X y Ho Hn Hth _ _ _ F).
Qed.

(** ** the list of leaves *)
Definition extend (c : tree) (pl : list (nat * nat) * tree) : list (nat * nat) * tree := (own c ++ fst pl, snd pl).
Lemma leaves_inner cs cv lv va vr mu : leaves (Tree false cs cv lv va vr mu) = List.concat (map (fun c => map (extend c) (leaves c)) cs).
Proof. reflexivity. Qed.
Lemma wf_leaves vars classes t : wf vars classes t -> forall p n, In (p, n) (leaves t) ->
  (exists d, t_class n = Some d /\ cv_ok classes d) /\ t_leaf n = true /\
  (forall l, In l p -> exists v s, nth_error vars (fst l) = Some v /\ nth_error (fv_sets v) (snd l) = Some s).
Proof.
  induction t as [lf cs cv lv va vr mu IH] using tree_ind'. cbn [wf]. intros [O W] p n H. destruct lf.
  - cbn in H. destruct H as [E|[]]. injection E as <- <-. split; [exact W|]. split; [reflexivity|intros ? []].
  - destruct W as [_ W]. rewrite leaves_inner in H. apply in_concat in H. destruct H as [L [HL Hin]].
    apply in_map_iff in HL. destruct HL as [c [<- Hc]]. apply in_map_iff in Hin. destruct Hin as [[q m] [E Hin]]. injection E as <- <-.
    rewrite (@fold_and _ (fun c => t_value c <> None /\ wf vars classes c)) in W. rewrite Forall_forall in IH, W.
    destruct (W c Hc) as [Vc Wc]. destruct (IH c Hc Wc q m Hin) as (A & B & C). split; [assumption|]. split; [assumption|].
    intros l Hl. cbn [fst] in Hl. apply in_app_or in Hl. destruct Hl as [Hl|Hl]; [|auto].
    apply wf_own in Wc. unfold own in Hl. destruct (t_value c) as [[a i]|]; [|destruct Hl]. destruct Hl as [<-|[]].
    destruct Wc as (v & s & _ & A1 & A2). exists v, s. auto.
Qed.
Lemma wf_leaves_nonempty vars classes t : wf vars classes t -> leaves t <> [].
Proof.
  induction t as [lf cs cv lv va vr mu IH] using tree_ind'. cbn [wf]. intros [O W]. destruct lf; [discriminate|].
  destruct W as [N W]. rewrite leaves_inner. destruct cs as [|c cs]; [congruence|]. cbn [map List.concat].
  inversion IH as [|? ? I1 I2]; subst. destruct W as [[_ Wc] _]. specialize (I1 Wc). destruct (leaves c); [congruence|discriminate].
Qed.
Lemma leaves_node_at vars classes t : wf vars classes t -> forall p n, In (p, n) (leaves t) <-> node_at t p n /\ t_leaf n = true.
Proof.
  induction t as [lf cs cv lv va vr mu IH] using tree_ind'. cbn [wf]. intros [O W] p n. destruct lf.
  - cbn. split.
    + intros [E|[]]. injection E as <- <-. split; [constructor|reflexivity].
    + intros [H L]. inversion H as [|? ? ? ? ? Hl]; subst; [auto|discriminate].
  - destruct W as [_ W]. rewrite (@fold_and _ (fun c => t_value c <> None /\ wf vars classes c)) in W. rewrite Forall_forall in IH, W.
    rewrite leaves_inner, in_concat. split.
    + intros [L [HL Hin]]. apply in_map_iff in HL. destruct HL as [c [<- Hc]]. apply in_map_iff in Hin. destruct Hin as [[q m] [E Hin]]. injection E as <- <-.
      destruct (W c Hc) as [Vc Wc]. apply (IH c Hc Wc) in Hin. destruct Hin as [A B]. split; [|assumption].
      cbn [fst snd]. unfold own. destruct (t_value c) as [l|] eqn:V; [|congruence]. econstructor; [reflexivity|exact Hc|exact V|exact A].
    + intros [H L]. inversion H as [|? c l q ? Hl Hc V Hn]; subst; [discriminate|]. cbn in Hc.
      exists (map (extend c) (leaves c)). split; [apply in_map_iff; eauto|]. apply in_map_iff. exists (q, n). split; [unfold extend, own; rewrite V; reflexivity|].
      apply (IH c Hc); [apply W; assumption|auto].
Qed.

(** ** prediction *)
Definition act_from (tn : Qc -> Qc -> Qc) (vars : list fvar) (row : list cell) (m : Qc) (p : list (nat * nat)) : Qc :=
  fold_left (fun acc l => tn acc (lit_degree vars row l)) p m.
Lemma act_from_app tn vars row m p q : act_from tn vars row m (p ++ q) = act_from tn vars row (act_from tn vars row m p) q.
Proof. apply fold_left_app. Qed.
Lemma readable_membership vars X a v i s : readable vars X -> nth_error vars a = Some v -> nth_error (fv_sets v) i = Some s ->
  exists col, column X a = Ok col /\ membership_col s col = Ok (map (fun row => lit_degree vars row (a, i)) X).
Proof.
  intros R Hv Hs. unfold column, membership_col. induction X as [|row X IH]; [exists []; split; reflexivity|].
  destruct IH as [col [A B]]; [intros r Hr; apply R; right; assumption|].
  destruct (R row (or_introl eq_refl) a v s Hv (nth_error_In _ _ Hs)) as [x [d [C D]]].
  exists (x :: col). cbn [mapM map]. rewrite C. cbn [bind ret_opt]. rewrite A. cbn [bind mapM]. rewrite D. cbn [bind]. rewrite B. cbn [bind].
  split; [reflexivity|]. unfold lit_degree at 2. cbn [fst snd]. rewrite Hv, Hs, C, D. reflexivity.
Qed.
Lemma map2_map2 A B (f g : A -> B -> A) l l' : map2 g (map2 f l l') l' = map2 (fun x z => g (f x z) z) l l'.
Proof. revert l'. induction l as [|x l IH]; intros [|z l']; cbn; try reflexivity. rewrite IH. reflexivity. Qed.
Lemma map2_map_r A B C D (f : A -> C -> D) (g : B -> C) l l' : map2 f l (map g l') = map2 (fun x z => f x (g z)) l l'.
Proof. revert l'. induction l as [|x l IH]; intros [|z l']; cbn; try reflexivity. rewrite IH. reflexivity. Qed.
Lemma map2_map_l A B C D (f : C -> B -> D) (g : A -> C) l l' : map2 f (map g l) l' = map2 (fun x z => f (g x) z) l l'.
Proof. revert l'. induction l as [|x l IH]; intros [|z l']; cbn; try reflexivity. rewrite IH. reflexivity. Qed.
Lemma map2_diag A B (f : A -> A -> B) l : map2 f l l = map (fun x => f x x) l.
Proof. induction l as [|x l IH]; cbn; [reflexivity|]. rewrite IH. reflexivity. Qed.
Lemma map2_ext A B C (f g : A -> B -> C) l l' : (forall x z, f x z = g x z) -> map2 f l l' = map2 g l l'.
Proof. intro H. revert l'. induction l as [|x l IH]; intros [|z l']; cbn; try reflexivity. rewrite IH, H. reflexivity. Qed.
Lemma map2_const A B (l : list A) (l' : list B) : List.length l = List.length l' -> map2 (fun x _ => x) l l' = l.
Proof. revert l'. induction l as [|x l IH]; intros [|z l']; cbn; try reflexivity; try discriminate. intro H. rewrite IH; [reflexivity|congruence]. Qed.

Lemma partial_predict_spec tn vars classes X t : readable vars X -> wf vars classes t -> forall mu, List.length mu = List.length X ->
  partial_predict tn X mu t =
  Ok (map (fun pl => (t_class (snd pl), map2 (fun m row => act_from tn vars row m (own t ++ fst pl)) mu X)) (leaves t)).
Proof.
  intro R. induction t as [lf cs cv lv va vr mu0 IH] using tree_ind'. cbn [wf]. intros [O W] mu L. cbn [partial_predict].
  assert (E : (match va with Some (att, i) => do v <- ret_opt AttributeError vr; do s <- ret_opt IndexError (nth_error (fv_sets v) i);
                 do col <- column X att; do d <- membership_col s col; Ok (map2 tn mu d) | None => Ok mu end)
              = Ok (map2 (fun m row => act_from tn vars row m (own (Tree lf cs cv lv va vr mu0))) mu X)).
  { unfold own. cbn [t_value]. destruct va as [[a i]|].
    - destruct O as (v & s & -> & Hv & Hs). cbn [ret_opt bind]. rewrite Hs. cbn [ret_opt bind].
      destruct (@readable_membership vars X a v i s R Hv Hs) as [col [-> C]]. cbn [bind]. rewrite C. cbn [bind]. rewrite map2_map_r. reflexivity.
    - unfold act_from. cbn [fold_left]. rewrite map2_const by assumption. reflexivity. }
  rewrite E. cbn [bind]. destruct lf.
  - cbn [leaves map fst snd t_class]. rewrite app_nil_r. reflexivity.
  - destruct W as [N W]. destruct cs as [|c0 cs0]; [congruence|]. remember (c0 :: cs0) as cs. clear Heqcs c0 cs0.
    rewrite (@fold_and _ (fun c => t_value c <> None /\ wf vars classes c)) in W.
    remember (own (Tree false cs cv lv va vr mu0)) as o.
    assert (M : mapM (partial_predict tn X (map2 (fun m row => act_from tn vars row m o) mu X)) cs
      = Ok (map (fun c => map (fun pl => (t_class (snd pl), map2 (fun m row => act_from tn vars row m (o ++ (own c ++ fst pl))) mu X)) (leaves c)) cs)).
    { clear - IH W L. induction cs as [|c cs IHcs]; [reflexivity|]. inversion IH as [|? ? I1 I2]; inversion W as [|? ? W1 W2]; subst.
      cbn [mapM map]. rewrite (I1 (proj2 W1)).
      - cbn [bind]. rewrite (IHcs I2 W2). cbn [bind]. match goal with |- Ok (?u :: ?l) = Ok (?w :: ?l) => assert (EQ : u = w); [|rewrite EQ; reflexivity] end. apply map_ext. intros [q n]. cbn [fst snd]. f_equal.
        rewrite map2_map2. apply map2_ext. intros m row. symmetry. apply act_from_app.
      - rewrite map2_length, L. apply Nat.min_id. }
    rewrite M. cbn [bind]. apply (f_equal (@Ok _)). rewrite leaves_inner. rewrite concat_map. rewrite map_map. f_equal.
    apply map_ext. intro c. rewrite map_map. reflexivity.
Qed.

(** ** votes *)
Lemma dset_at (K V : Type) (H : EqDec K) (d1 d2 : dict K V) k v v' : ~ In k (dkeys d1) ->
  dset k v (d1 ++ (k, v') :: d2) = d1 ++ (k, v) :: d2.
Proof.
  induction d1 as [|[k1 v1] d1 IH]; cbn; intro N.
  - rewrite eqb_refl. reflexivity.
  - destruct (eqb k k1) eqn:E; [apply eqb_eq in E; subst; exfalso; auto|]. rewrite IH; auto.
Qed.
Section Votes.
  Variable X : list (list cell).
  Variable classes : list Z.
  Hypothesis NDc : NoDup classes.
  Variable combine0 : list Qc -> list Qc.
  Variable combine : list Qc -> list Qc -> list Qc.
  Definition entries {V} (f : Z -> V) : dict Z V := map (fun c => (c, f c)) classes.
  Lemma keys_map {V} (f : Z -> V) cs : dkeys (map (fun c => (c, f c)) cs) = cs.
  Proof. unfold dkeys. rewrite map_map. apply map_id. Qed.
  Definition vstep (v : list Qc) (d : dict Z (list Qc)) (kw : Z * Qc) : dict Z (list Qc) :=
    let u := map (fun x => snd kw * x) v in
    dset (fst kw) (match dget (fst kw) d with None => combine0 u | Some old => combine old u end) d.
  Lemma vote_new_gen v (w : Z -> Qc) : forall cs2 cs1, NoDup (cs1 ++ cs2) ->
    fold_left (vstep v) (map (fun c => (c, w c)) cs2) (map (fun c => (c, combine0 (map (fun x => w c * x) v))) cs1)
    = map (fun c => (c, combine0 (map (fun x => w c * x) v))) (cs1 ++ cs2).
  Proof.
    induction cs2 as [|c cs2 IH]; intros cs1 N; [rewrite app_nil_r; reflexivity|]. cbn [map fold_left]. unfold vstep at 2. cbn [fst snd].
    assert (Nc : ~ In c cs1) by (apply NoDup_remove_2 in N; intro; apply N, in_or_app; auto).
    rewrite (proj2 (dget_None _ _)) by (rewrite keys_map; assumption). rewrite dset_fresh by (rewrite keys_map; assumption).
    specialize (IH (cs1 ++ [c])). rewrite <- app_assoc in IH. cbn [app] in IH. rewrite <- (IH N). rewrite map_app. reflexivity.
  Qed.
  Lemma vote_old_gen v (w : Z -> Qc) (f : Z -> list Qc) : forall cs2 cs1, NoDup (cs1 ++ cs2) ->
    fold_left (vstep v) (map (fun c => (c, w c)) cs2)
      (map (fun c => (c, combine (f c) (map (fun x => w c * x) v))) cs1 ++ map (fun c => (c, f c)) cs2)
    = map (fun c => (c, combine (f c) (map (fun x => w c * x) v))) (cs1 ++ cs2).
  Proof.
    induction cs2 as [|c cs2 IH]; intros cs1 N; [rewrite !app_nil_r; reflexivity|]. cbn [map fold_left]. unfold vstep at 2. cbn [fst snd].
    assert (Nc : ~ In c cs1) by (apply NoDup_remove_2 in N; intro; apply N, in_or_app; auto).
    rewrite dget_app. rewrite (proj2 (dget_None _ _)) by (rewrite keys_map; assumption). cbn [dget]. rewrite eqb_refl.
    rewrite dset_at by (rewrite keys_map; assumption).
    specialize (IH (cs1 ++ [c])). rewrite <- app_assoc in IH. cbn [app] in IH. rewrite <- (IH N). rewrite map_app, <- app_assoc. reflexivity.
  Qed.
  Lemma vote_add_vstep d cv v : vote_add combine0 combine d (Some cv, v) = Ok (fold_left (vstep v) cv d).
  Proof. reflexivity. Qed.
  Lemma vote_add_new v w : vote_add combine0 combine [] (Some (entries w), v) = Ok (entries (fun c => combine0 (map (fun x => w c * x) v))).
  Proof. rewrite vote_add_vstep. apply (f_equal (@Ok _)). apply (@vote_new_gen v w classes []). assumption. Qed.
  Lemma vote_add_old v w f : vote_add combine0 combine (entries f) (Some (entries w), v) = Ok (entries (fun c => combine (f c) (map (fun x => w c * x) v))).
  Proof. rewrite vote_add_vstep. apply (f_equal (@Ok _)). apply (@vote_old_gen v w f classes []). assumption. Qed.
End Votes.

Definition weight_in (cv : dict Z Qc) (c : Z) : Qc := match dget c cv with Some w => w | None => 0 end.
Lemma entries_weight classes cv : NoDup classes -> map fst cv = classes -> cv = entries classes (weight_in cv).
Proof.
  intros N E. unfold entries. rewrite <- E. rewrite map_map.
  assert (G : forall d, incl d cv -> d = map (fun kw => (fst kw, weight_in cv (fst kw))) d).
  { induction d as [|[k w] d IH]; intro I; [reflexivity|]. cbn [map fst]. rewrite <- IH by (intros z Hz; apply I; right; assumption).
    unfold weight_in. rewrite (@dget_nodup Z Qc _ k w cv); [reflexivity| |apply I; left; reflexivity]. unfold dkeys. rewrite E. assumption. }
  apply G. apply incl_refl.
Qed.

(** leaves as (weights, activation) pairs *)
Section Support.
  Variable X : list (list cell).
  Variable classes : list Z.
  Hypothesis NDc : NoDup classes.
  Variable A : Type.
  Variable w : A -> Z -> Qc.
  Variable act : A -> list cell -> Qc.
  Let leafv (x : A) : option (dict Z Qc) * list Qc := (Some (entries classes (w x)), map (act x) X).
  Lemma agg_fold L : forall f, foldM (vote_add (fun v => v) (map2 Qcplus)) (entries classes (fun c => map (fun row => f row c) X)) (map leafv L)
    = Ok (entries classes (fun c => map (fun row => f row c + qsum (map (fun x => w x c * act x row) L)) X)).
  Proof.
    induction L as [|x L IH]; intro f; cbn [map foldM].
    - apply (f_equal (@Ok _)). unfold entries. apply map_ext. intro c. f_equal. apply map_ext. intro row. rewrite qsum_nil. ring.
    - unfold leafv at 1. rewrite (@vote_add_old classes NDc). cbn [bind].
      replace (entries classes (fun c => map2 Qcplus (map (fun row => f row c) X) (map (fun x0 => w x c * x0) (map (act x) X))))
        with (entries classes (fun c => map (fun row => f row c + w x c * act x row) X)).
      + rewrite (IH (fun row c => f row c + w x c * act x row)). apply (f_equal (@Ok _)). unfold entries. apply map_ext. intro c. f_equal. apply map_ext. intro row.
        rewrite qsum_cons. ring.
      + unfold entries. apply map_ext. intro c. f_equal. rewrite map_map, map2_map_r, map2_map_l, map2_diag. reflexivity.
  Qed.
  Lemma agg_votes L : L <> [] -> aggregated_vote [] (map leafv L) = Ok (entries classes (fun c => map (fun row => qsum (map (fun x => w x c * act x row) L)) X)).
  Proof.
    destruct L as [|x L]; [congruence|]. intros _. unfold aggregated_vote. cbn [map foldM]. unfold leafv at 1.
    rewrite (@vote_add_new classes NDc). cbn [bind].
    replace (entries classes (fun c => map (fun x0 => w x c * x0) (map (act x) X))) with (entries classes (fun c => map (fun row => w x c * act x row) X))
      by (unfold entries; apply map_ext; intro c; rewrite map_map; reflexivity).
    rewrite (@agg_fold L (fun row c => w x c * act x row)). reflexivity.
  Qed.
  Lemma max_fold L : forall f, foldM (vote_add (map (qmax 0)) (map2 qmax)) (entries classes (fun c => map (fun row => f row c) X)) (map leafv L)
    = Ok (entries classes (fun c => map (fun row => fold_left (fun acc x => qmax acc (w x c * act x row)) L (f row c)) X)).
  Proof.
    induction L as [|x L IH]; intro f; cbn [map foldM fold_left]; [reflexivity|].
    unfold leafv at 1. rewrite (@vote_add_old classes NDc). cbn [bind].
    replace (entries classes (fun c => map2 qmax (map (fun row => f row c) X) (map (fun x0 => w x c * x0) (map (act x) X))))
      with (entries classes (fun c => map (fun row => qmax (f row c) (w x c * act x row)) X)).
    - rewrite (IH (fun row c => qmax (f row c) (w x c * act x row))). reflexivity.
    - unfold entries. apply map_ext. intro c. f_equal. rewrite map_map, map2_map_r, map2_map_l, map2_diag. reflexivity.
  Qed.
  Lemma fold_qmax_le (g : A -> Qc) L : forall m, 0 <= m -> fold_left (fun acc x => qmax acc (g x)) L m = qmax m (fold_right qmax 0 (map g L)).
  Proof.
    induction L as [|x L IH]; intros m Hm; cbn [fold_left map fold_right].
    - unfold qmax. qcase; qlra.
    - rewrite IH by (eapply Qcle_trans; [exact Hm|apply qmax_l]). rewrite qmax_assoc. reflexivity.
  Qed.
  Lemma max_votes L : L <> [] -> maximum_matching [] (map leafv L) = Ok (entries classes (fun c => map (fun row => fold_right qmax 0 (map (fun x => w x c * act x row) L)) X)).
  Proof.
    destruct L as [|x L]; [congruence|]. intros _. unfold maximum_matching. cbn [map foldM]. unfold leafv at 1.
    rewrite (@vote_add_new classes NDc). cbn [bind].
    replace (entries classes (fun c => map (qmax 0) (map (fun x0 => w x c * x0) (map (act x) X)))) with (entries classes (fun c => map (fun row => qmax 0 (w x c * act x row)) X))
      by (unfold entries; apply map_ext; intro c; rewrite !map_map; reflexivity).
    rewrite (@max_fold L (fun row c => qmax 0 (w x c * act x row))). apply (f_equal (@Ok _)). unfold entries. apply map_ext. intro c. f_equal. apply map_ext. intro row.
    rewrite (@fold_qmax_le (fun x => w x c * act x row)) by apply qmax_l. cbn [fold_right]. rewrite <- qmax_assoc.
    assert (G : 0 <= qmax (w x c * act x row) (fold_right qmax 0 (map (fun x => w x c * act x row) L))).
    { eapply Qcle_trans; [|apply qmax_r]. generalize (map (fun x => w x c * act x row) L). clear. induction l as [|z l IH]; cbn; [apply Qcle_refl|].
      eapply Qcle_trans; [exact IH|apply qmax_r]. }
    revert G. generalize (qmax (w x c * act x row) (fold_right qmax 0 (map (fun x0 : A => w x0 c * act x0 row) L))). intros q G. unfold qmax. qcase; qlra.
  Qed.
End Support.

Lemma row_votes_entries classes (X : list (list cell)) (f : list cell -> Z -> Qc) j row : nth_error X j = Some row ->
  row_votes (entries classes (fun c => map (fun row => f row c) X)) j = entries classes (f row).
Proof.
  intro H. unfold row_votes, entries. rewrite map_map. apply map_ext. intro c. cbn [fst snd]. f_equal.
  apply nth_error_nth. rewrite nth_error_map, H. reflexivity.
Qed.
Lemma argmax_entries classes (f : Z -> Qc) : StronglySorted Z.lt classes -> classes <> [] ->
  exists c, dict_argmax (entries classes f) = Ok c /\ best_class classes f c.
Proof.
  intros S N. unfold dict_argmax. destruct (max_by _ (entries classes f)) as [[c x]|] eqn:E.
  - exists c. cbn [ret_opt bind fst]. split; [reflexivity|]. apply (@max_by_spec (Z * Qc) snd) in E. destruct E as [Hin [Hmax [d1 [d2 [Ed Fd]]]]].
    assert (K : forall c x, In (c, x) (entries classes f) <-> In c classes /\ x = f c).
    { intros c0 x0. unfold entries. rewrite in_map_iff. split; [intros [z [E Hz]]; injection E as <- <-; auto|intros [A ->]; eauto]. }
    rewrite K in Hin. destruct Hin as [Hc ->]. split; [assumption|]. intros c' Hc'.
    assert (H' : In (c', f c') (entries classes f)) by (apply K; auto). split; [exact (Hmax _ H')|]. intro Lt.
    rewrite Ed in H'. apply in_app_or in H'. destruct H' as [H'|[H'|H']].
    + rewrite Forall_forall in Fd. exact (Fd _ H').
    + injection H' as -> _. lia.
    + exfalso. assert (Ec : classes = dkeys d1 ++ c :: dkeys d2).
      { rewrite <- (keys_map f classes). fold (entries classes f). rewrite Ed. unfold dkeys. rewrite map_app. reflexivity. }
      rewrite Ec in S. apply (in_map fst) in H'. cbn in H'. clear - S H' Lt. induction (dkeys d1) as [|z l IH]; cbn in S; inversion S as [|? ? S1 S2]; subst; [|auto].
      rewrite Forall_forall in S2. specialize (S2 c' H'). lia.
  - apply (@max_by_None (Z*Qc) snd) in E. destruct classes; [congruence|discriminate].
Qed.
Lemma best_class_fun classes f c c' : best_class classes f c -> best_class classes f c' -> c = c'.
Proof.
  intros [A B] [A' B']. destruct (B c' A') as [B1 B2]. destruct (B' c A) as [B1' B2'].
  destruct (Z.lt_trichotomy c c') as [L|[L|L]]; [specialize (B2' L)|assumption|specialize (B2 L)]; exfalso; qlra.
Qed.


Lemma map2_repeat_one tn vars p (X : list (list cell)) :
  map2 (fun m row => act_from tn vars row m p) (repeat 1 (List.length X)) X = map (fun row => activation tn vars row p) X.
Proof. induction X as [|r X IH]; [reflexivity|]. cbn [List.length repeat map2 map]. rewrite IH. reflexivity. Qed.
Definition leaf_vote (cfg : fdt_cfg) (X : list (list cell)) (classes : list Z) (pl : list (nat * nat) * tree) : option (dict Z Qc) * list Qc :=
  (Some (entries classes (leaf_weight (snd pl))), map (fun row => activation (f_tnorm cfg) (f_vars cfg) row (fst pl)) X).
Lemma predict_leaves cfg t classes X : wf (f_vars cfg) classes t -> t_value t = None -> NoDup classes -> readable (f_vars cfg) X ->
  partial_predict (f_tnorm cfg) X (repeat 1 (List.length X)) t = Ok (map (leaf_vote cfg X classes) (leaves t)).
Proof.
  intros W V N R. rewrite (@partial_predict_spec (f_tnorm cfg) (f_vars cfg) classes X t R W) by apply repeat_length.
  apply (f_equal (@Ok _)). apply map_ext_in. intros [p n] Hin. destruct (@wf_leaves _ _ _ W _ _ Hin) as [[d [Ed [K _]]] _].
  unfold leaf_vote. cbn [fst snd]. unfold own. rewrite V. cbn [app]. rewrite map2_repeat_one. rewrite Ed. f_equal.
  rewrite (@entries_weight classes d N K) at 1. f_equal. unfold entries. apply map_ext. intro c. unfold leaf_weight. rewrite Ed. reflexivity.
Qed.
Lemma vote_spec cfg t classes X : wf (f_vars cfg) classes t -> NoDup classes ->
  vote (f_voting cfg) (map (leaf_vote cfg X classes) (leaves t)) = Ok (entries classes (fun c => map (fun row => row_support cfg t row c) X)).
Proof.
  intros W N. assert (NE := @wf_leaves_nonempty _ _ _ W). unfold vote, row_support, tree_support, tree_max_support, leaf_vote. destruct (f_voting cfg).
  - apply (@agg_votes X classes N _ (fun pl => leaf_weight (snd pl)) (fun pl row => activation (f_tnorm cfg) (f_vars cfg) row (fst pl))). assumption.
  - apply (@max_votes X classes N _ (fun pl => leaf_weight (snd pl)) (fun pl row => activation (f_tnorm cfg) (f_vars cfg) row (fst pl))). assumption.
Qed.
Lemma predict_spec cfg t classes X : wf (f_vars cfg) classes t -> t_value t = None -> StronglySorted Z.lt classes -> NoDup classes -> classes <> [] ->
  readable (f_vars cfg) X ->
  exists ps, predict cfg t X = Ok ps /\ Forall2 (fun row c => best_class classes (row_support cfg t row) c) X ps.
Proof.
  intros W V S N Ne R. unfold predict. rewrite (@predict_leaves cfg t classes X W V N R). cbn [bind].
  rewrite (@vote_spec cfg t classes X W N). cbn [bind].
  assert (G : forall X2 X1, X = X1 ++ X2 -> exists ps, mapM (fun j => dict_argmax (row_votes (entries classes (fun c => map (fun row => row_support cfg t row c) X)) j))
      (seq (List.length X1) (List.length X2)) = Ok ps /\ Forall2 (fun row c => best_class classes (row_support cfg t row) c) X2 ps).
  { induction X2 as [|row X2 IH]; intros X1 E; [exists []; split; [reflexivity|constructor]|].
    destruct (IH (X1 ++ [row])) as [ps [A B]]; [rewrite <- app_assoc; exact E|]. rewrite app_length, Nat.add_1_r in A.
    destruct (argmax_entries (row_support cfg t row) S Ne) as [c [C D]].
    exists (c :: ps). cbn [List.length seq mapM]. rewrite (@row_votes_entries classes X (row_support cfg t) (List.length X1) row).
    - rewrite C. cbn [bind]. rewrite A. cbn [bind]. split; [reflexivity|constructor; assumption].
    - rewrite E, nth_error_app2, Nat.sub_diag by lia. reflexivity. }
  apply (G X []). reflexivity.
Qed.
Lemma predict_rowwise cfg t classes X ps : wf (f_vars cfg) classes t -> t_value t = None -> StronglySorted Z.lt classes -> NoDup classes -> classes <> [] ->
  readable (f_vars cfg) X -> predict cfg t X = Ok ps -> Forall2 (fun row c => predict cfg t [row] = Ok [c]) X ps.
Proof.
  intros W V S N Ne R E. destruct (@predict_spec cfg t classes X W V S N Ne R) as [ps' [E' F]]. rewrite E in E'. injection E' as <-. clear E.
  induction F as [|row c X ps B F IH]; [constructor|]. constructor.
  - destruct (@predict_spec cfg t classes [row] W V S N Ne) as [qs [E2 F2]]; [intros r [<-|[]]; apply R; left; reflexivity|].
    inversion F2 as [|? c' ? qs' B' F']; subst. inversion F'; subst. rewrite E2. rewrite (best_class_fun B B'). reflexivity.
  - apply IH. intros r Hr. apply R. right. assumption.
Qed.

(** ** rules *)
Definition leaf_rules (vars : list fvar) (prefix : list (string * string)) (th : Qc) (pl : list (nat * nat) * tree) : list (rule string) :=
  map (fun kw => mkR (prefix ++ map (lit_name vars) (fst pl)) (fst kw) (snd kw))
      (filter (fun kw => qltb th (snd kw)) (match t_class (snd pl) with Some d => d | None => [] end)).
Lemma get_rules_spec vars classes th t : wf vars classes t -> forall prefix,
  get_rules t prefix th = Ok (List.concat (map (leaf_rules vars (prefix ++ map (lit_name vars) (own t)) th) (leaves t))).
Proof.
  induction t as [lf cs cv lv va vr mu0 IH] using tree_ind'. cbn [wf]. intros [O W] prefix. cbn [get_rules].
  assert (E : (match va with Some (_, i) => do v <- ret_opt AttributeError vr; do s <- ret_opt IndexError (nth_error (fv_sets v) i);
                 Ok (prefix ++ [(fv_name v, fs_name s)]) | None => Ok prefix end)
              = Ok (prefix ++ map (lit_name vars) (own (Tree lf cs cv lv va vr mu0)))).
  { unfold own. cbn [t_value]. destruct va as [[a i]|].
    - destruct O as (v & s & -> & Hv & Hs). cbn [ret_opt bind]. rewrite Hs. cbn [ret_opt bind map]. unfold lit_name. cbn [fst snd]. rewrite Hv, Hs. reflexivity.
    - cbn [map]. rewrite app_nil_r. reflexivity. }
  rewrite E. cbn [bind]. remember (prefix ++ map (lit_name vars) (own (Tree lf cs cv lv va vr mu0))) as pre. destruct lf.
  - destruct W as [d [-> _]]. cbn [ret_opt bind leaves map List.concat]. unfold leaf_rules. cbn [fst snd t_class map]. rewrite !app_nil_r. reflexivity.
  - destruct W as [_ W]. rewrite (@fold_and _ (fun c => t_value c <> None /\ wf vars classes c)) in W.
    assert (M : mapM (fun c => get_rules c pre th) cs = Ok (map (fun c => List.concat (map (leaf_rules vars (pre ++ map (lit_name vars) (own c)) th) (leaves c))) cs)).
    { clear - IH W. induction cs as [|c cs IHcs]; [reflexivity|]. inversion IH as [|? ? I1 I2]; inversion W as [|? ? W1 W2]; subst.
      cbn [mapM map]. rewrite (I1 (proj2 W1) pre). cbn [bind]. rewrite (IHcs I2 W2). reflexivity. }
    rewrite M. cbn [bind]. apply (f_equal (@Ok _)). rewrite leaves_inner. clear. induction cs as [|c cs IH]; [reflexivity|].
    cbn [map List.concat]. rewrite map_app, concat_app, <- IH. f_equal. rewrite map_map. f_equal. apply map_ext. intros [q n].
    unfold extend, leaf_rules. cbn [fst snd]. rewrite map_app, app_assoc. reflexivity.
Qed.
Lemma tree_rules_spec vars classes th t : wf vars classes t -> t_value t = None ->
  tree_rules t th = Ok (List.concat (map (leaf_rules vars [] th) (leaves t))).
Proof. intros W V. unfold tree_rules. rewrite (@get_rules_spec _ _ th _ W). unfold own. rewrite V. reflexivity. Qed.

(** matching of a path rule = activation *)
Lemma fold_qmin_minimum ds : forall m x, (forall d, In d ds -> d <= m) -> qminimum ds = Ok x -> fold_left qmin ds m = x.
Proof.
  intros m x H E. assert (G : forall l m, fold_left qmin l m <= m /\ (forall d, In d l -> fold_left qmin l m <= d) /\ (In (fold_left qmin l m) l \/ fold_left qmin l m = m)).
  { clear. induction l as [|d l IH]; intro m; cbn [fold_left]; [split; [apply Qcle_refl|split; [intros ? []|right; reflexivity]]|].
    destruct (IH (qmin m d)) as (A & B & C). split; [eapply Qcle_trans; [exact A|apply qmin_l]|]. split.
    - intros d' [<-|Hd]; [eapply Qcle_trans; [exact A|apply qmin_r]|auto].
    - destruct C as [C|C]; [left; right; assumption|]. rewrite C. unfold qmin. destruct (qltb d m); [left; left; reflexivity|right; reflexivity]. }
  destruct (G ds m) as (A & B & C). apply qminimum_spec in E. destruct E as [E1 E2]. apply Qcle_antisym; [apply B; assumption|].
  destruct C as [C|C]; [apply E2; assumption|]. rewrite C. apply H. assumption.
Qed.
Lemma matching_activation vars row m p c w : row_membership vars row m -> p <> [] ->
  (forall l, In l p -> exists v s, nth_error vars (fst l) = Some v /\ nth_error (fv_sets v) (snd l) = Some s) ->
  matching m (mkR (map (lit_name vars) p) c w) = Ok (activation qmin vars row p).
Proof.
  intros R N H. unfold matching, matching_tn. cbn [r_ant].
  assert (M : mapM (fun fv => degree m (fst fv) (snd fv)) (map (lit_name vars) p) = Ok (map (lit_degree vars row) p)).
  { clear N. induction p as [|[a i] p IH]; [reflexivity|]. cbn [map mapM]. destruct (H (a, i) (or_introl eq_refl)) as (v & s & Hv & Hs). cbn [fst snd] in Hv, Hs.
    unfold lit_name at 1 2. cbn [fst snd]. rewrite Hv, Hs. cbn [fst snd].
    rewrite (proj2 (degree_knows m (fv_name v) (fs_name s) _) (R a v i s Hv Hs)). cbn [bind].
    rewrite IH by (intros; apply H; right; assumption). reflexivity. }
  rewrite M. cbn [bind]. destruct (@qminimum_ok (map (lit_degree vars row) p)) as [x E]; [destruct p; [congruence|discriminate]|].
  rewrite E. cbn. apply (f_equal (@Ok _)). symmetry. unfold activation.
  assert (FF : fold_left (fun acc l => qmin acc (lit_degree vars row l)) p 1 = fold_left qmin (map (lit_degree vars row) p) 1).
  { generalize 1 as z. clear. induction p as [|l p IH]; intro z; [reflexivity|]. cbn. apply IH. }
  rewrite FF. apply fold_qmin_minimum; [|assumption]. intros d Hd. apply in_map_iff in Hd. destruct Hd as [l [<- _]]. apply lit_degree_01.
Qed.
Lemma leaves_paths vars classes t : wf vars classes t -> t_leaf t = false -> forall p n, In (p, n) (leaves t) -> p <> [].
Proof.
  intros W L p n H. rewrite (@leaves_node_at _ _ _ W) in H. destruct H as [H Ln]. intros ->. inversion H; subst. congruence.
Qed.
Lemma support_app r1 m1 r2 m2 c : List.length r1 = List.length m1 -> support (r1 ++ r2) (m1 ++ m2) c = support r1 m1 c + support r2 m2 c.
Proof.
  unfold support. revert m1. induction r1 as [|r r1 IH]; intros [|x m1] L; try discriminate; cbn [app map2].
  - rewrite qsum_nil. ring.
  - rewrite !qsum_cons, IH by (cbn in L; congruence). ring.
Qed.
Lemma leaf_rules_support vars classes pl row m : NoDup classes -> (exists d, t_class (snd pl) = Some d /\ cv_ok classes d) ->
  (forall c w, matching m (mkR (map (lit_name vars) (fst pl)) c w) = Ok (activation qmin vars row (fst pl))) ->
  Forall2 (fun r x => matching m r = Ok x) (leaf_rules vars [] 0 pl) (map (fun _ => activation qmin vars row (fst pl)) (leaf_rules vars [] 0 pl)) /\
  forall c, support (leaf_rules vars [] 0 pl) (map (fun _ => activation qmin vars row (fst pl)) (leaf_rules vars [] 0 pl)) c
            = leaf_weight (snd pl) c * activation qmin vars row (fst pl).
Proof.
  intros N [d [Ed [K [W01 _]]]] M. unfold leaf_rules, leaf_weight. rewrite Ed. cbn [app].
  remember (activation qmin vars row (fst pl)) as z. split.
  - generalize (filter (fun kw => qltb 0 (snd kw)) d) as l. induction l as [|kw l IH]; cbn [map]; constructor; [apply M|assumption].
  - intro c. assert (ND : NoDup (dkeys d)) by (unfold dkeys; rewrite K; assumption). clear K Ed. revert ND W01. induction d as [|[k w] d IH]; intros ND W01.
    + cbn. unfold support. cbn [map2 map filter dget]. rewrite ?qsum_nil. cbn. ring.
    + inversion ND as [|? ? N1 N2]; subst. cbn [filter snd dget]. destruct (W01 k w (or_introl eq_refl)) as [W0 _].
      assert (IH' := IH N2 (fun c w H => W01 c w (or_intror H))). clear IH.
      assert (S : support (map (fun kw => mkR (map (lit_name vars) (fst pl)) (fst kw) (snd kw)) (if qltb 0 w then (k, w) :: filter (fun kw => qltb 0 (snd kw)) d else filter (fun kw => qltb 0 (snd kw)) d))
         (map (fun _ => activation qmin vars row (fst pl)) (map (fun kw => mkR (map (lit_name vars) (fst pl)) (fst kw) (snd kw)) (if qltb 0 w then (k, w) :: filter (fun kw => qltb 0 (snd kw)) d else filter (fun kw => qltb 0 (snd kw)) d))) c
         = (if Z.eqb k c then activation qmin vars row (fst pl) * w else 0) + (match dget c d with Some w => w | None => 0 end) * activation qmin vars row (fst pl)).
      { rewrite <- IH'. destruct (qltb 0 w) eqn:B.
        - cbn [map]. unfold support. cbn [map2]. rewrite qsum_cons. reflexivity.
        - rewrite qltb_ge in B. assert (w = 0) by (apply Qcle_antisym; assumption). subst w. destruct (Z.eqb k c); ring. }
      rewrite S. unfold eqb. destruct (eq_dec c k) as [->|Nk].
      * rewrite Z.eqb_refl. assert (D : dget k d = None) by (apply dget_None; assumption). rewrite D. ring.
      * assert (E : Z.eqb k c = false) by (apply Z.eqb_neq; congruence). rewrite E. ring.
Qed.
Lemma rules_support_gen vars classes row m : NoDup classes -> row_membership vars row m -> forall L,
  (forall pl, In pl L -> fst pl <> [] /\ (exists d, t_class (snd pl) = Some d /\ cv_ok classes d) /\
     (forall l, In l (fst pl) -> exists v s, nth_error vars (fst l) = Some v /\ nth_error (fv_sets v) (snd l) = Some s)) ->
  exists ms, Forall2 (fun r x => matching m r = Ok x) (List.concat (map (leaf_rules vars [] 0) L)) ms /\
    forall c, support (List.concat (map (leaf_rules vars [] 0) L)) ms c = qsum (map (fun pl => leaf_weight (snd pl) c * activation qmin vars row (fst pl)) L).
Proof.
  intros N R. induction L as [|pl L IH]; intro H; [exists []; split; [constructor|reflexivity]|].
  destruct IH as [ms [A B]]; [intros; apply H; right; assumption|].
  destruct (H pl (or_introl eq_refl)) as (H1 & H2 & H3).
  destruct (@leaf_rules_support vars classes pl row m N H2 (fun c w => @matching_activation vars row m (fst pl) c w R H1 H3)) as [C D].
  exists (map (fun _ => activation qmin vars row (fst pl)) (leaf_rules vars [] 0 pl) ++ ms). cbn [map List.concat]. split.
  - apply Forall2_app; assumption.
  - intro c. rewrite support_app by (rewrite map_length; reflexivity). rewrite D, B, qsum_cons. reflexivity.
Qed.
Lemma rules_support vars classes t row m : wf vars classes t -> t_value t = None -> NoDup classes -> t_leaf t = false -> row_membership vars row m ->
  exists rules ms, tree_rules t 0 = Ok rules /\ Forall2 (fun r x => matching m r = Ok x) rules ms /\
    (forall c, support rules ms c = tree_support qmin vars t row c) /\ (forall r, In r rules -> In (r_cons r) classes) /\ rules <> [].
Proof.
  intros W V N L R. rewrite (@tree_rules_spec _ _ 0 _ W V).
  destruct (@rules_support_gen vars classes row m N R (leaves t)) as [ms [A B]].
  { intros [p n] Hin. destruct (@wf_leaves _ _ _ W _ _ Hin) as (C & _ & D). split; [|split; assumption]. cbn. eapply leaves_paths; eassumption. }
  eexists. exists ms. split; [reflexivity|]. split; [exact A|]. split; [exact B|]. split.
  - intros r Hr. apply in_concat in Hr. destruct Hr as [l [Hl Hr]]. apply in_map_iff in Hl. destruct Hl as [[p n] [<- Hin]].
    destruct (@wf_leaves _ _ _ W _ _ Hin) as ((d & Ed & K & _) & _). unfold leaf_rules in Hr. cbn [snd] in Hr. rewrite Ed in Hr.
    apply in_map_iff in Hr. destruct Hr as [[c w] [<- Hr]]. apply filter_In in Hr. cbn. rewrite <- K. exact (in_map fst _ _ (proj1 Hr)).
  - assert (NE := @wf_leaves_nonempty _ _ _ W). destruct (leaves t) as [|[p n] ls] eqn:E; [congruence|].
    destruct (@wf_leaves _ _ _ W p n) as ((d & Ed & K & W01 & S) & _); [rewrite E; left; reflexivity|]. cbn [map List.concat]. unfold leaf_rules at 1. cbn [snd]. rewrite Ed.
    assert (F : filter (fun kw => qltb 0 (snd kw)) d <> []).
    { intro F. assert (Z : qsum (map snd d) = 0).
      { apply qsum_map_zero. intros [c w] Hw. destruct (W01 c w Hw) as [W0 _]. destruct (qltb 0 w) eqn:Bw.
        - assert (In (c, w) (filter (fun kw => qltb 0 (snd kw)) d)) by (apply filter_In; auto). rewrite F in H. destruct H.
        - rewrite qltb_ge in Bw. apply Qcle_antisym; assumption. }
      rewrite Z in S. discriminate. }
    destruct (filter _ d); [congruence|discriminate].
Qed.
Lemma strict_winner classes rules ms m f c : Forall2 (fun r x => matching m r = Ok x) rules ms -> rules <> [] ->
  (forall r, In r rules -> In (r_cons r) classes) -> (forall c, support rules ms c = f c) -> (forall c, 0 <= f c) ->
  In c classes -> (forall c', In c' classes -> c' <> c -> f c' < f c) -> weighted_vote rules m = Ok c.
Proof.
  intros F NE K S P Hc W. destruct (@C19_vote m rules ms F NE) as (c0 & E & (l1 & r & l2 & Er & Ec & _) & Mx). rewrite E. f_equal.
  destruct (Z.eq_dec c0 c) as [|Nc]; [assumption|]. exfalso.
  assert (H0 : In c0 classes) by (rewrite <- Ec; apply K; rewrite Er; apply in_or_app; right; left; reflexivity).
  assert (W0 := W c0 H0 Nc). destruct (in_dec Z.eq_dec c (map (@r_cons string) rules)) as [I|I].
  - apply in_map_iff in I. destruct I as [r' [Er' Hr']]. specialize (Mx r' Hr'). rewrite Er', !S in Mx. qlra.
  - assert (Z : support rules ms c = 0).
    { unfold support. clear - I. revert ms. induction rules as [|r rules IH]; intros [|x ms]; cbn [map2]; try reflexivity.
      rewrite qsum_cons, IH by (intro; apply I; right; assumption). destruct (Z.eqb_spec (r_cons r) c) as [E|E]; [exfalso; apply I; left; exact E|ring]. }
    rewrite S in Z. specialize (P c0). qlra.
Qed.
Lemma leaf_weight_01 vars classes t p n c : wf vars classes t -> In (p, n) (leaves t) -> 0 <= leaf_weight n c /\ leaf_weight n c <= 1.
Proof.
  intros W H. destruct (@wf_leaves _ _ _ W _ _ H) as ((d & Ed & _ & W01 & _) & _). unfold leaf_weight. rewrite Ed.
  destruct (dget c d) as [w|] eqn:E; [|split; qlra]. apply dget_In in E. eauto.
Qed.
Lemma tree_support_nonneg vars classes t row c : wf vars classes t -> 0 <= tree_support qmin vars t row c.
Proof.
  intro W. unfold tree_support. apply qsum_nonneg. apply Forall_forall. intros x Hx. apply in_map_iff in Hx. destruct Hx as [[p n] [<- Hin]].
  apply Qcmult_nonneg; [apply (@leaf_weight_01 _ _ _ _ _ c W Hin)|apply activation_01].
Qed.
