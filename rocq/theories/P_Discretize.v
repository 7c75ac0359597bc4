(** * Proofs about discretisation (C04, C13-C15) *)
From Verif Require Import Prelude M_Fuzzy M_Discretize P_FuzzySet P_FuzzyVar P_Entropy.
From Coq Require Import Reals Lra.
Set Implicit Arguments.
Open Scope Qc_scope.

Lemma C04_fallback qcut2 variable peaks :
  equal_freq None qcut2 variable = Ok peaks ->
  exists m rest, peaks = m :: m :: rest /\ In m variable /\ forall x, In x variable -> m <= x.
Proof.
  unfold equal_freq. destruct qcut2 as [[lefts r]|]; [|discriminate].
  destruct (qminimum variable) as [m|] eqn:E; simpl; [|discriminate].
  apply qminimum_spec in E. destruct E as [E1 E2].
  destruct lefts as [|y lefts]; simpl; intro H; injection H as <-; eauto.
Qed.

(** ** C14, C15: entropy discretisation *)
Lemma fuzzy_triangle_ok variable peaks pts : triangle_points peaks = Ok pts ->
  (forall a b c, In (a, b, c) pts -> a <= b /\ b <= c) ->
  exists ts, fuzzy_triangle variable peaks = Ok ts.
Proof.
  intros E H. unfold fuzzy_triangle. rewrite E. cbn [bind]. apply mapM_total.
  intros [[a b] c] Hin. apply mapM_total. intros x _. unfold trimf.
  destruct (H a b c Hin) as [H1 H2].
  unfold valid_points. rewrite (proj2 (qleb_le _ _) H1), (proj2 (qleb_le _ _) H2). cbn. eauto.
Qed.
Lemma fuzzy_triangle_3 variable a b c : a <= b -> b <= c -> exists ts, fuzzy_triangle variable [a; b; c] = Ok ts.
Proof.
  intros H1 H2. eapply fuzzy_triangle_ok; [reflexivity|].
  intros x y z [E|[E|[E|[]]]]; injection E as <- <- <-; split; qlra.
Qed.
Lemma fuzzy_triangle_2 variable a b : a <= b -> exists ts, fuzzy_triangle variable [a; b] = Ok ts.
Proof.
  intros H1. eapply fuzzy_triangle_ok; [reflexivity|].
  intros x y z [E|[E|[]]]; injection E as <- <- <-; split; qlra.
Qed.

Definition cut_good (variable : list Qc) (mn mx : Qc) (b : option (R * Qc * list (list Qc))) : Prop :=
  match b with
  | None => True
  | Some (_, p, _) => In p variable /\ p <> mn /\ p <> mx
  end.
Lemma best_cut_fold variable cls mn mx (f := fun best point =>
    if negb (qeqb point mn) && negb (qeqb point mx) then
      do ft <- fuzzy_triangle variable [mn; point; mx];
      let wfe := weighted_fuzzy_entropy ft cls in
      match best with
      | None => Ok (Some (wfe, point, ft))
      | Some (b, _, _) => if Rltb wfe b then Ok (Some (wfe, point, ft)) else Ok best
      end
    else Ok best) :
  (forall x, In x variable -> mn <= x /\ x <= mx) ->
  forall l b, (forall x, In x l -> In x variable) -> cut_good variable mn mx b ->
  exists b', foldM f b l = Ok b' /\ cut_good variable mn mx b'.
Proof.
  intros H. induction l as [|x l IH]; intros b Hl G; cbn [foldM]; [eauto|].
  assert (Hx : In x variable) by (apply Hl; left; reflexivity).
  assert (Hl' : forall y, In y l -> In y variable) by (intros; apply Hl; right; assumption).
  unfold f at 1. destruct (qeqb_spec x mn) as [E1|E1]; cbn [negb andb]; [cbn [bind]; apply IH; assumption|].
  destruct (qeqb_spec x mx) as [E2|E2]; cbn [negb]; [cbn [bind]; apply IH; assumption|].
  destruct (H x Hx) as [L1 L2]. destruct (@fuzzy_triangle_3 variable mn x mx L1 L2) as [ft ->]. cbn [bind].
  destruct b as [[[w p] ft']|].
  - destruct (Rltb _ w); cbn [bind]; apply IH; try assumption. repeat split; assumption.
  - cbn [bind]. apply IH; [assumption|]. repeat split; assumption.
Qed.
Lemma best_cut_ok variable cls mn mx : (forall x, In x variable -> mn <= x /\ x <= mx) ->
  exists b, best_cut variable cls mn mx = Ok b /\ cut_good variable mn mx b.
Proof.
  intro H. unfold best_cut. apply best_cut_fold; [assumption| |exact I]. intros x. apply qunique_In.
Qed.

Lemma filter_partition_length A (p q : A -> bool) l : (forall x, In x l -> q x = negb (p x)) ->
  (List.length (filter p l) + List.length (filter q l) = List.length l)%nat.
Proof.
  induction l as [|x l IH]; intro H; [reflexivity|]. cbn [filter].
  rewrite (H x) by (left; reflexivity). assert (IH' := IH (fun y Hy => H y (or_intror Hy))).
  destruct (p x); cbn [negb List.length]; lia.
Qed.
Lemma qltb_negb_qleb a b : qltb a b = negb (qleb b a). Proof. reflexivity. Qed.

Definition disc_result (md depth : Z) (mn mx : Qc) (data : list (Qc * Z)) (pts : list Qc) : Prop :=
  (forall x, In x pts -> x = mn \/ In x (map fst data)) /\
  StronglySorted Qclt pts /\
  (In mn (map fst data) -> In mn pts) /\
  ((2 <= count_occ Qc_eq_dec (map fst data) mx)%nat -> In mx pts) /\
  (exists B, (List.length B <= Nat.pow 2 (Z.to_nat (md - depth)) \/ md = 0%Z)%nat /\
     In mx B /\ forall x, In x pts -> x = mn \/ In x B).

Lemma filter_count_occ (data : list (Qc * Z)) (p : Qc * Z -> bool) x :
  (forall y, In y data -> fst y = x -> p y = true) ->
  count_occ Qc_eq_dec (map fst (filter p data)) x = count_occ Qc_eq_dec (map fst data) x.
Proof.
  induction data as [|y l IH]; intro H; [reflexivity|].
  assert (IH' := IH (fun z Hz => H z (or_intror Hz))). cbn [filter].
  destruct (p y) eqn:E.
  - cbn [map count_occ]. rewrite IH'. reflexivity.
  - cbn [map count_occ]. destruct (Qc_eq_dec (fst y) x) as [F|F]; [|assumption].
    rewrite (H y (or_introl eq_refl) F) in E. discriminate.
Qed.
Lemma count_occ_length (l : list Qc) x : (count_occ Qc_eq_dec l x <= List.length l)%nat.
Proof. induction l as [|y l IH]; simpl; [lia|]. destruct (Qc_eq_dec y x); lia. Qed.

Lemma discretize_inv fuel : forall md th depth mn data mx,
  (List.length data < fuel)%nat -> (2 <= List.length data)%nat ->
  (forall p, In p data -> mn <= fst p) -> qmaximum (map fst data) = Ok mx -> mn < mx ->
  exists pts, discretize fuel md th depth mn data = Ok pts /\ disc_result md depth mn mx data pts.
Proof.
  induction fuel as [|fuel IH]; intros md th depth mn data mx Hf H2 Hmn Hmx Hlt; [lia|].
  cbn [discretize]. rewrite Hmx. cbn [bind].
  destruct (qmaximum_spec _ Hmx) as [Mi Mge].
  assert (Hr : forall x, In x (map fst data) -> mn <= x /\ x <= mx).
  { intros x Hx. split; [|auto]. apply in_map_iff in Hx. destruct Hx as [p [<- Hp]]. auto. }
  destruct (@best_cut_ok (map fst data) (map snd data) mn mx Hr) as [b [-> Gb]]. cbn [bind].
  destruct (@fuzzy_triangle_2 (map fst data) mn mx ltac:(qlra)) as [gl ->]. cbn [bind].
  assert (Base : disc_result md depth mn mx data [mn; mx]).
  { split; [|split; [|split; [|split]]].
    - intros x [<-|[<-|[]]]; auto.
    - repeat constructor. assumption.
    - intros _. left; reflexivity.
    - intros _. right; left; reflexivity.
    - exists [mx]. split; [|split].
      + left. cbn. assert (Nat.pow 2 (Z.to_nat (md - depth)) <> 0)%nat by (apply Nat.pow_nonzero; lia). lia.
      + left; reflexivity.
      + intros x [<-|[<-|[]]]; [left|right; left]; reflexivity. }
  match goal with |- context [bind ?t _] => assert (T : exists tv, t = Ok tv) end.
  { destruct th as [tv|]; [eauto|]. destruct (Nat.leb_spec (List.length data) 1); [lia|eauto]. }
  destruct T as [tv ->]. cbn [bind].
  destruct ((Z.ltb 0 md && Z.ltb depth md) || Z.eqb md 0) eqn:Cd; [|eauto].
  destruct b as [[[bw bp] bft]|]; [|eauto].
  destruct Gb as [Gi [G1 G2]]. cbv zeta.
  destruct (negb (Rltb _ tv)); [|eauto].
  destruct (Hr bp Gi) as [L1 L2].
  assert (L1' : mn < bp) by (destruct (Qc_neq_lt G1); qlra).
  assert (L2' : bp < mx) by (destruct (Qc_neq_lt G2); qlra).
  remember (filter (fun pc => qleb (fst pc) bp) data) as lft eqn:El.
  remember (filter (fun pc => qltb bp (fst pc)) data) as rgt eqn:Er.
  assert (Len : (List.length lft + List.length rgt = List.length data)%nat).
  { subst. apply filter_partition_length. intros x _. apply qltb_negb_qleb. }
  assert (Il : forall p, In p lft <-> In p data /\ fst p <= bp).
  { intro p. subst lft. rewrite filter_In, qleb_le. tauto. }
  assert (Ir : forall p, In p rgt <-> In p data /\ bp < fst p).
  { intro p. subst rgt. rewrite filter_In, qltb_lt. tauto. }
  assert (Bl : In bp (map fst lft)).
  { apply in_map_iff in Gi. destruct Gi as [p [E Hp]]. apply in_map_iff. exists p. split; [assumption|]. apply Il. split; [assumption|]. qlra. }
  assert (Br : In mx (map fst rgt)).
  { apply in_map_iff in Mi. destruct Mi as [p [E Hp]]. apply in_map_iff. exists p. split; [assumption|]. apply Ir. split; [assumption|]. qlra. }
  assert (Ml : qmaximum (map fst lft) = Ok bp).
  { apply qmaximum_unique; [assumption|]. intros x Hx. apply in_map_iff in Hx. destruct Hx as [p [<- Hp]]. apply Il in Hp. apply Hp. }
  assert (Mr : qmaximum (map fst rgt) = Ok mx).
  { apply qmaximum_unique; [assumption|]. intros x Hx. apply in_map_iff in Hx. destruct Hx as [p [<- Hp]]. apply Ir in Hp. apply Mge, in_map, Hp. }
  assert (Nl : lft <> []) by (intros E; rewrite E in Bl; destruct Bl).
  assert (Nr : rgt <> []) by (intros E; rewrite E in Br; destruct Br).
  (* results of the two recursive calls *)
  assert (Rl : exists lp, (if Nat.ltb 1 (List.length lft) then discretize fuel md th (depth + 1) mn lft else Ok []) = Ok lp /\
     (forall x, In x lp -> x = mn \/ In x (map fst lft)) /\
     (In mn (map fst lft) -> In mn lp) /\
     (exists B, (List.length B <= Nat.pow 2 (Z.to_nat (md - (depth + 1))) \/ md = 0%Z)%nat /\ In bp B /\ forall x, In x lp -> x = mn \/ In x B)).
  { destruct (Nat.ltb_spec 1 (List.length lft)) as [Q|Q].
    - destruct (IH md th (depth + 1)%Z mn lft bp) as [lp [E [R1 [R2 [R3 [R4 R5]]]]]]; try assumption; try lia.
      + destruct rgt; [congruence|simpl in Len; lia].
      + intros p Hp. apply Il in Hp. apply Hmn, Hp.
      + exists lp. auto.
    - exists []. split; [reflexivity|]. split; [intros x []|]. split.
      + intro Hm. exfalso. destruct lft as [|p1 [|p2 lft']]; [congruence| |simpl in Q; lia].
        cbn in Bl, Hm. destruct Bl as [Bl|[]]. destruct Hm as [Hm|[]]. qlra.
      + exists [bp]. split; [|split; [left; reflexivity|intros x []]]. left. cbn.
        assert (Nat.pow 2 (Z.to_nat (md - (depth + 1))) <> 0)%nat by (apply Nat.pow_nonzero; lia). lia. }
  assert (Rr : exists rp, (if Nat.ltb 1 (List.length rgt) then discretize fuel md th (depth + 1) bp rgt else Ok []) = Ok rp /\
     (forall x, In x rp -> x = bp \/ In x (map fst rgt)) /\
     ((2 <= count_occ Qc_eq_dec (map fst rgt) mx)%nat -> In mx rp) /\
     (exists B, (List.length B <= Nat.pow 2 (Z.to_nat (md - (depth + 1))) \/ md = 0%Z)%nat /\ In mx B /\ forall x, In x rp -> x = bp \/ In x B)).
  { destruct (Nat.ltb_spec 1 (List.length rgt)) as [Q|Q].
    - destruct (IH md th (depth + 1)%Z bp rgt mx) as [rp [E [R1 [R2 [R3 [R4 R5]]]]]]; try assumption; try lia.
      + destruct lft; [congruence|simpl in Len; lia].
      + intros p Hp. apply Ir in Hp. destruct Hp as [_ Hp]. qlra.
      + exists rp. auto.
    - exists []. split; [reflexivity|]. split; [intros x []|]. split.
      + intro Hm. exfalso. assert (Z := count_occ_length (map fst rgt) mx). rewrite map_length in Z. lia.
      + exists [mx]. split; [|split; [left; reflexivity|intros x []]]. left. cbn.
        assert (Nat.pow 2 (Z.to_nat (md - (depth + 1))) <> 0)%nat by (apply Nat.pow_nonzero; lia). lia. }
  destruct Rl as [lp [El' [Rl1 [Rl2 [B1 [Rl3 [Rl4 Rl5]]]]]]].
  destruct Rr as [rp [Er' [Rr1 [Rr2 [B2 [Rr3 [Rr4 Rr5]]]]]]].
  rewrite El', Er'. cbn [bind].
  exists (qunique (lp ++ rp)). split.
  { destruct lft; [congruence|]. destruct rgt; [congruence|]. reflexivity. }
  split; [|split; [|split; [|split]]].
  - intros x Hx. rewrite qunique_In in Hx. apply in_app_or in Hx. destruct Hx as [Hx|Hx].
    + destruct (Rl1 x Hx) as [->|Hy]; [left; reflexivity|right]. apply in_map_iff in Hy. destruct Hy as [p [<- Hp]].
      apply in_map, Il, Hp.
    + right. destruct (Rr1 x Hx) as [->|Hy]; [assumption|]. apply in_map_iff in Hy. destruct Hy as [p [<- Hp]].
      apply in_map, Ir, Hp.
  - apply qunique_sorted.
  - intro Hm. apply qunique_In, in_or_app. left. apply Rl2. apply in_map_iff in Hm. destruct Hm as [p [E Hp]].
    apply in_map_iff. exists p. split; [assumption|]. apply Il. split; [assumption|]. qlra.
  - intro Hc. apply qunique_In, in_or_app. right. apply Rr2. subst rgt. rewrite filter_count_occ; [assumption|].
    intros y _ Ey. apply qltb_lt. qlra.
  - exists (B1 ++ B2). split; [|split].
    + destruct Rl3 as [Rl3|Rl3]; [|right; assumption]. destruct Rr3 as [Rr3|Rr3]; [|right; assumption].
      destruct (Z.eqb_spec md 0) as [->|Nz]; [right; reflexivity|left]. rewrite orb_false_r in Cd.
      apply andb_prop in Cd. destruct Cd as [C1 C2]. apply Z.ltb_lt in C1. apply Z.ltb_lt in C2.
      rewrite app_length. replace (Z.to_nat (md - depth)) with (S (Z.to_nat (md - (depth + 1)))) by lia.
      cbn [Nat.pow]. lia.
    + apply in_or_app. right. assumption.
    + intros x Hx. rewrite qunique_In in Hx. apply in_app_or in Hx. destruct Hx as [Hx|Hx].
      * destruct (Rl5 x Hx); [left; assumption|right; apply in_or_app; left; assumption].
      * right. apply in_or_app. destruct (Rr5 x Hx) as [->|]; [left; assumption|right; assumption].
Qed.

Lemma sorted_head mn (pts : list Qc) : StronglySorted Qclt pts -> In mn pts -> (forall x, In x pts -> mn <= x) ->
  exists r, pts = mn :: r.
Proof.
  intros S Hi Hl. destruct pts as [|x r]; [destruct Hi|]. inversion S as [|? ? S' F]; subst.
  destruct Hi as [->|Hi]; [eauto|]. rewrite Forall_forall in F.
  assert (x < mn) by auto. assert (mn <= x) by (apply Hl; left; reflexivity). qlra.
Qed.
Lemma sorted_last mx (pts : list Qc) : StronglySorted Qclt pts -> In mx pts -> (forall x, In x pts -> x <= mx) ->
  exists r, pts = r ++ [mx].
Proof.
  induction pts as [|x l IH]; intros S Hi Hl; [destruct Hi|].
  inversion S as [|? ? S' F]; subst. destruct l as [|y l].
  - destruct Hi as [->|[]]. exists []. reflexivity.
  - destruct IH as [r Hr]; [assumption| |intros; apply Hl; right; assumption|].
    + destruct Hi as [->|Hi]; [|assumption]. exfalso. rewrite Forall_forall in F.
      assert (mx < y) by (apply F; left; reflexivity). assert (y <= mx) by (apply Hl; right; left; reflexivity). qlra.
    + exists (x :: r). rewrite Hr. reflexivity.
Qed.

(** two distinct values in a column: the minimum is below the maximum *)
Lemma min_lt_max (l : list Qc) mn mx : qminimum l = Ok mn -> qmaximum l = Ok mx ->
  (exists x y, In x l /\ In y l /\ x <> y) -> mn < mx.
Proof.
  intros H1 H2 [x [y [Hx [Hy N]]]]. apply qminimum_spec in H1. apply qmaximum_spec in H2.
  destruct H1 as [_ A]. destruct H2 as [_ B]. assert (A1 := A x Hx). assert (A2 := A y Hy).
  assert (B1 := B x Hx). assert (B2 := B y Hy). destruct (Qc_neq_lt N); qlra.
Qed.

Lemma C14_all md th data : (exists x y, In x (map fst data) /\ In y (map fst data) /\ x <> y) ->
  exists m rest, entropy_points md th data = Ok (m :: rest) /\
    In m (map fst data) /\ (forall x, In x (map fst data) -> m <= x) /\
    StronglySorted Qclt (m :: rest) /\
    (forall x, In x rest -> In x (map fst data)) /\
    ((0 < md)%Z -> (List.length (m :: rest) <= Nat.pow 2 (Z.to_nat md) + 1)%nat) /\
    (forall M, (2 <= count_occ Qc_eq_dec (map fst data) M)%nat -> (forall x, In x (map fst data) -> x <= M) ->
       exists r, m :: rest = r ++ [M]).
Proof.
  intros D. assert (NE : map fst data <> []) by (destruct D as [x [_ [Hx _]]]; intro E; rewrite E in Hx; destruct Hx).
  destruct (qminimum_ok NE) as [mn Hmn]. destruct (qmaximum_ok NE) as [mx Hmx].
  assert (L := min_lt_max _ Hmn Hmx D).
  assert (L2 : (2 <= List.length data)%nat).
  { destruct D as [x [y [Hx [Hy N]]]]. destruct data as [|p [|q data]]; cbn in *.
    - destruct Hx.
    - destruct Hx as [<-|[]]. destruct Hy as [<-|[]]. congruence.
    - lia. }
  assert (Smn := qminimum_spec _ Hmn). destruct Smn as [Mi Ml]. destruct (qmaximum_spec _ Hmx) as [Xi Xg].
  unfold entropy_points. rewrite Hmn. cbn [bind].
  destruct (@discretize_inv (S (List.length data)) md th 0 mn data mx) as [pts [-> [R1 [R2 [R3 [R4 [B [R5 [R6 R7]]]]]]]]];
    try assumption; try lia.
  { intros p Hp. apply Ml, in_map, Hp. }
  assert (Hpts : forall x, In x pts -> In x (map fst data)).
  { intros x Hx. destruct (R1 x Hx) as [->|]; assumption. }
  destruct (@sorted_head mn pts R2 (R3 Mi)) as [rest ->].
  { intros x Hx. apply Ml, Hpts, Hx. }
  exists mn, rest. split; [reflexivity|]. split; [assumption|]. split; [assumption|]. split; [assumption|].
  split; [intros; apply Hpts; right; assumption|]. split.
  - intro P. replace (md - 0)%Z with md in R5 by lia. destruct R5 as [R5|R5]; [|lia].
    assert (ND : NoDup (mn :: rest)).
    { clear - R2. induction R2 as [|x l S IH F]; constructor; [|assumption]. intro Hx. rewrite Forall_forall in F.
      specialize (F x Hx). qlra. }
    assert (I : incl (mn :: rest) (mn :: B)).
    { intros x Hx. destruct (R7 x Hx) as [->|]; [left; reflexivity|right; assumption]. }
    assert (G := NoDup_incl_length ND I). cbn [List.length] in *. lia.
  - intros M Mc Mg. assert (M = mx).
    { assert (In M (map fst data)) by (apply (count_occ_In Qc_eq_dec); lia).
      apply Qcle_antisym; [apply Xg|apply Mg]; assumption. }
    subst M. apply sorted_last; [assumption|apply R4; assumption|]. intros x Hx. apply Xg, Hpts, Hx.
Qed.

(** constant columns *)
Lemma C14_const md th data m : data <> [] -> (th = None -> (2 <= List.length data)%nat) ->
  (forall x, In x (map fst data) -> x = m) -> entropy_points md th data = Ok [m; m].
Proof.
  intros NE TH H. assert (NE' : map fst data <> []) by (destruct data; [congruence|discriminate]).
  destruct (qminimum_ok NE') as [mn Hmn]. destruct (qmaximum_ok NE') as [mx Hmx].
  assert (mn = m) by (apply H, (qminimum_spec _ Hmn)). assert (mx = m) by (apply H, (qmaximum_spec _ Hmx)). subst.
  unfold entropy_points. rewrite Hmn. cbn [bind discretize]. rewrite Hmx. cbn [bind].
  assert (B : best_cut (map fst data) (map snd data) m m = Ok None).
  { unfold best_cut. assert (Hu : forall x, In x (qunique (map fst data)) -> x = m) by (intros x Hx; apply H, qunique_In, Hx).
    induction (qunique (map fst data)) as [|x l IH]; [reflexivity|]. cbn [foldM].
    rewrite (Hu x) by (left; reflexivity). rewrite qeqb_refl. cbn [negb andb bind]. apply IH. intros; apply Hu; right; assumption. }
  rewrite B. cbn [bind]. destruct (@fuzzy_triangle_2 (map fst data) m m (Qcle_refl m)) as [g ->]. cbn [bind].
  assert (T : exists t, (match th with
      | Some t => Ok t
      | None => if Nat.leb (List.length data) 1 then Err ValueError
                else Ok ((log2 (INR (List.length data) - 1) + delta_point g [] (map snd data)) / INR (List.length data))%R
      end) = Ok t).
  { destruct th as [t|]; [exists t; reflexivity|]. specialize (TH eq_refl).
    replace (Nat.leb (List.length data) 1) with false by (symmetry; apply Nat.leb_gt; lia). eexists; reflexivity. }
  destruct T as [t ->]. cbn [bind].
  destruct (_ || _); reflexivity.
Qed.
Lemma C14_single md x c : entropy_points md None [(x, c)] = Err ValueError.
Proof.
  unfold entropy_points. cbn [map fst]. change (qminimum [x]) with (Ok x). cbn [bind discretize map fst snd].
  change (qmaximum [x]) with (Ok x). cbn [bind].
  assert (B : best_cut [x] [c] x x = Ok None).
  { unfold best_cut. change (qunique [x]) with [x]. cbn [foldM]. rewrite qeqb_refl. reflexivity. }
  rewrite B. cbn [bind]. destruct (@fuzzy_triangle_2 [x] x x (Qcle_refl x)) as [g ->]. reflexivity.
Qed.

(** C15: the counterexample *)
Definition c15_data : list (Qc * Z) := [(qz 1, 0%Z); (qz 2, 0%Z); (qz 3, 1%Z)].
Lemma fe_zero_2 a b c : Forall (fun x => 0 <= x) [a; b; c] -> (c = 0 \/ (a = 0 /\ b = 0)) -> fuzzy_entropy [a; b; c] [0; 0; 1]%Z = 0%R.
Proof.
  intros HP H. apply fuzzy_entropy_zero_iff; [assumption|reflexivity|].
  intros i j ti tj ci cj A B C D P Q.
  destruct i as [|[|[|i]]]; destruct j as [|[|[|j]]]; cbn in A, B, C, D;
    try (destruct i; discriminate); try (destruct j; discriminate);
    injection A as <-; injection B as <-; injection C as <-; injection D as <-; try reflexivity;
    exfalso; destruct H as [H|[H1 H2]]; subst; qlra.
Qed.
Lemma c15_max_lost : entropy_points 0 (Some 0%R) c15_data = Ok [qz 1; qz 2].
Proof.
  unfold entropy_points. replace (qminimum (map fst c15_data)) with (Ok (qz 1)) by (symmetry; qex).
  cbn [bind]. change (List.length c15_data) with 3%nat. cbn [discretize].
  replace (qmaximum (map fst c15_data)) with (Ok (qz 3)) by (symmetry; qex). cbn [bind].
  change (map snd c15_data) with [0; 0; 1]%Z.
  assert (F3 : fuzzy_triangle (map fst c15_data) [qz 1; qz 2; qz 3] = Ok [[1;0;0];[0;1;0];[0;0;1]]) by qex.
  assert (F2 : fuzzy_triangle (map fst c15_data) [qz 1; qz 3] = Ok [[1;qc 1 2;0];[0;qc 1 2;1]]) by qex.
  assert (W : weighted_fuzzy_entropy [[1;0;0];[0;1;0];[0;0;1]] [0; 0; 1]%Z = 0%R).
  { unfold weighted_fuzzy_entropy. cbn [map]. rewrite !fe_zero_2.
    - rewrite !Rmult_0_r. cbn. unfold Rdiv. rewrite !Rplus_0_r. apply Rmult_0_l.
    - repeat constructor; qlra.
    - right; split; reflexivity.
    - repeat constructor; qlra.
    - left; reflexivity.
    - repeat constructor; qlra.
    - left; reflexivity. }
  assert (B : best_cut (map fst c15_data) [0; 0; 1]%Z (qz 1) (qz 3) = Ok (Some (0%R, qz 2, [[1;0;0];[0;1;0];[0;0;1]]))).
  { unfold best_cut. replace (qunique (map fst c15_data)) with [qz 1; qz 2; qz 3] by (symmetry; qex).
    cbn [foldM]. change (qeqb (qz 1) (qz 1)) with true. change (qeqb (qz 2) (qz 1)) with false.
    change (qeqb (qz 2) (qz 3)) with false. change (qeqb (qz 3) (qz 1)) with false. change (qeqb (qz 3) (qz 3)) with true.
    cbn [negb andb bind]. rewrite F3. cbn [bind]. rewrite W. reflexivity. }
  rewrite B, F2. cbn [bind]. change ((0 <? 0)%Z && (0 <? 0)%Z || (0 =? 0)%Z) with true. cbv iota.
  assert (G : Rltb (weighted_fuzzy_entropy [[1; qc 1 2; 0]; [0; qc 1 2; 1]] [0; 0; 1]%Z - 0) 0 = false).
  { apply Rltb_ge. destruct (@wfe_bounds [[1; qc 1 2; 0]; [0; qc 1 2; 1]] [0; 0; 1]%Z) as [P _]; [discriminate| |lra].
    intros t [<-|[<-|[]]]; (split; [|reflexivity]); repeat constructor; unfold qc; qlra. }
  rewrite G. cbn [negb].
  replace (filter (fun pc : Qc * Z => qleb (fst pc) (qz 2)) c15_data) with [(qz 1, 0%Z); (qz 2, 0%Z)] by (symmetry; qex).
  replace (filter (fun pc : Qc * Z => qltb (qz 2) (fst pc)) c15_data) with [(qz 3, 1%Z)] by (symmetry; qex).
  cbn [List.length]. change (Nat.ltb 1 2) with true. change (Nat.ltb 1 1) with false. cbv iota.
  cbn [discretize map fst snd].
  replace (qmaximum [qz 1; qz 2]) with (Ok (qz 2)) by (symmetry; qex). cbn [bind].
  replace (best_cut [qz 1; qz 2] [0; 0]%Z (qz 1) (qz 2)) with (Ok (@None (R * Qc * list (list Qc)))).
  2:{ unfold best_cut. replace (qunique [qz 1; qz 2]) with [qz 1; qz 2] by (symmetry; qex). cbn [foldM].
      change (qeqb (qz 1) (qz 1)) with true. change (qeqb (qz 2) (qz 1)) with false. change (qeqb (qz 2) (qz 2)) with true.
      reflexivity. }
  cbn [bind]. destruct (@fuzzy_triangle_2 [qz 1; qz 2] (qz 1) (qz 2)) as [g ->]; [apply qz_le; lia|].
  cbn [bind]. change ((0 <? 0)%Z && (0 + 1 <? 0)%Z || (0 =? 0)%Z) with true. cbv iota. cbn [bind app].
  reflexivity.
Qed.
Lemma C15_refuted_all : exists data pts top,
  entropy_points 0 (Some 0%R) data = Ok pts /\ In top (map fst data) /\ (forall x, In x (map fst data) -> x <= top) /\
  (forall x, In x pts -> x < top) /\
  exists sets, continuous_sets "point_set" (zip (map (fun _ => ""%string) pts) pts) = Ok sets /\
    Forall (fun s => membership (FC s) (CNum top) = Ok 0) sets.
Proof.
  exists c15_data, [qz 1; qz 2], (qz 3). split; [exact c15_max_lost|]. split; [right; right; left; reflexivity|].
  split; [intros x [<-|[<-|[<-|[]]]]; apply qz_le; lia|]. split; [intros x [<-|[<-|[]]]; apply qz_lt; lia|].
  eexists. split; [reflexivity|]. repeat constructor; qex.
Qed.

(** forms used in Properties_Discretize.v *)
Lemma zunique_nodup_length cls : List.length (zunique cls) = List.length (nodup Z.eq_dec cls).
Proof.
  apply Nat.le_antisymm; apply NoDup_incl_length.
  - apply zunique_NoDup.
  - intros x Hx. apply nodup_In, zunique_In, Hx.
  - apply NoDup_nodup.
  - intros x Hx. apply zunique_In. eapply nodup_In, Hx.
Qed.
Lemma C13_bounds (t : list Qc) (cls : list Z) :
  (forall x, In x t -> 0 <= x) -> List.length t = List.length cls -> cls <> [] ->
  (0 <= fuzzy_entropy t cls <= ln (INR (List.length (nodup Z.eq_dec cls))) / ln 2)%R.
Proof.
  intros H L N. rewrite <- Forall_forall in H. rewrite <- zunique_nodup_length.
  split; [apply fuzzy_entropy_nonneg; assumption|apply fuzzy_entropy_le; assumption].
Qed.
Lemma C13_zero (t : list Qc) (cls : list Z) :
  (forall x, In x t -> 0 <= x) -> List.length t = List.length cls ->
  (fuzzy_entropy t cls = 0%R <->
   (forall i j ti tj ci cj, nth_error t i = Some ti -> nth_error t j = Some tj ->
      nth_error cls i = Some ci -> nth_error cls j = Some cj -> 0 < ti -> 0 < tj -> ci = cj)).
Proof. intros H L. rewrite <- Forall_forall in H. apply fuzzy_entropy_zero_iff; assumption. Qed.
Lemma C13_weighted (ts : list (list Qc)) (cls : list Z) : cls <> [] ->
  (forall t, In t ts -> (forall x, In x t -> 0 <= x) /\ List.length t = List.length cls) ->
  (0 <= weighted_fuzzy_entropy ts cls <=
   Q2R (this (qsum (map qsum ts))) / INR (List.length cls) * (ln (INR (List.length (nodup Z.eq_dec cls))) / ln 2))%R.
Proof.
  intros N H. rewrite <- zunique_nodup_length. apply wfe_bounds; [assumption|].
  intros t Ht. destruct (H t Ht) as [A B]. rewrite Forall_forall. split; assumption.
Qed.
Lemma C14_thm (md : Z) (th : option R) (data : list (Qc * Z)) :
  (exists x y, In x (map fst data) /\ In y (map fst data) /\ x <> y) ->
  exists m rest, entropy_points md th data = Ok (m :: rest) /\
    (In m (map fst data) /\ forall x, In x (map fst data) -> m <= x) /\
    StronglySorted Qclt (m :: rest) /\
    (forall x, In x rest -> In x (map fst data)) /\
    ((0 < md)%Z -> (List.length (m :: rest) <= 2 ^ Z.to_nat md + 1)%nat).
Proof. intro D. destruct (C14_all md th _ D) as [m [r [A [B [C [E [F [G _]]]]]]]]. exists m, r. auto 10. Qed.
Lemma C15_kept md th data pts M :
  (exists x y, In x (map fst data) /\ In y (map fst data) /\ x <> y) ->
  (2 <= count_occ Qc_eq_dec (map fst data) M)%nat -> (forall x, In x (map fst data) -> x <= M) ->
  entropy_points md th data = Ok pts -> exists r, pts = r ++ [M].
Proof.
  intros D C G E. destruct (C14_all md th _ D) as [m [r [A [_ [_ [_ [_ [_ K]]]]]]]].
  rewrite A in E. injection E as <-. auto.
Qed.

(** ** C76: which cut is taken *)
Definition cut_wfe (data : list (Qc * Z)) (mn p mx : Qc) (w : R) : Prop :=
  exists ts, fuzzy_triangle (map fst data) [mn; p; mx] = Ok ts /\ w = weighted_fuzzy_entropy ts (map snd data).
Definition cut_best (data : list (Qc * Z)) (mn mx : Qc) (seen : list Qc) (b : option (R * Qc * list (list Qc))) : Prop :=
  match b with
  | None => forall q, In q seen -> q = mn \/ q = mx
  | Some (w, p, ft) => In p seen /\ p <> mn /\ p <> mx /\ cut_wfe data mn p mx w /\
      forall q v, In q seen -> q <> mn -> q <> mx -> cut_wfe data mn q mx v -> (w <= v)%R /\ (q < p -> (w < v)%R)
  end.
Lemma cut_wfe_fun data mn p mx v w : cut_wfe data mn p mx v -> cut_wfe data mn p mx w -> v = w.
Proof. intros [t [E ->]] [t' [E' ->]]. congruence. Qed.
Lemma best_cut_min_fold data mn mx (f := fun best point =>
    if negb (qeqb point mn) && negb (qeqb point mx) then
      do ft <- fuzzy_triangle (map fst data) [mn; point; mx];
      let wfe := weighted_fuzzy_entropy ft (map snd data) in
      match best with
      | None => Ok (Some (wfe, point, ft))
      | Some (b, _, _) => if Rltb wfe b then Ok (Some (wfe, point, ft)) else Ok best
      end
    else Ok best) :
  forall l seen b b', StronglySorted Qclt (seen ++ l) -> cut_best data mn mx seen b -> foldM f b l = Ok b' ->
  cut_best data mn mx (seen ++ l) b'.
Proof.
  induction l as [|x l IH]; intros seen b b' S G E; cbn [foldM] in E.
  - injection E as <-. rewrite app_nil_r. assumption.
  - replace (seen ++ x :: l) with ((seen ++ [x]) ++ l) in * by (rewrite <- app_assoc; reflexivity).
    assert (Hx : forall q, In q seen -> q < x).
    { clear - S. intros q Hq. apply in_split in Hq. destruct Hq as [l1 [l2 ->]]. rewrite <- !app_assoc in S.
      induction l1 as [|y l1 IH]; cbn in S; inversion S as [|? ? S' F]; subst; [|auto].
      rewrite Forall_forall in F. apply F. apply in_or_app. right. left. reflexivity. }
    unfold f at 1 in E. destruct (qeqb_spec x mn) as [E1|E1]; cbn [negb andb bind] in E.
    { eapply IH; [eassumption| |eassumption]. destruct b as [[[w p] ft]|]; cbn [cut_best] in *.
      - destruct G as [G1 [G2 [G3 [G4 G5]]]]. split; [apply in_or_app; left; assumption|]. repeat split; try assumption;
          (apply in_app_or in H; destruct H as [H|[<-|[]]]; [|contradiction]); eapply G5; eauto.
      - intros q Hq. apply in_app_or in Hq. destruct Hq as [Hq|[<-|[]]]; auto. }
    destruct (qeqb_spec x mx) as [E2|E2]; cbn [negb bind] in E.
    { eapply IH; [eassumption| |eassumption]. destruct b as [[[w p] ft]|]; cbn [cut_best] in *.
      - destruct G as [G1 [G2 [G3 [G4 G5]]]]. split; [apply in_or_app; left; assumption|]. repeat split; try assumption;
          (apply in_app_or in H; destruct H as [H|[<-|[]]]; [|contradiction]); eapply G5; eauto.
      - intros q Hq. apply in_app_or in Hq. destruct Hq as [Hq|[<-|[]]]; auto. }
    destruct (fuzzy_triangle (map fst data) [mn; x; mx]) as [ft|] eqn:Ft; cbn [bind] in E; [|discriminate].
    assert (Wx : cut_wfe data mn x mx (weighted_fuzzy_entropy ft (map snd data))) by (exists ft; split; [assumption|reflexivity]).
    destruct b as [[[w p] pft]|]; cbn [cut_best] in G.
    + destruct G as [G1 [G2 [G3 [G4 G5]]]].
      destruct (Rltb (weighted_fuzzy_entropy ft (map snd data)) w) eqn:C; cbn [bind] in E.
      * apply Rltb_lt in C. eapply IH; [eassumption| |eassumption]. cbn [cut_best].
        split; [apply in_or_app; right; left; reflexivity|]. split; [assumption|]. split; [assumption|]. split; [assumption|].
        intros q v Hq N1 N2 W. apply in_app_or in Hq. destruct Hq as [Hq|[<-|[]]].
        -- destruct (G5 q v Hq N1 N2 W) as [A _]. split; [lra|intro; lra].
        -- rewrite (cut_wfe_fun W Wx). split; [lra|intro; exfalso; qlra].
      * apply Rltb_ge in C. eapply IH; [eassumption| |eassumption]. cbn [cut_best].
        split; [apply in_or_app; left; assumption|]. split; [assumption|]. split; [assumption|]. split; [assumption|].
        intros q v Hq N1 N2 W. apply in_app_or in Hq. destruct Hq as [Hq|[<-|[]]].
        -- eapply G5; eauto.
        -- rewrite (cut_wfe_fun W Wx). split; [lra|]. intro L. exfalso. assert (L' := Hx p G1). qlra.
    + cbn [bind] in E. eapply IH; [eassumption| |eassumption]. cbn [cut_best].
      split; [apply in_or_app; right; left; reflexivity|]. split; [assumption|]. split; [assumption|]. split; [assumption|].
      intros q v Hq N1 N2 W. apply in_app_or in Hq. destruct Hq as [Hq|[<-|[]]].
      -- destruct (G q Hq); contradiction.
      -- rewrite (cut_wfe_fun W Wx). split; [lra|intro; exfalso; qlra].
Qed.
Lemma best_cut_min data mn mx b : best_cut (map fst data) (map snd data) mn mx = Ok b ->
  cut_best data mn mx (qunique (map fst data)) b.
Proof.
  intro E. unfold best_cut in E. change (qunique (map fst data)) with ([] ++ qunique (map fst data)) at 1.
  eapply best_cut_min_fold; [apply qunique_sorted| |exact E]. intros q [].
Qed.

Definition may_split (md depth : Z) : Prop := md = 0%Z \/ (depth < md)%Z /\ (0 < md)%Z.
Lemma may_split_iff md depth : ((Z.ltb 0 md && Z.ltb depth md) || Z.eqb md 0 = true) <-> may_split md depth.
Proof.
  unfold may_split. destruct (Z.ltb_spec 0 md), (Z.ltb_spec depth md), (Z.eqb_spec md 0); cbn;
    (split; [intro; try discriminate; lia | intro; try reflexivity; lia]).
Qed.
