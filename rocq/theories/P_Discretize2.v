(** * Proofs: entropy and discretisation against S_Discretize *)
From Verif Require Import Prelude M_Fuzzy M_Discretize S_Discretize P_FuzzySet P_FuzzyVar P_Entropy P_Discretize.
From Coq Require Import Reals Lra.
Open Scope Qc_scope.

Lemma rsum_unique (f : Z -> R) l : rsum (map f (zunique l)) = total (map f (nodup Z.eq_dec l)).
Proof.
  change total with rsum. apply rsum_perm, Permutation_map, NoDup_Permutation.
  - apply zunique_NoDup.
  - apply NoDup_nodup.
  - intro c. rewrite nodup_In. apply zunique_In.
Qed.
Lemma length_unique l : List.length (zunique l) = List.length (nodup Z.eq_dec l).
Proof.
  apply Permutation_length, NoDup_Permutation; [apply zunique_NoDup|apply NoDup_nodup|]. intro c. rewrite nodup_In. apply zunique_In.
Qed.
Lemma weight_spec (rows : list (Qc * Z)) : weight rows = qr (qsum (map fst rows)).
Proof. unfold weight. rewrite qr_qsum, map_map. reflexivity. Qed.
Lemma term_spec rows c : (forall r, In r rows -> 0 <= fst r) ->
  entropy_term (map fst rows) (map snd rows) c = plog (weight (of_label c rows) / weight rows).
Proof.
  intro P. assert (NN : Forall (fun x => 0 <= x) (map fst rows)) by (apply Forall_forall; intros x Hx; apply in_map_iff in Hx; destruct Hx as [r [<- Hr]]; auto).
  assert (LE : List.length (map fst rows) = List.length (map snd rows)) by (rewrite !map_length; reflexivity).
  assert (Z : zip (map fst rows) (map snd rows) = rows).
  { clear. induction rows as [|[a b] l IH]; [reflexivity|]. cbn [map fst snd]. change ((a, b) :: zip (map fst l) (map snd l) = (a, b) :: l). rewrite IH. reflexivity. }
  assert (C : class_card (map fst rows) (map snd rows) c = qsum (map fst (of_label c rows))) by (unfold class_card, of_label; rewrite Z; reflexivity).
  rewrite !weight_spec. unfold entropy_term, plog. rewrite C.
  assert (C0 := @class_card_nonneg (map fst rows) (map snd rows) c NN). rewrite C in C0.
  assert (C1 := @class_card_le (map fst rows) (map snd rows) c NN LE). rewrite C in C1.
  set (cc := qsum (map fst (of_label c rows))) in *. set (s := qsum (map fst rows)) in *.
  destruct (qltb 0 cc) eqn:B.
  - rewrite qltb_lt in B. assert (S : 0 < s) by qlra. rewrite qr_div by (intro E; rewrite E in S; discriminate).
    assert (0 < qr cc / qr s)%R. { apply Rdiv_lt_0_compat; rewrite <- qr_0; apply qr_lt; assumption. }
    destruct (Rle_dec (qr cc / qr s) 0); [lra|]. unfold bits, log2. ring.
  - rewrite qltb_ge in B. assert (E : cc = 0) by (apply Qcle_antisym; assumption). rewrite E, qr_0.
    replace (0 / qr s)%R with 0%R by (unfold Rdiv; ring). destruct (Rle_dec 0 0); [reflexivity|lra].
Qed.
Lemma entropy_rows rows : (forall r, In r rows -> 0 <= fst r) -> fuzzy_entropy (map fst rows) (map snd rows) = entropy_of rows.
Proof.
  intro P. unfold fuzzy_entropy, entropy_of, labels. rewrite <- rsum_unique. apply rsum_map_ext. intros c _. apply term_spec. exact P.
Qed.

(** triangles *)
Lemma height_tri a b c x : a <= b -> b <= c -> tri a b c x = height (a, b, c) x.
Proof.
  intros AB BC. unfold tri, height. destruct (qeqb_spec x b) as [E|N], (Qc_eq_dec x b); try contradiction; [reflexivity|].
  destruct (Qclt_le_dec x b) as [L|L].
  - rewrite (proj2 (qltb_lt x b) L). destruct (Qclt_le_dec a x) as [L'|L'].
    + rewrite (proj2 (qltb_lt a x) L'). destruct (qeqb_spec a b); [subst; exfalso; qlra|reflexivity].
    + rewrite (proj2 (qltb_ge a x) L'). cbn [andb]. rewrite andb_false_r. replace (qltb b x) with false by (symmetry; apply qltb_ge; qlra). cbn [andb]. rewrite andb_false_r. reflexivity.
  - assert (L2 : b < x) by (destruct (Qc_neq_lt n); qlra). rewrite (proj2 (qltb_ge x b) L). rewrite andb_false_r, andb_false_r. rewrite (proj2 (qltb_lt b x) L2).
    destruct (Qclt_le_dec x c) as [L'|L'].
    + rewrite (proj2 (qltb_lt x c) L'). destruct (qeqb_spec b c); [subst; exfalso; qlra|reflexivity].
    + rewrite (proj2 (qltb_ge x c) L'). cbn [andb]. rewrite andb_false_r. reflexivity.
Qed.
Lemma height_nonneg a b c x : a <= b -> b <= c -> 0 <= height (a, b, c) x.
Proof. intros A B. rewrite <- height_tri by assumption. apply tri_01; assumption. Qed.
Definition ordered (t : Qc * Qc * Qc) : Prop := let '(a, b, c) := t in a <= b /\ b <= c.
Lemma triangles_col variable ts : (forall t, In t ts -> ordered t) ->
  mapM (fun abc => let '(a, b, c) := abc in mapM (trimf a b c) variable) ts = Ok (map (fun t => map (height t) variable) ts).
Proof.
  intro O. apply mapM_ok. induction ts as [|[[a b] c] ts IH]; [constructor|]. cbn [map]. constructor.
  - destruct (O (a, b, c) (or_introl eq_refl)) as [A B]. apply mapM_ok. clear - A B. induction variable as [|x l IH]; [constructor|]. cbn [map]. constructor; [|assumption].
    unfold trimf, valid_points. rewrite (proj2 (qleb_le _ _) A), (proj2 (qleb_le _ _) B). cbn [andb]. rewrite height_tri by assumption. reflexivity.
  - apply IH. intros; apply O; right; assumption.
Qed.
Lemma two_ordered mn mx : mn <= mx -> forall t, In t (two mn mx) -> ordered t.
Proof. intros L t [<-|[<-|[]]]; cbn; split; qlra. Qed.
Lemma three_ordered mn p mx : mn <= p -> p <= mx -> forall t, In t (three mn p mx) -> ordered t.
Proof. intros A B t [<-|[<-|[<-|[]]]]; cbn; split; qlra. Qed.
Definition cols (ts : list (Qc * Qc * Qc)) (data : list (Qc * Z)) : list (list Qc) := map (fun t => map (height t) (map fst data)) ts.
Lemma triangle_two data mn mx : mn <= mx -> fuzzy_triangle (map fst data) [mn; mx] = Ok (cols (two mn mx) data).
Proof. intro L. unfold fuzzy_triangle. exact (triangles_col (map fst data) (two mn mx) (two_ordered mn mx L)). Qed.
Lemma triangle_three data mn p mx : mn <= p -> p <= mx -> fuzzy_triangle (map fst data) [mn; p; mx] = Ok (cols (three mn p mx) data).
Proof. intros A B. unfold fuzzy_triangle. exact (triangles_col (map fst data) (three mn p mx) (three_ordered mn p mx A B)). Qed.

Lemma under_fst t data : map fst (under t data) = map (height t) (map fst data).
Proof. unfold under. rewrite !map_map. reflexivity. Qed.
Lemma under_snd t data : map snd (under t data) = map snd data.
Proof. unfold under. rewrite map_map. reflexivity. Qed.
Lemma under_nonneg t data : ordered t -> forall r, In r (under t data) -> 0 <= fst r.
Proof. destruct t as [[a b] c]. intros [A B] r Hr. unfold under in Hr. apply in_map_iff in Hr. destruct Hr as [r' [<- _]]. apply height_nonneg; assumption. Qed.
Lemma entropy_under t data : ordered t -> fuzzy_entropy (map (height t) (map fst data)) (map snd data) = entropy_of (under t data).
Proof. intro O. rewrite <- entropy_rows by (apply under_nonneg; assumption). rewrite under_fst, under_snd. reflexivity. Qed.
Lemma wfe_spec ts data : (forall t, In t ts -> ordered t) -> weighted_fuzzy_entropy (cols ts data) (map snd data) = left_over ts data.
Proof.
  intro O. unfold weighted_fuzzy_entropy, left_over, cols. rewrite map_length, map_map. f_equal. apply rsum_map_ext. intros t Ht.
  rewrite entropy_under by auto. rewrite weight_spec, under_fst. reflexivity.
Qed.
Lemma positive_spec t data : positive_classes (map (height t) (map fst data)) (map snd data) = classes_under t data.
Proof.
  unfold positive_classes, classes_under, labels. rewrite length_unique. do 2 f_equal. f_equal.
  rewrite <- under_fst, <- (under_snd t). generalize (under t data). clear. induction l as [|[a b] l IH]; [reflexivity|]. cbn [map fst snd]. change (zip (a :: map fst l) (b :: map snd l)) with ((a, b) :: zip (map fst l) (map snd l)). cbn [filter fst]. destruct (qltb 0 a); cbn [map]; rewrite IH; reflexivity.
Qed.
Lemma required_spec th data mn p mx (L : (2 <= List.length data)%nat) : mn <= p -> p <= mx ->
  (match th with
   | Some t => Ok t
   | None => if Nat.leb (List.length data) 1 then Err ValueError
             else Ok ((log2 (INR (List.length data) - 1) + delta_point (cols (two mn mx) data) (cols (three mn p mx) data) (map snd data)) / INR (List.length data))%R
   end) = Ok (required th data mn p mx).
Proof.
  intros A B. destruct th as [t|]; [reflexivity|]. replace (Nat.leb (List.length data) 1) with false by (symmetry; apply Nat.leb_gt; lia).
  f_equal. unfold required. cbv zeta. unfold delta_point. rewrite wfe_spec by (apply two_ordered; qlra). rewrite length_unique. fold (labels data).
  unfold cols at 1. rewrite map_map. unfold log2, bits.
  assert (E : rsum (map (fun t => INR (positive_classes (map (height t) (map fst data)) (map snd data)) * fuzzy_entropy (map (height t) (map fst data)) (map snd data))%R (three mn p mx)) =
              total (map (fun t => INR (classes_under t data) * entropy_of (under t data))%R (three mn p mx))).
  { apply rsum_map_ext. intros t Ht. rewrite positive_spec, entropy_under; [reflexivity|]. exact (three_ordered mn p mx A B t Ht). }
  rewrite E. reflexivity.
Qed.

Lemma best_cut_ft data mn mx : forall l b b', foldM (fun best point =>
    if negb (qeqb point mn) && negb (qeqb point mx) then
      do ft <- fuzzy_triangle (map fst data) [mn; point; mx];
      let wfe := weighted_fuzzy_entropy ft (map snd data) in
      match best with
      | None => Ok (Some (wfe, point, ft))
      | Some (b, _, _) => if Rltb wfe b then Ok (Some (wfe, point, ft)) else Ok best
      end
    else Ok best) b l = Ok b' ->
  (forall w p ft, b = Some (w, p, ft) -> fuzzy_triangle (map fst data) [mn; p; mx] = Ok ft) ->
  (forall w p ft, b' = Some (w, p, ft) -> fuzzy_triangle (map fst data) [mn; p; mx] = Ok ft).
Proof.
  induction l as [|x l IH]; intros b b' E H; cbn [foldM] in E; [injection E as <-; exact H|].
  destruct (negb (qeqb x mn) && negb (qeqb x mx)); cbn [bind] in E; [|exact (IH _ _ E H)].
  destruct (fuzzy_triangle (map fst data) [mn; x; mx]) as [ft|] eqn:F; cbn [bind] in E; [|discriminate].
  assert (N : forall w p ft0, Some (weighted_fuzzy_entropy ft (map snd data), x, ft) = Some (w, p, ft0) -> fuzzy_triangle (map fst data) [mn; p; mx] = Ok ft0) by congruence.
  destruct b as [[[w p] bft]|]; cbn [bind] in E.
  - destruct (Rltb (weighted_fuzzy_entropy ft (map snd data)) w); cbn [bind] in E; [exact (IH _ _ E N)|exact (IH _ _ E H)].
  - exact (IH _ _ E N).
Qed.

Lemma may_cut_iff md depth : ((Z.ltb 0 md && Z.ltb depth md) || Z.eqb md 0 = true) <-> may_cut md depth.
Proof. exact (may_split_iff md depth). Qed.
Lemma discretize_divided fuel : forall md th depth mn data mx,
  (List.length data < fuel)%nat -> (2 <= List.length data)%nat ->
  (forall p, In p data -> mn <= fst p) -> qmaximum (map fst data) = Ok mx -> mn < mx ->
  exists pts, discretize fuel md th depth mn data = Ok pts /\ divided md th depth mn data pts.
Proof.
  induction fuel as [|fuel IH]; intros md th depth mn data mx Hf H2 Hmn Hmx Hlt; [lia|].
  cbn [discretize]. rewrite Hmx. cbn [bind].
  destruct (qmaximum_spec _ Hmx) as [Mi Mge].
  assert (LG : largest data mx) by (split; assumption).
  assert (Hr : forall x, In x (map fst data) -> mn <= x /\ x <= mx).
  { intros x Hx. split; [|auto]. apply in_map_iff in Hx. destruct Hx as [p [<- Hp]]. auto. }
  destruct (@best_cut_ok (map fst data) (map snd data) mn mx Hr) as [b [Eb Gb]]. rewrite Eb.
  assert (Ft := best_cut_ft _ _ _ _ _ _ Eb ltac:(discriminate)).
  apply best_cut_min in Eb. cbn [bind].
  rewrite triangle_two by qlra. cbn [bind]. rewrite wfe_spec by (apply two_ordered; qlra).
  assert (Inner : forall q, inside data mn mx q <-> In q (qunique (map fst data)) /\ q <> mn /\ q <> mx).
  { intro q. unfold inside. rewrite qunique_In. split.
    - intros [A [B C]]. split; [assumption|]. split; intro; subst; qlra.
    - intros [A [B C]]. split; [assumption|]. destruct (Hr q A). split; [destruct (Qc_neq_lt B)|destruct (Qc_neq_lt C)]; qlra. }
  destruct b as [[[bw bp] bft]|]; cbn [cut_best cut_good] in *.
  2:{ assert (T : exists t, (match th with
        | Some t => Ok t
        | None => if Nat.leb (List.length data) 1 then Err ValueError
                  else Ok ((log2 (INR (List.length data) - 1) + delta_point (cols (two mn mx) data) [] (map snd data)) / INR (List.length data))%R
        end) = Ok t).
      { destruct th as [t|]; [exists t; reflexivity|]. replace (Nat.leb (List.length data) 1) with false by (symmetry; apply Nat.leb_gt; lia). eexists; reflexivity. }
      destruct T as [t ->]. cbn [bind]. exists [mn; mx]. split; [destruct (_ || _); reflexivity|].
      eapply d_stop; [eassumption|]. right. left. intros p Hp.
      apply Inner in Hp. destruct Hp as [A [B C]]. destruct (Eb p A); contradiction. }
  destruct Gb as [Gi [G1 G2]]. cbv zeta. destruct Eb as [Eb1 [_ [_ [[bts [Ebt Ebw]] Ebm]]]].
  destruct (Hr bp Gi) as [L1 L2].
  assert (L1' : mn < bp) by (destruct (Qc_neq_lt G1); qlra).
  assert (L2' : bp < mx) by (destruct (Qc_neq_lt G2); qlra).
  specialize (Ft bw bp bft eq_refl). rewrite (triangle_three data mn bp mx L1 L2) in Ft, Ebt. assert (bft = cols (three mn bp mx) data) by congruence. assert (bts = cols (three mn bp mx) data) by congruence. subst bft bts. clear Ft Ebt.
  rewrite wfe_spec in Ebw by (apply three_ordered; assumption).
  assert (BC : best_cut_at data mn mx bp).
  { split; [split; [assumption|split; assumption]|]. intros q Hq. assert (Hq' := Hq). destruct Hq' as (Q0 & Q4 & Q5). apply Inner in Hq. destruct Hq as [Q1 [Q2 Q3]].
    assert (W := triangle_three data mn q mx ltac:(qlra) ltac:(qlra)).
    destruct (Ebm q (left_over (three mn q mx) data) Q1 Q2 Q3) as [K1 K2].
    { eexists. split; [exact W|]. rewrite wfe_spec; [reflexivity|]. apply three_ordered; qlra. }
    unfold gain_at. subst bw. split; [lra|]. intro L. specialize (K2 L). lra. }
  rewrite (required_spec th data mn bp mx H2 L1 L2). cbn [bind].
  replace (left_over (two mn mx) data - bw)%R with (gain_at data mn bp mx) by (subst bw; reflexivity).
  destruct ((Z.ltb 0 md && Z.ltb depth md) || Z.eqb md 0) eqn:Cd.
  2:{ exists [mn; mx]. split; [reflexivity|]. eapply d_stop; [eassumption|]. left. intro M. apply may_cut_iff in M. congruence. }
  apply may_cut_iff in Cd.
  destruct (Rltb (gain_at data mn bp mx) (required th data mn bp mx)) eqn:Ct; cbn [negb].
  { exists [mn; mx]. split; [reflexivity|]. eapply d_stop; [eassumption|]. right. right. exists bp. split; [assumption|]. apply Rltb_lt. assumption. }
  apply Rltb_ge in Ct.
  remember (filter (fun pc => qleb (fst pc) bp) data) as lft eqn:El.
  remember (filter (fun pc => qltb bp (fst pc)) data) as rgt eqn:Er.
  assert (Len : (List.length lft + List.length rgt = List.length data)%nat).
  { subst. apply filter_partition_length. intros x _. apply qltb_negb_qleb. }
  assert (Il : forall p, In p lft <-> In p data /\ fst p <= bp).
  { intro p. subst lft. rewrite filter_In, qleb_le. tauto. }
  assert (Ir : forall p, In p rgt <-> In p data /\ bp < fst p).
  { intro p. subst rgt. rewrite filter_In, qltb_lt. tauto. }
  assert (Bl : In bp (map fst lft)).
  { apply in_map_iff in Gi. destruct Gi as [p [E Hp]]. apply in_map_iff. exists p. split; [assumption|]. apply Il. split; [assumption|]. qlra. }
  assert (Br : In mx (map fst rgt)).
  { apply in_map_iff in Mi. destruct Mi as [p [E Hp]]. apply in_map_iff. exists p. split; [assumption|]. apply Ir. split; [assumption|]. qlra. }
  assert (Ml : qmaximum (map fst lft) = Ok bp).
  { apply qmaximum_unique; [assumption|]. intros x Hx. apply in_map_iff in Hx. destruct Hx as [p [<- Hp]]. apply Il in Hp. apply Hp. }
  assert (Mr : qmaximum (map fst rgt) = Ok mx).
  { apply qmaximum_unique; [assumption|]. intros x Hx. apply in_map_iff in Hx. destruct Hx as [p [<- Hp]]. apply Ir in Hp. apply Mge, in_map, Hp. }
  assert (Nl : lft <> []) by (intros E; rewrite E in Bl; destruct Bl).
  assert (Nr : rgt <> []) by (intros E; rewrite E in Br; destruct Br).
  assert (Rl : exists lp, (if Nat.ltb 1 (List.length lft) then discretize fuel md th (depth + 1) mn lft else Ok []) = Ok lp /\
     divided_side md th (depth + 1) mn lft lp).
  { destruct (Nat.ltb_spec 1 (List.length lft)) as [Q|Q].
    - destruct (IH md th (depth + 1)%Z mn lft bp) as [lp [E R]]; try assumption.
      + destruct rgt; [congruence|simpl in Len; lia].
      + intros p Hp. apply Il in Hp. apply Hmn, Hp.
      + exists lp. split; [assumption|]. apply d_more; [lia|assumption].
    - exists []. split; [reflexivity|]. destruct lft as [|p1 [|p2 lft']]; [congruence| |simpl in Q; lia]. apply d_one. }
  assert (Rr : exists rp, (if Nat.ltb 1 (List.length rgt) then discretize fuel md th (depth + 1) bp rgt else Ok []) = Ok rp /\
     divided_side md th (depth + 1) bp rgt rp).
  { destruct (Nat.ltb_spec 1 (List.length rgt)) as [Q|Q].
    - destruct (IH md th (depth + 1)%Z bp rgt mx) as [rp [E R]]; try assumption.
      + destruct lft; [congruence|simpl in Len; lia].
      + intros p Hp. apply Ir in Hp. destruct Hp as [_ Hp]. qlra.
      + exists rp. split; [assumption|]. apply d_more; [lia|assumption].
    - exists []. split; [reflexivity|]. destruct rgt as [|p1 [|p2 rgt']]; [congruence| |simpl in Q; lia]. apply d_one. }
  destruct Rl as [lp [El' Rl]]. destruct Rr as [rp [Er' Rr]].
  rewrite El', Er'. cbn [bind].
  exists (qunique (lp ++ rp)). split.
  { destruct lft; [congruence|]. destruct rgt; [congruence|]. reflexivity. }
  rewrite El in Rl. rewrite Er in Rr.
  eapply d_cut; try eassumption.
  - apply qunique_sorted.
  - intro x. rewrite qunique_In, in_app_iff. tauto.
Qed.

(** the relation is a function *)
Lemma sorted_same (l l' : list Qc) : StronglySorted Qclt l -> StronglySorted Qclt l' -> (forall x, In x l <-> In x l') -> l = l'.
Proof.
  revert l'. induction l as [|x l IH]; intros [|y l'] S S' E.
  - reflexivity.
  - exfalso. apply (proj2 (E y)). left. reflexivity.
  - exfalso. apply (proj1 (E x)). left. reflexivity.
  - inversion S as [|? ? S1 F1]; subst. inversion S' as [|? ? S2 F2]; subst. rewrite Forall_forall in F1, F2.
    assert (x = y). { destruct (proj1 (E x) (or_introl eq_refl)) as [H|H]; [auto|]. destruct (proj2 (E y) (or_introl eq_refl)) as [H'|H']; [auto|].
      apply F1 in H'. apply F2 in H. exfalso. qlra. }
    subst y. f_equal. apply IH; [assumption|assumption|]. intro z. split; intro Hz.
    + destruct (proj1 (E z) (or_intror Hz)) as [<-|H]; [|assumption]. apply F1 in Hz. exfalso. qlra.
    + destruct (proj2 (E z) (or_intror Hz)) as [<-|H]; [|assumption]. apply F2 in Hz. exfalso. qlra.
Qed.
Lemma largest_fun data a b : largest data a -> largest data b -> a = b.
Proof. intros [A B] [C D]. apply Qcle_antisym; auto. Qed.
Lemma best_fun data mn mx p q : best_cut_at data mn mx p -> best_cut_at data mn mx q -> p = q.
Proof.
  intros [A B] [C D]. destruct (B q C) as [B1 B2]. destruct (D p A) as [D1 D2]. destruct (Qc_dec p q) as [[L|L]|E]; [| |assumption].
  - specialize (D2 L). lra.
  - specialize (B2 L). lra.
Qed.
Scheme divided_rec' := Minimality for divided Sort Prop with divided_side_rec' := Minimality for divided_side Sort Prop.
Combined Scheme divided_mut from divided_rec', divided_side_rec'.
Lemma divided_fun md th :
  (forall depth mn data pts, divided md th depth mn data pts -> forall pts', divided md th depth mn data pts' -> pts = pts') /\
  (forall depth mn data pts, divided_side md th depth mn data pts -> forall pts', divided_side md th depth mn data pts' -> pts = pts').
Proof.
  apply divided_mut.
  - intros depth mn mx data LG ST pts' H'. inversion H'; subst.
    + rewrite (largest_fun _ _ _ LG H). reflexivity.
    + exfalso. rewrite <- (largest_fun _ _ _ LG H) in *. destruct ST as [ST|[ST|(q & BQ & LQ)]].
      * contradiction.
      * destruct H1 as [I _]. exact (ST _ I).
      * rewrite (best_fun _ _ _ _ _ H1 BQ) in *. lra.
  - intros depth mn mx data p lp rp pts LG MC BP RQ _ IHl _ IHr SS EQ pts' H'. inversion H'; subst.
    + exfalso. rewrite <- (largest_fun _ _ _ LG H) in *. destruct H0 as [ST|[ST|(q & BQ & LQ)]].
      * contradiction.
      * destruct BP as [I _]. exact (ST _ I).
      * rewrite (best_fun _ _ _ _ _ BP BQ) in *. lra.
    + rewrite <- (largest_fun _ _ _ LG H) in *. rewrite <- (best_fun _ _ _ _ _ BP H1) in *.
      apply sorted_same; [assumption|assumption|]. intro x. rewrite EQ, H6. rewrite (IHl _ H3), (IHr _ H4). reflexivity.
  - intros depth mn row pts' H'. inversion H'; subst; [reflexivity|]. cbn in H. lia.
  - intros depth mn data pts L _ IH pts' H'. inversion H'; subst; [cbn in L; lia|]. apply IH. assumption.
Qed.

Lemma entropy_points_divided md th data : (exists x y, In x (map fst data) /\ In y (map fst data) /\ x <> y) ->
  exists mn pts, (In mn (map fst data) /\ forall x, In x (map fst data) -> mn <= x) /\ entropy_points md th data = Ok pts /\ divided md th 0 mn data pts.
Proof.
  intros D. assert (NE : map fst data <> []) by (destruct D as [x [_ [Hx _]]]; intro E; rewrite E in Hx; destruct Hx).
  destruct (qminimum_ok NE) as [mn Hmn]. destruct (qmaximum_ok NE) as [mx Hmx].
  assert (L := min_lt_max _ Hmn Hmx D).
  assert (L2 : (2 <= List.length data)%nat).
  { destruct D as (x & y & A & B & N). destruct data as [|r [|r' data]]; cbn in *; [destruct A| |lia]. destruct A as [A|[]], B as [B|[]]. congruence. }
  destruct (discretize_divided (S (List.length data)) md th 0 mn data mx) as [pts [E R]]; try assumption; try lia.
  { intros p Hp. apply (proj2 (qminimum_spec _ Hmn)), in_map, Hp. }
  exists mn, pts. split; [exact (qminimum_spec _ Hmn)|]. split; [|assumption]. unfold entropy_points. rewrite Hmn. exact E.
Qed.
