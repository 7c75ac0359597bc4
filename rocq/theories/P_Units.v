(** * Proofs: the discretisation of a column in other units, with other class codes, in another row order *)
From Verif Require Import Prelude M_Fuzzy M_Discretize S_Discretize P_FuzzySet P_FuzzyVar P_Entropy P_Discretize P_Discretize2.
From Coq Require Import Reals Lra.
Open Scope Qc_scope.

Section Units.
  Variable k b : Qc.
  Hypothesis Hk : 0 < k.
  Variable s : Z -> Z.
  Variable L : list Z.
  Hypothesis inj : forall c d, In c L -> In d L -> s c = s d -> c = d.

  Definition g (x : Qc) : Qc := k * x + b.
  Lemma g_lt x y : g x < g y <-> x < y.
  Proof.
    unfold g. split; intro H.
    - destruct (Qclt_le_dec x y) as [|Q]; [assumption|]. exfalso. assert (k * y <= k * x) by (rewrite (Qcmult_comm k y), (Qcmult_comm k x); apply Qcmult_le_compat_r; qlra). qlra.
    - assert (x * k < y * k) by (apply Qcmult_lt_compat_r; assumption). rewrite (Qcmult_comm k x), (Qcmult_comm k y). qlra.
  Qed.
  Lemma g_inj x y : g x = g y -> x = y.
  Proof.
    intro H. destruct (Qc_dec x y) as [[Q|Q]|E]; [| |assumption]; rewrite <- g_lt in Q; rewrite H in Q; exfalso; qlra.
  Qed.
  Lemma g_le x y : g x <= g y <-> x <= y.
  Proof.
    split; intro H.
    - destruct (Qclt_le_dec y x) as [Q|Q]; [|assumption]. rewrite <- g_lt in Q. exfalso. qlra.
    - destruct (Qclt_le_dec (g y) (g x)) as [Q|Q]; [|assumption]. rewrite g_lt in Q. exfalso. qlra.
  Qed.
  Lemma g_sub x y : g x - g y = k * (x - y).
  Proof. unfold g. ring. Qed.
  Definition g3 (t : Qc * Qc * Qc) : Qc * Qc * Qc := let '(p, q, r) := t in (g p, g q, g r).
  Lemma div_k u v : v <> 0 -> k * u / (k * v) = u / v.
  Proof. intro V. field. split; [assumption|]. intro E. rewrite E in Hk. discriminate Hk. Qed.
  Lemma height_g t x : height (g3 t) (g x) = height t x.
  Proof.
    destruct t as [[p q] r]. cbn [g3 height].
    destruct (Qc_eq_dec (g x) (g q)) as [E|E], (Qc_eq_dec x q) as [E'|E']; try reflexivity.
    - exfalso. apply E', g_inj, E.
    - exfalso. apply E. rewrite E'. reflexivity.
    - destruct (Qclt_le_dec (g x) (g q)) as [Q|Q], (Qclt_le_dec x q) as [Q'|Q'].
      + destruct (Qclt_le_dec (g p) (g x)) as [W|W], (Qclt_le_dec p x) as [W'|W']; try reflexivity.
        * rewrite !g_sub. apply div_k. intro Z. qlra.
        * rewrite g_lt in W. exfalso. qlra.
        * rewrite <- g_lt in W'. exfalso. qlra.
      + rewrite g_lt in Q. exfalso. qlra.
      + rewrite <- g_lt in Q'. exfalso. qlra.
      + destruct (Qclt_le_dec (g x) (g r)) as [W|W], (Qclt_le_dec x r) as [W'|W']; try reflexivity.
        * rewrite !g_sub. apply div_k. intro Z. qlra.
        * rewrite g_lt in W. exfalso. qlra.
        * rewrite <- g_lt in W'. exfalso. qlra.
  Qed.

  (** weighted rows with the classes renamed *)
  Definition ren (r : Qc * Z) : Qc * Z := (fst r, s (snd r)).
  Definition conv (r : Qc * Z) : Qc * Z := (g (fst r), s (snd r)).
  Lemma total_perm l l' : Permutation l l' -> total l = total l'.
  Proof. intro P. induction P; cbn [total fold_right] in *; unfold total in *; cbn [fold_right]; lra. Qed.
  Lemma weight_perm rows rows' : Permutation rows rows' -> weight rows = weight rows'.
  Proof. intro P. apply total_perm, Permutation_map, P. Qed.
  Lemma weight_ren rows : weight (map ren rows) = weight rows.
  Proof. unfold weight. rewrite map_map. reflexivity. Qed.
  Lemma filter_perm' A (f : A -> bool) l l' : Permutation l l' -> Permutation (filter f l) (filter f l').
  Proof.
    intro P. induction P; cbn [filter].
    - constructor.
    - destruct (f x); [constructor|]; assumption.
    - destruct (f x), (f y); try apply Permutation_refl. constructor.
    - eapply perm_trans; eassumption.
  Qed.
  Lemma of_label_perm c rows rows' : Permutation rows rows' -> Permutation (of_label c rows) (of_label c rows').
  Proof. apply filter_perm'. Qed.
  Lemma of_label_ren c rows : In c L -> incl (map snd rows) L -> of_label (s c) (map ren rows) = map ren (of_label c rows).
  Proof.
    intros Hc I. induction rows as [|r rows IH]; [reflexivity|]. cbn [map of_label filter ren snd] in *. fold (of_label (s c) (map ren rows)). fold (of_label c rows).
    rewrite IH by (intros x Hx; apply I; right; assumption). destruct (Z.eqb_spec (snd r) c) as [E|E].
    - rewrite E, Z.eqb_refl. reflexivity.
    - destruct (Z.eqb_spec (s (snd r)) (s c)) as [E'|E']; [|reflexivity]. exfalso. apply E. apply inj; [apply I; left; reflexivity|assumption|assumption].
  Qed.
  Lemma labels_perm rows rows' : Permutation rows rows' -> Permutation (labels rows) (labels rows').
  Proof.
    intro P. apply NoDup_Permutation; try apply NoDup_nodup. intro c. unfold labels. rewrite !nodup_In. split; apply Permutation_in; apply Permutation_map; [|apply Permutation_sym]; assumption.
  Qed.
  Lemma nodup_ren l : incl l L -> nodup Z.eq_dec (map s l) = map s (nodup Z.eq_dec l).
  Proof.
    intro I. induction l as [|c l IH]; [reflexivity|]. cbn [map nodup]. rewrite IH by (intros x Hx; apply I; right; assumption).
    destruct (in_dec Z.eq_dec c l) as [H|H], (in_dec Z.eq_dec (s c) (map s l)) as [H'|H']; try reflexivity.
    - exfalso. apply H', in_map, H.
    - exfalso. apply in_map_iff in H'. destruct H' as [d [E Hd]]. apply inj in E; [subst d; contradiction|apply I; right; assumption|apply I; left; reflexivity].
  Qed.
  Lemma labels_ren rows : incl (map snd rows) L -> labels (map ren rows) = map s (labels rows).
  Proof. intro I. unfold labels. rewrite <- nodup_ren by assumption. rewrite !map_map. reflexivity. Qed.
  Lemma entropy_perm rows rows' : Permutation rows rows' -> entropy_of rows = entropy_of rows'.
  Proof.
    intro P. unfold entropy_of. rewrite (total_perm _ _ (Permutation_map _ (labels_perm _ _ P))). f_equal. apply map_ext. intro c.
    rewrite (weight_perm _ _ P), (weight_perm _ _ (of_label_perm c _ _ P)). reflexivity.
  Qed.
  Lemma entropy_ren rows : incl (map snd rows) L -> entropy_of (map ren rows) = entropy_of rows.
  Proof.
    intro I. unfold entropy_of. rewrite labels_ren by assumption. rewrite map_map. f_equal. apply map_ext_in. intros c Hc.
    rewrite of_label_ren, !weight_ren by (try assumption; apply I; unfold labels in Hc; apply nodup_In in Hc; assumption). reflexivity.
  Qed.

  (** ** a column and its conversion *)
  Definition same_column (data data' : list (Qc * Z)) : Prop := incl (map snd data) L /\ Permutation data' (map conv data).
  Lemma under_same t data data' : same_column data data' -> Permutation (under (g3 t) data') (map ren (under t data)).
  Proof.
    intros [_ P]. unfold under. rewrite (Permutation_map _ P). rewrite !map_map. erewrite map_ext; [apply Permutation_refl|].
    intro r. cbn [conv fst snd ren]. rewrite height_g. reflexivity.
  Qed.
  Lemma under_incl t data : incl (map snd data) L -> incl (map snd (under t data)) L.
  Proof. intro I. unfold under. rewrite map_map. exact I. Qed.
  Lemma under_weight t data data' : same_column data data' -> weight (under (g3 t) data') = weight (under t data).
  Proof. intro S. rewrite (weight_perm _ _ (under_same t _ _ S)). apply weight_ren. Qed.
  Lemma under_entropy t data data' : same_column data data' -> entropy_of (under (g3 t) data') = entropy_of (under t data).
  Proof. intro S. rewrite (entropy_perm _ _ (under_same t _ _ S)). apply entropy_ren, under_incl, S. Qed.
  Lemma same_length data data' : same_column data data' -> List.length data' = List.length data.
  Proof. intros [_ P]. rewrite (Permutation_length P). apply map_length. Qed.
  Lemma left_same ts data data' : same_column data data' -> left_over (map g3 ts) data' = left_over ts data.
  Proof.
    intro S. unfold left_over. rewrite (same_length _ _ S), map_map. f_equal. f_equal. apply map_ext. intro t. rewrite (under_weight t _ _ S), (under_entropy t _ _ S). reflexivity.
  Qed.
  Lemma gain_same mn p mx data data' : same_column data data' -> gain_at data' (g mn) (g p) (g mx) = gain_at data mn p mx.
  Proof.
    intro S. unfold gain_at. change (two (g mn) (g mx)) with (map g3 (two mn mx)). change (three (g mn) (g p) (g mx)) with (map g3 (three mn p mx)).
    rewrite !(left_same _ _ _ S). reflexivity.
  Qed.
  Lemma label_count rows rows' : incl (map snd rows) L -> Permutation rows' (map ren rows) -> List.length (labels rows') = List.length (labels rows).
  Proof. intros I P. rewrite (Permutation_length (labels_perm _ _ P)), labels_ren by assumption. apply map_length. Qed.
  Lemma labels_same data data' : same_column data data' -> List.length (labels data') = List.length (labels data).
  Proof.
    intros [I P]. transitivity (List.length (labels (map conv data))); [apply Permutation_length, labels_perm, P|].
    unfold labels. rewrite !map_map. cbn [conv snd]. rewrite <- (map_map snd s). rewrite nodup_ren by assumption. apply map_length.
  Qed.
  Lemma classes_same t data data' : same_column data data' -> classes_under (g3 t) data' = classes_under t data.
  Proof.
    intro S. unfold classes_under. apply label_count.
    - intros c Hc. apply (under_incl t data (proj1 S)). apply in_map_iff in Hc. destruct Hc as [r [<- Hr]]. apply filter_In in Hr. apply in_map, Hr.
    - rewrite (filter_perm' _ _ _ _ (under_same t _ _ S)). generalize (under t data) as rows. clear. induction rows as [|r rows IH]; [constructor|].
      cbn [map filter ren fst]. destruct (qltb 0 (fst r)); [cbn [map]; constructor|]; assumption.
  Qed.
  Lemma required_same th mn p mx data data' : same_column data data' -> required th data' (g mn) (g p) (g mx) = required th data mn p mx.
  Proof.
    intro S. unfold required. destruct th as [t|]; [reflexivity|]. change (two (g mn) (g mx)) with (map g3 (two mn mx)). change (three (g mn) (g p) (g mx)) with (map g3 (three mn p mx)).
    rewrite (left_same _ _ _ S), (labels_same _ _ S), (same_length _ _ S). rewrite map_map.
    assert (E : map (fun x => (INR (classes_under (g3 x) data') * entropy_of (under (g3 x) data'))%R) (three mn p mx) = map (fun t => (INR (classes_under t data) * entropy_of (under t data))%R) (three mn p mx)).
    { apply map_ext. intro t. rewrite (classes_same _ _ _ S), (under_entropy _ _ _ S). reflexivity. }
    rewrite E. reflexivity.
  Qed.
  Lemma values_same data data' : same_column data data' -> forall x, In x (map fst data') <-> exists x0, x = g x0 /\ In x0 (map fst data).
  Proof.
    intros [_ P] x. split.
    - intro H. apply in_map_iff in H. destruct H as [r [<- Hr]]. apply (Permutation_in _ P) in Hr. apply in_map_iff in Hr. destruct Hr as [q [<- Hq]]. exists (fst q). split; [reflexivity|apply in_map, Hq].
    - intros [x0 [-> H]]. apply in_map_iff in H. destruct H as [r [<- Hr]]. apply in_map_iff. exists (conv r). split; [reflexivity|]. apply (Permutation_in _ (Permutation_sym P)), in_map, Hr.
  Qed.
  Lemma inside_same data data' mn mx : same_column data data' -> forall p, inside data' (g mn) (g mx) p <-> exists p0, p = g p0 /\ inside data mn mx p0.
  Proof.
    intros S p. unfold inside. rewrite (values_same _ _ S). split.
    - intros ((p0 & -> & I) & A & B). exists p0. rewrite g_lt in A, B. auto.
    - intros (p0 & -> & I & A & B). split; [eauto|]. rewrite !g_lt. split; assumption.
  Qed.
  Lemma best_same data data' mn mx p : same_column data data' -> best_cut_at data mn mx p -> best_cut_at data' (g mn) (g mx) (g p).
  Proof.
    intros S [I B]. split; [apply (inside_same _ _ mn mx S); eauto|]. intros q Hq. apply (inside_same _ _ mn mx S) in Hq. destruct Hq as (q0 & -> & Hq).
    rewrite !(gain_same _ _ _ _ _ S), g_lt. apply B. assumption.
  Qed.
  Lemma largest_same data data' mx : same_column data data' -> largest data mx -> largest data' (g mx).
  Proof.
    intros S [A B]. split; [apply (values_same _ _ S); eauto|]. intros x Hx. apply (values_same _ _ S) in Hx. destruct Hx as (x0 & -> & Hx). apply g_le. auto.
  Qed.
  Lemma part_same data data' (f f' : Qc -> bool) : (forall x, f' (g x) = f x) -> same_column data data' ->
    same_column (filter (fun r => f (fst r)) data) (filter (fun r => f' (fst r)) data').
  Proof.
    intros F [I P]. split.
    - intros c Hc. apply I. apply in_map_iff in Hc. destruct Hc as [r [<- Hr]]. apply filter_In in Hr. apply in_map, Hr.
    - rewrite (filter_perm' _ _ _ _ P). clear - F. induction data as [|r data IH]; [constructor|]. cbn [map filter conv fst]. rewrite F. destruct (f (fst r)); [cbn [map]; constructor|]; assumption.
  Qed.
  Lemma sorted_g l : StronglySorted Qclt l -> StronglySorted Qclt (map g l).
  Proof.
    intro S. induction S as [|x l S IH F]; [constructor|]. cbn [map]. constructor; [assumption|]. rewrite Forall_forall in *. intros y Hy. apply in_map_iff in Hy. destruct Hy as [z [<- Hz]]. apply g_lt. auto.
  Qed.
  Lemma same_more data data' : same_column data data' -> (2 <= List.length data)%nat -> (2 <= List.length data')%nat.
  Proof. intros S H. rewrite (same_length _ _ S). assumption. Qed.
  Lemma divided_same md th :
    (forall depth mn data pts, divided md th depth mn data pts -> forall data', same_column data data' -> divided md th depth (g mn) data' (map g pts)) /\
    (forall depth mn data pts, divided_side md th depth mn data pts -> forall data', same_column data data' -> divided_side md th depth (g mn) data' (map g pts)).
  Proof.
    apply divided_mut.
    - intros depth mn mx data LG ST data' S. apply d_stop; [exact (largest_same _ _ _ S LG)|]. destruct ST as [ST|[ST|(p & BP & LP)]].
      + left. assumption.
      + right. left. intros p Hp. apply (inside_same _ _ mn mx S) in Hp. destruct Hp as (p0 & _ & Hp). exact (ST _ Hp).
      + right. right. exists (g p). split; [exact (best_same _ _ _ _ _ S BP)|]. rewrite (gain_same _ _ _ _ _ S), (required_same _ _ _ _ _ _ S). assumption.
    - intros depth mn mx data p lp rp pts LG MC BP RQ _ IHl _ IHr SS EQ data' S.
      eapply d_cut with (mx := g mx) (p := g p) (lp := map g lp) (rp := map g rp).
      + exact (largest_same _ _ _ S LG).
      + assumption.
      + exact (best_same _ _ _ _ _ S BP).
      + rewrite (gain_same _ _ _ _ _ S), (required_same _ _ _ _ _ _ S). assumption.
      + apply IHl. apply (part_same _ _ (fun x => qleb x p) (fun x => qleb x (g p))); [|assumption]. intro x. destruct (qleb x p) eqn:E.
        * apply qleb_le. apply g_le. apply qleb_le. assumption.
        * apply qleb_gt. apply g_lt. apply qleb_gt. assumption.
      + apply IHr. apply (part_same _ _ (fun x => qltb p x) (fun x => qltb (g p) x)); [|assumption]. intro x. destruct (qltb p x) eqn:E.
        * apply qltb_lt. apply g_lt. apply qltb_lt. assumption.
        * apply qltb_ge. apply g_le. apply qltb_ge. assumption.
      + apply sorted_g. assumption.
      + intro x. rewrite !in_map_iff. split.
        * intros (z & <- & Hz). apply EQ in Hz. destruct Hz; [left|right]; eauto.
        * intros [(z & <- & Hz)|(z & <- & Hz)]; exists z; (split; [reflexivity|]); apply EQ; auto.
    - intros depth mn row data' [_ P]. cbn [map] in P. apply Permutation_sym, Permutation_length_1_inv in P. subst data'. apply d_one.
    - intros depth mn data pts LD _ IH data' S. apply d_more; [exact (same_more _ _ S LD)|]. apply IH. assumption.
  Qed.
End Units.

Lemma points_same k b s md th data data' : 0 < k -> (forall c d, In c (map snd data) -> In d (map snd data) -> s c = s d -> c = d) ->
  Permutation data' (map (conv k b s) data) ->
  entropy_points md th data' = match entropy_points md th data with Ok pts => Ok (map (g k b) pts) | Err e => Err e end.
Proof.
  intros Hk I P. assert (S : same_column k b s (map snd data) data data') by (split; [apply incl_refl|assumption]).
  destruct data as [|r data]; [apply Permutation_sym, Permutation_nil in P; subst data'; reflexivity|].
  destruct (in_dec (fun x y => Bool.bool_dec x y) false (map (fun q => qeqb (fst q) (fst r)) data)) as [D|D].
  - (* two different values *)
    apply in_map_iff in D. destruct D as [q [E Hq]]. rewrite qeqb_neq in E.
    assert (W : exists x y, In x (map fst (r :: data)) /\ In y (map fst (r :: data)) /\ x <> y).
    { exists (fst q), (fst r). split; [right; apply in_map, Hq|]. split; [left; reflexivity|assumption]. }
    assert (W' : exists x y, In x (map fst data') /\ In y (map fst data') /\ x <> y).
    { destruct W as (x & y & A & B & N). exists (g k b x), (g k b y). rewrite !(values_same k b s _ _ _ S). split; [eauto|]. split; [eauto|]. intro Q. apply N, (g_inj k b Hk), Q. }
    destruct (entropy_points_divided md th _ W) as (mn & pts & [M1 M2] & -> & R). destruct (entropy_points_divided md th _ W') as (mn' & pts' & [M1' M2'] & -> & R').
    f_equal. assert (mn' = g k b mn).
    { apply Qcle_antisym.
      - apply M2', (values_same k b s _ _ _ S). eauto.
      - apply (values_same k b s _ _ _ S) in M1'. destruct M1' as (x & -> & Hx). apply (g_le k b Hk). auto. }
    subst mn'. assert (T := proj1 (divided_same k b Hk s _ I md th) _ _ _ _ R _ S). exact (proj1 (divided_fun md th) _ _ _ _ R' _ T).
  - assert (C : forall x, In x (map fst (r :: data)) -> x = fst r).
    { intros x [<-|Hx]; [reflexivity|]. apply in_map_iff in Hx. destruct Hx as [q [<- Hq]]. destruct (qeqb (fst q) (fst r)) eqn:E; [apply qeqb_eq; assumption|].
      exfalso. apply D, in_map_iff. exists q. auto. }
    assert (C' : forall x, In x (map fst data') -> x = g k b (fst r)).
    { intros x Hx. apply (values_same k b s _ _ _ S) in Hx. destruct Hx as (z & -> & Hz). rewrite (C z Hz). reflexivity. }
    assert (LE := same_length k b s _ _ _ S).
    destruct (match th with None => Nat.leb (List.length (r :: data)) 1 | Some _ => false end) eqn:TH.
    + destruct th; [discriminate|]. destruct data as [|q data]; [|discriminate]. destruct data' as [|[x' c'] [|q' data']]; try discriminate LE. destruct r as [x c]. rewrite !C14_single. reflexivity.
    + assert (H2 : th = None -> (2 <= List.length (r :: data))%nat) by (intros ->; apply Nat.leb_gt in TH; lia).
      rewrite (@C14_const md th (r :: data) (fst r)) by (try assumption; discriminate).
      rewrite (@C14_const md th data' (g k b (fst r))); [reflexivity| |intro Q; rewrite LE; auto|assumption]. intros ->. discriminate LE.
Qed.
