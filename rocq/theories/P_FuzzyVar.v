(** * Proofs about fuzzy variables (C02-C04, C11, C12) *)
From Verif Require Import Prelude M_Fuzzy P_FuzzySet.
Set Implicit Arguments.

(** ** C03: shape of the generated sets *)
Lemma tail_sets_step x y z d : middle_sets (x :: y :: z :: d) ++ last_set (x :: y :: z :: d)
  = mkC (fst y) (snd x) (snd y) (snd z) false :: middle_sets (y :: z :: d) ++ last_set (y :: z :: d).
Proof. reflexivity. Qed.

Lemma continuous_sets_cons method x y d sets : continuous_sets method (x :: y :: d) = Ok sets ->
  sets = mkC (fst x) (snd x) (snd x) (snd y) false :: (middle_sets (x :: y :: d) ++ last_set (x :: y :: d)).
Proof. unfold continuous_sets. intro H. congruence. Qed.

Lemma tail_sets_length x y d : List.length (middle_sets (x :: y :: d) ++ last_set (x :: y :: d)) = S (List.length d).
Proof.
  revert x y. induction d as [|z d IH]; intros x y; [reflexivity|].
  rewrite tail_sets_step. cbn [List.length]. rewrite IH. reflexivity.
Qed.

Lemma tail_sets_nth d : forall x y i n p, nth_error (y :: d) i = Some (n, p) ->
  exists s, nth_error (middle_sets (x :: y :: d) ++ last_set (x :: y :: d)) i = Some s /\
    c_name s = n /\ pb s = p /\ c_point s = false /\
    (forall q, nth_error (map snd (x :: y :: d)) i = Some q -> pa s = q) /\
    (S i = List.length (y :: d) -> pc s = p) /\
    (forall q, nth_error (map snd (y :: d)) (S i) = Some q -> pc s = q).
Proof.
  induction d as [|z d IH]; intros x y i n p H.
  - destruct i as [|i]; [|destruct i; discriminate]. simpl in H. injection H as ->.
    simpl. eexists; split; [reflexivity|]. simpl. repeat split; try congruence.
  - rewrite tail_sets_step. destruct i as [|i].
    + simpl in H. injection H as ->. eexists; split; [reflexivity|]. simpl. repeat split; try congruence.
    + destruct (IH y z i n p H) as (s & H1 & H2 & H3 & H4 & H5 & H6 & H7).
      exists s. repeat split; try assumption.
      * intros Hq. apply H6. simpl in *. lia.
Qed.

Lemma C03_sets method d : (2 <= List.length d)%nat ->
  exists sets, continuous_sets method d = Ok sets /\ List.length sets = List.length d /\
  forall i n p, nth_error d i = Some (n, p) ->
  exists s, nth_error sets i = Some s /\ c_name s = n /\ pb s = p /\ c_point s = false /\
    (i = 0%nat -> pa s = p) /\
    (forall j q, i = S j -> nth_error (map snd d) j = Some q -> pa s = q) /\
    (S i = List.length d -> pc s = p) /\
    (forall q, nth_error (map snd d) (S i) = Some q -> pc s = q).
Proof.
  destruct d as [|x [|y d]]; simpl List.length; [lia|lia|]. intros _.
  exists (mkC (fst x) (snd x) (snd x) (snd y) false :: middle_sets (x :: y :: d) ++ last_set (x :: y :: d)).
  split; [reflexivity|]. split; [cbn [List.length]; rewrite tail_sets_length; reflexivity|].
  intros [|i] n p H.
  - simpl in H. injection H as ->. eexists; split; [reflexivity|]. simpl.
    repeat split; try congruence.
  - cbn [nth_error] in H.
    destruct (@tail_sets_nth d x y i n p H) as (s & H1 & H2 & H3 & H4 & H5 & H6 & H7).
    exists s. repeat split; try assumption.
    + discriminate.
    + intros j q E Hq. injection E as <-. apply H5. exact Hq.
    + intro E. apply H6. simpl in *. lia.
Qed.

Lemma sorted_nth_le (l : list Qc) : StronglySorted Qcle l ->
  forall i j p q, (i <= j)%nat -> nth_error l i = Some p -> nth_error l j = Some q -> p <= q.
Proof.
  induction 1 as [|x l Hl IH Hf]; intros i j p q Hij Hp Hq; [destruct i; discriminate|].
  destruct i as [|i].
  - simpl in Hp. injection Hp as ->. destruct j as [|j]; simpl in Hq.
    + injection Hq as ->. apply Qcle_refl.
    + rewrite Forall_forall in Hf. apply Hf. eapply nth_error_In; eassumption.
  - destruct j as [|j]; [lia|]. simpl in Hp, Hq. apply (IH i j); try assumption. lia.
Qed.
Lemma sorted_nth_lt (l : list Qc) : StronglySorted Qclt l ->
  forall i j p q, (i < j)%nat -> nth_error l i = Some p -> nth_error l j = Some q -> p < q.
Proof.
  induction 1 as [|x l Hl IH Hf]; intros i j p q Hij Hp Hq; [destruct i; discriminate|].
  destruct j as [|j]; [lia|]. simpl in Hq. destruct i as [|i].
  - simpl in Hp. injection Hp as ->. rewrite Forall_forall in Hf. apply Hf. eapply nth_error_In; eassumption.
  - simpl in Hp. apply (IH i j); try assumption. lia.
Qed.
Lemma sorted_lt_le l : StronglySorted Qclt l -> StronglySorted Qcle l.
Proof. apply StronglySorted_impl. intros; apply Qclt_le_weak; assumption. Qed.

(** sorted peaks give valid triangles *)
Lemma C03_valid method d sets s : StronglySorted Qcle (map snd d) ->
  continuous_sets method d = Ok sets -> In s sets -> valid s.
Proof.
  intros Hs HO Hin.
  destruct d as [|x [|y d]]; [discriminate| |].
  - simpl in HO. destruct (eqb method "point_set"%string); [|discriminate]. injection HO as <-.
    destruct Hin as [<-|[]]. split; apply Qcle_refl.
  - destruct (@C03_sets method (x :: y :: d)) as (sets' & E & L & N); [simpl; lia|].
    rewrite E in HO. injection HO as ->.
    apply In_nth_error in Hin. destruct Hin as [i Hi].
    assert (Hlt : (i < List.length (x :: y :: d))%nat) by (rewrite <- L; apply nth_error_Some; congruence).
    destruct (nth_error (x :: y :: d) i) as [[n p]|] eqn:En; [|apply nth_error_None in En; lia].
    destruct (N i n p En) as (s' & H1 & H2 & H3 & _ & H4 & H5 & H6 & H7).
    rewrite H1 in Hi. injection Hi as ->.
    assert (Ep : nth_error (map snd (x :: y :: d)) i = Some p)
      by (rewrite nth_error_map, En; reflexivity).
    split.
    + destruct i as [|i].
      * rewrite H4, H3 by reflexivity. apply Qcle_refl.
      * destruct (nth_error (map snd (x :: y :: d)) i) as [q|] eqn:Eq.
        -- rewrite (H5 i q eq_refl Eq), H3. eapply (sorted_nth_le Hs (i := i) (j := S i)); eauto.
        -- apply nth_error_None in Eq. rewrite map_length in Eq. lia.
    + destruct (nth_error (map snd (x :: y :: d)) (S i)) as [q|] eqn:Eq.
      * rewrite (H7 q eq_refl), H3. eapply (sorted_nth_le Hs (i := i) (j := S i)); eauto.
      * apply nth_error_None in Eq. rewrite map_length in Eq. rewrite H6, H3 by lia. apply Qcle_refl.
Qed.

Lemma C03_point method x : continuous_sets method [x] =
  if eqb method "point_set"%string then Ok [mkC (fst x) (snd x) (snd x) (snd x) true] else Err ValueError.
Proof. reflexivity. Qed.

(** ** C02: strong partition *)
Definition lastq (l : list Qc) : Qc := List.last l 0.

Lemma last_ge l x : StronglySorted Qcle (x :: l) -> forall y, In y (x :: l) -> y <= lastq (x :: l).
Proof.
  intros Hs y Hy.
  destruct (exists_last (l := x :: l)) as (l0 & a & E); [discriminate|].
  unfold lastq. rewrite E, last_last. rewrite E in Hs, Hy.
  clear -Hs Hy. induction l0 as [|z l0 IH]; simpl in *.
  - destruct Hy as [->|[]]. apply Qcle_refl.
  - inversion Hs as [|? ? Hs' Hf]; subst. destruct Hy as [->|Hy]; [|auto].
    rewrite Forall_forall in Hf. apply Hf. apply in_or_app. right; left; reflexivity.
Qed.

Lemma tail_sum d : forall x y v, StronglySorted Qclt (map snd (x :: y :: d)) ->
  qsum (map (fun s => tric s v) (middle_sets (x :: y :: d) ++ last_set (x :: y :: d))) =
  (if qleb v (snd x) then 0 else if qleb v (snd y) then (v - snd x) / (snd y - snd x)
   else if qleb v (lastq (map snd (y :: d))) then 1 else 0).
Proof.
  induction d as [|z d IH]; intros x y v Hs.
  - cbn [middle_sets last_set app map]. rewrite qsum_cons, qsum_nil. cbn [map] in Hs.
    inversion Hs as [|? ? Hs' Hf]; subst. inversion Hf as [|? ? Hxy]; subst.
    unfold lastq; cbn [map List.last]. unfold tric; cbn [pa pb pc].
    destruct (qleb_spec v (snd x)) as [L|G].
    + rewrite tri_out; [ring|qlra|qlra| |auto]. intros ->. qlra.
    + destruct (qleb_spec v (snd y)) as [L2|G2].
      * destruct (Qc_eq_dec v (snd y)) as [->|Ne].
        -- rewrite tri_peak. field. intro C. qlra.
        -- assert (v < snd y) by (destruct (Qc_neq_lt Ne); qlra).
           rewrite tri_left by assumption. ring.
      * rewrite tri_out; [ring|qlra|qlra| |right; qlra]. intros ->. qlra.
  - rewrite tail_sets_step. cbn [map]. rewrite qsum_cons.
    assert (Hs' : StronglySorted Qclt (map snd (y :: z :: d))) by (inversion Hs; assumption).
    specialize (IH y z v Hs'). rewrite IH. clear IH.
    assert (Hxy : snd x < snd y) by (inversion Hs as [|? ? ? Hf]; inversion Hf; assumption).
    assert (Hyz : snd y < snd z) by (inversion Hs' as [|? ? ? Hf]; inversion Hf; assumption).
    assert (El : lastq (map snd (y :: z :: d)) = lastq (map snd (z :: d))) by reflexivity.
    rewrite <- El. unfold tric; cbn [pa pb pc].
    assert (Hzl : snd z <= lastq (map snd (y :: z :: d))).
    { apply (last_ge (sorted_lt_le Hs')). right; left; reflexivity. }
    destruct (qleb_spec v (snd x)) as [L|G].
    + rewrite tri_out; [|qlra|qlra|intros ->; qlra|auto].
      rewrite (proj2 (qleb_le v (snd y))) by qlra. ring.
    + destruct (qleb_spec v (snd y)) as [L2|G2].
      * destruct (Qc_eq_dec v (snd y)) as [->|Ne].
        -- rewrite tri_peak. field. intro C. qlra.
        -- assert (v < snd y) by (destruct (Qc_neq_lt Ne); qlra).
           rewrite tri_left by assumption. ring.
      * destruct (qleb_spec v (snd z)) as [L3|G3].
        -- cbn [map] in Hzl |- *. rewrite (proj2 (qleb_le v (lastq (snd y :: snd z :: map snd d)))) by qlra.
           destruct (Qc_eq_dec v (snd z)) as [->|Ne].
           ++ rewrite tri_out; [field; intro C; qlra|qlra|qlra|intro C; qlra|right; apply Qcle_refl].
           ++ assert (v < snd z) by (destruct (Qc_neq_lt Ne); qlra).
              rewrite tri_right by assumption. field. intro C. qlra.
        -- rewrite tri_out; [|qlra|qlra|intros ->; qlra|right; qlra].
           destruct (qleb v (lastq _)); ring.
Qed.

Lemma degrees_map sets v ds :
  Forall2 (fun s m => membership (FC s) (CNum v) = Ok m) sets ds -> ds = map (fun s => tric s v) sets.
Proof.
  induction 1 as [|s m sets ds H1 H2 IH]; simpl; [reflexivity|].
  apply membership_Ok in H1. destruct H1 as [_ ->]. rewrite IH. reflexivity.
Qed.

Lemma C02_sum method d sets v ds : (2 <= List.length d)%nat ->
  StronglySorted Qclt (map snd d) ->
  continuous_sets method d = Ok sets ->
  Forall2 (fun s m => membership (FC s) (CNum v) = Ok m) sets ds ->
  (exists p, In p (map snd d) /\ p <= v) -> (exists q, In q (map snd d) /\ v <= q) ->
  qsum ds = 1.
Proof.
  intros HL Hs HO HF (p & Hp & Lp) (q & Hq & Lq). apply degrees_map in HF. subst ds.
  destruct d as [|x [|y d]]; [simpl in HL; lia|simpl in HL; lia|].
  apply continuous_sets_cons in HO. subst sets. rewrite map_cons, qsum_cons, tail_sum by exact Hs.
  assert (Hxy : snd x < snd y) by (inversion Hs as [|? ? ? Hf]; inversion Hf; assumption).
  assert (Hxv : snd x <= v).
  { inversion Hs as [|? ? _ Hf]; subst. destruct Hp as [<-|Hp]; [exact Lp|].
    rewrite Forall_forall in Hf. specialize (Hf p Hp). qlra. }
  assert (Hvl : v <= lastq (map snd (y :: d))).
  { pose proof (sorted_lt_le Hs) as Hs'. pose proof (last_ge Hs') as G.
    exact (Qcle_trans _ _ _ Lq (G q Hq)). }
  unfold tric; cbn [pa pb pc].
  destruct (qleb_spec v (snd x)) as [L|G].
  - assert (v = snd x) as -> by (apply Qcle_antisym; assumption). rewrite tri_peak. ring.
  - destruct (qleb_spec v (snd y)) as [L2|G2].
    + destruct (Qc_eq_dec v (snd y)) as [->|Ne].
      * rewrite tri_out; [field; intro C; qlra|apply Qcle_refl|qlra|intro C; qlra|right; apply Qcle_refl].
      * assert (v < snd y) by (destruct (Qc_neq_lt Ne); qlra).
        rewrite tri_right by assumption. field. intro C. qlra.
    + rewrite (proj2 (qleb_le _ _)) by exact Hvl.
      rewrite tri_out; [ring|apply Qcle_refl|qlra|intro C; qlra|right; qlra].
Qed.

Lemma C02_adjacent method d sets v ds : (2 <= List.length d)%nat ->
  StronglySorted Qclt (map snd d) ->
  continuous_sets method d = Ok sets ->
  Forall2 (fun s m => membership (FC s) (CNum v) = Ok m) sets ds ->
  forall i j di dj, nth_error ds i = Some di -> nth_error ds j = Some dj ->
    0 < di -> 0 < dj -> (i <= j)%nat -> (j <= S i)%nat.
Proof.
  intros HL Hs HO HF i j di dj Hi Hj Pi Pj Hij. apply degrees_map in HF. subst ds.
  destruct (le_lt_dec j (S i)) as [|Hgt]; [assumption|]. exfalso.
  rewrite nth_error_map in Hi, Hj.
  destruct (nth_error sets i) as [si|] eqn:Ei; [|discriminate].
  destruct (nth_error sets j) as [sj|] eqn:Ej; [|discriminate].
  simpl in Hi, Hj. injection Hi as <-. injection Hj as <-.
  pose proof (@C03_valid method d sets _ (sorted_lt_le Hs) HO (nth_error_In _ _ Ei)) as [Vi1 Vi2].
  pose proof (@C03_valid method d sets _ (sorted_lt_le Hs) HO (nth_error_In _ _ Ej)) as [Vj1 Vj2].
  destruct (@C03_sets method d HL) as (sets' & HO' & L & N). rewrite HO in HO'. injection HO' as <-.
  assert (Lj : (j < List.length d)%nat) by (rewrite <- L; apply nth_error_Some; congruence).
  assert (forall k, (k < List.length d)%nat -> exists n p, nth_error d k = Some (n, p) /\ nth_error (map snd d) k = Some p) as K.
  { intros k Hk. destruct (nth_error d k) as [[n p]|] eqn:E; [|apply nth_error_None in E; lia].
    exists n, p. split; [reflexivity|]. rewrite nth_error_map, E. reflexivity. }
  destruct (K i) as (ni & pi & Hdi & Hpi); [lia|].
  destruct (K (S i)) as (nk & pk & Hdk & Hpk); [lia|].
  destruct (K j) as (nj & pj & Hdj & Hpj); [lia|].
  destruct j as [|j']; [lia|].
  destruct (K j') as (nm & pm & Hdm & Hpm); [lia|].
  destruct (N i ni pi Hdi) as (s1 & A1 & A2 & A3 & _ & A4 & A5 & A6 & A7).
  destruct (N (S j') nj pj Hdj) as (s2 & B1 & B2 & B3 & _ & B4 & B5 & B6 & B7).
  rewrite A1 in Ei. injection Ei as <-. rewrite B1 in Ej. injection Ej as <-.
  apply tri_pos in Pi; try assumption. apply tri_pos in Pj; try assumption.
  rewrite A3 in Pi. rewrite B3 in Pj. rewrite (A7 pk Hpk) in Pi. rewrite (B5 j' pm eq_refl Hpm) in Pj.
  assert (pi < pk) by (apply (sorted_nth_lt Hs (i := i) (j := S i)); auto).
  assert (pk <= pm) by (apply (sorted_nth_le (sorted_lt_le Hs) (i := S i) (j := j')); auto; lia).
  assert (pm < pj) by (apply (sorted_nth_lt Hs (i := j') (j := S j')); auto).
  destruct Pi as [->|[? ?]], Pj as [E|[? ?]]; qlra.
Qed.

Lemma C02_outside method d sets v ds : (2 <= List.length d)%nat ->
  StronglySorted Qclt (map snd d) ->
  continuous_sets method d = Ok sets ->
  Forall2 (fun s m => membership (FC s) (CNum v) = Ok m) sets ds ->
  (forall p, In p (map snd d) -> v < p) \/ (forall p, In p (map snd d) -> p < v) ->
  Forall (fun m => m = 0) ds.
Proof.
  intros HL Hs HO HF Hout. apply degrees_map in HF. subst ds.
  apply Forall_forall. intros m Hm. apply in_map_iff in Hm. destruct Hm as (s & <- & Hin).
  pose proof (@C03_valid method d sets _ (sorted_lt_le Hs) HO Hin) as [V1 V2].
  destruct (@C03_sets method d HL) as (sets' & HO' & L & N). rewrite HO in HO'. injection HO' as <-.
  apply In_nth_error in Hin. destruct Hin as [i Hi].
  assert (Li : (i < List.length d)%nat) by (rewrite <- L; apply nth_error_Some; congruence).
  destruct (nth_error d i) as [[n p]|] eqn:E; [|apply nth_error_None in E; lia].
  destruct (N i n p E) as (s1 & A1 & A2 & A3 & _ & A4 & A5 & A6 & A7).
  rewrite A1 in Hi. injection Hi as <-.
  assert (Hpin : In p (map snd d)) by (apply nth_error_In in E; apply (in_map snd) in E; exact E).
  assert (Hq : forall k q, nth_error (map snd d) k = Some q -> In q (map snd d)) by (intros; eapply nth_error_In; eassumption).
  apply tri_out; try assumption; rewrite ?A3.
  - intros ->. destruct Hout as [H|H]; specialize (H p Hpin); qlra.
  - destruct Hout as [H|H].
    + left. destruct i as [|i].
      * rewrite A4 by reflexivity. apply Qclt_le_weak. apply H; assumption.
      * destruct (nth_error (map snd d) i) as [q|] eqn:Eq.
        -- rewrite (A5 i q eq_refl Eq). apply Qclt_le_weak, H. eapply Hq; eassumption.
        -- apply nth_error_None in Eq. rewrite map_length in Eq. lia.
    + right. destruct (nth_error (map snd d) (S i)) as [q|] eqn:Eq.
      * rewrite (A7 q eq_refl). apply Qclt_le_weak, H. eapply Hq; eassumption.
      * apply nth_error_None in Eq. rewrite map_length in Eq. rewrite A6 by lia.
        apply Qclt_le_weak. apply H; assumption.
Qed.

(** every value gets its degrees *)
Lemma degrees_exist method d sets v : StronglySorted Qcle (map snd d) ->
  continuous_sets method d = Ok sets ->
  exists ds, Forall2 (fun s m => membership (FC s) (CNum v) = Ok m) sets ds.
Proof.
  intros Hs HO. exists (map (fun s => tric s v) sets).
  assert (H : forall s, In s sets -> valid s) by (intros; eapply C03_valid; eassumption).
  clear HO. induction sets as [|s sets IH]; constructor.
  - apply membership_valid. apply H. left; reflexivity.
  - apply IH. intros; apply H; right; assumption.
Qed.

(** ** C04 *)
Lemma C04_repeated method n0 n1 p d sets ds :
  StronglySorted Qcle (p :: p :: map snd d) ->
  continuous_sets method ((n0, p) :: (n1, p) :: d) = Ok sets ->
  Forall2 (fun s m => membership (FC s) (CNum p) = Ok m) sets ds ->
  1 < qsum ds.
Proof.
  intros Hs HO HF.
  assert (V : forall s, In s sets -> valid s) by (intros s Hin; eapply C03_valid; [|exact HO|exact Hin]; exact Hs).
  apply degrees_map in HF. subst ds.
  apply continuous_sets_cons in HO. subst sets.
  destruct d as [|z d].
  - cbn [middle_sets last_set app map fst snd]. rewrite !qsum_cons, qsum_nil.
    unfold tric; cbn [pa pb pc]. rewrite !tri_peak. reflexivity.
  - rewrite tail_sets_step in *. cbn [map]. rewrite !qsum_cons. unfold tric at 1 2; cbn [pa pb pc fst snd].
    rewrite !tri_peak.
    match goal with |- context [qsum (map ?f ?l)] => assert (0 <= qsum (map f l)) as G end.
    { apply qsum_nonneg, Forall_forall. intros m Hm. apply in_map_iff in Hm. destruct Hm as (s & <- & Hin).
      destruct (V s) as [V1 V2]; [right; right; exact Hin|]. apply tri_01; assumption. }
    revert G. match goal with |- context [qsum ?l] => generalize (qsum l) end. intros; qlra.
Qed.

Lemma dset_fold_length (K V : Type) (H : EqDec K) (l : list (K * V)) d :
  (List.length (fold_left (fun d kv => dset (fst kv) (snd kv) d) l d) <= List.length d + List.length l)%nat.
Proof.
  revert d. induction l as [|[k v] l IH]; intro d; simpl; [lia|].
  eapply Nat.le_trans; [apply IH|]. 
  assert (List.length (dset k v d) <= S (List.length d))%nat.
  { clear. induction d as [|[k' v'] d IH]; simpl; [lia|]. destruct (eqb k k'); simpl; lia. }
  lia.
Qed.
Lemma dict_of_dup_length (K V : Type) (H : EqDec K) k (v v' : V) l :
  (List.length (dict_of ((k, v) :: (k, v') :: l)) < S (S (List.length l)))%nat.
Proof.
  unfold dict_of. cbn [fold_left dset fst snd]. rewrite eqb_refl.
  eapply Nat.le_lt_trans; [apply dset_fold_length|]. simpl. lia.
Qed.
Lemma C04_collapse method name p rest sets show col d :
  continuous_sets method (zip (map show (p :: p :: rest)) (p :: p :: rest)) = Ok sets ->
  var_membership (mkV name (map FC sets)) col = Ok d ->
  (List.length d < List.length sets)%nat.
Proof.
  intros HO HV. unfold var_membership in HV. cbn [fv_sets] in HV.
  destruct (mapM _ (map FC sets)) as [l|e] eqn:E; simpl in HV; [|discriminate].
  injection HV as <-. pose proof (mapM_length _ _ E) as HL. rewrite map_length in HL.
  destruct (@C03_sets method (zip (map show (p :: p :: rest)) (p :: p :: rest))) as (sets' & HO' & L & N);
    [simpl; lia|].
  rewrite HO in HO'. injection HO' as <-.
  destruct (N 0%nat _ _ eq_refl) as (s0 & A0 & A1 & _).
  destruct (N 1%nat _ _ eq_refl) as (s1 & B0 & B1 & _).
  destruct sets as [|t0 [|t1 sets]]; try discriminate.
  simpl in A0, B0. injection A0 as ->. injection B0 as ->.
  apply mapM_ok in E. inversion E as [|? q0 ? l0 Q0 F0]; subst. inversion F0 as [|? q1 ? l1 Q1 F1]; subst.
  destruct (membership_col (FC s0) col) as [m0|]; simpl in Q0; [|discriminate].
  destruct (membership_col (FC s1) col) as [m1|]; simpl in Q1; [|discriminate].
  injection Q0 as <-. injection Q1 as <-. simpl in A1, B1. cbn [fs_name]. rewrite A1, B1.
  rewrite <- HL. apply dict_of_dup_length.
Qed.

(** ** C12: dataset membership *)
Lemma column_ok X i : (forall row, In row X -> (i < List.length row)%nat) ->
  exists col, column X i = Ok col /\ List.length col = List.length X /\
  forall r row, nth_error X r = Some row -> nth_error col r = nth_error row i.
Proof.
  induction X as [|row X IH]; intro H.
  - exists []. repeat split. intros [|r] row; discriminate.
  - destruct IH as (col & E & L & N); [intros; apply H; right; assumption|].
    destruct (nth_error row i) as [x|] eqn:Ex.
    + exists (x :: col). unfold column in *. simpl. rewrite Ex. simpl. rewrite E. simpl.
      repeat split; [simpl; congruence|]. intros [|r] row' Hr; simpl in *; [congruence|auto].
    + apply nth_error_None in Ex. specialize (H row (or_introl eq_refl)). lia.
Qed.

Lemma Forall2_nth A B (R : A -> B -> Prop) l l' : Forall2 R l l' ->
  forall i a, nth_error l i = Some a -> exists b, nth_error l' i = Some b /\ R a b.
Proof.
  induction 1 as [|x y l l' H1 H2 IH]; intros [|i] a Ha; simpl in *; try discriminate.
  - injection Ha as <-. eauto.
  - auto.
Qed.
Lemma Forall2_nth_r A B (R : A -> B -> Prop) l l' : Forall2 R l l' ->
  forall i b, nth_error l' i = Some b -> exists a, nth_error l i = Some a /\ R a b.
Proof.
  induction 1 as [|x y l l' H1 H2 IH]; intros [|i] b Hb; simpl in *; try discriminate.
  - injection Hb as <-. eauto.
  - auto.
Qed.

Lemma mapM_total A B (f : A -> res B) l : (forall x, In x l -> exists y, f x = Ok y) ->
  exists ys, mapM f l = Ok ys.
Proof.
  induction l as [|x l IH]; intro H; simpl; [eauto|].
  destruct (H x) as [y ->]; [left; reflexivity|]. simpl.
  destruct IH as [ys ->]; [intros; apply H; right; assumption|]. simpl. eauto.
Qed.

Lemma var_membership_ok v col :
  NoDup (map fs_name (fv_sets v)) ->
  (forall s x, In s (fv_sets v) -> In x col -> exists m, membership s x = Ok m) ->
  exists d, var_membership v col = Ok d /\ dkeys d = map fs_name (fv_sets v) /\
  forall s, In s (fv_sets v) -> exists ms, dget (fs_name s) d = Some ms /\
    Forall2 (fun x m => membership s x = Ok m) col ms.
Proof.
  intros Hn Ht. unfold var_membership.
  assert (G : exists l, mapM (fun s => do m <- membership_col s col; Ok (fs_name s, m)) (fv_sets v) = Ok l).
  { apply mapM_total. intros s Hs. destruct (mapM_total (membership s) col) as [ms E].
    - intros x Hx. apply Ht; assumption.
    - unfold membership_col. rewrite E. simpl. eauto. }
  destruct G as [l E]. rewrite E. simpl. exists (dict_of l). split; [reflexivity|].
  apply mapM_ok in E.
  assert (K : map fst l = map fs_name (fv_sets v)).
  { clear Ht Hn. induction E as [|s p sl pl H1 H2 IH]; simpl; [reflexivity|].
    destruct (membership_col s col); simpl in H1; [|discriminate]. injection H1 as <-.
    simpl. rewrite IH. reflexivity. }
  rewrite dict_of_nodup by (rewrite K; exact Hn). split; [exact K|].
  intros s Hs. apply In_nth_error in Hs. destruct Hs as [i Hi].
  destruct (Forall2_nth E _ Hi) as (p & Hp & Hr).
  destruct (membership_col s col) as [ms|] eqn:Em; simpl in Hr; [|discriminate]. injection Hr as <-.
  exists ms. split.
  - apply dget_nodup; [unfold dkeys; rewrite K; exact Hn|]. eapply nth_error_In; eassumption.
  - apply mapM_ok. exact Em.
Qed.

Lemma enumerate_nth A (l : list A) i x : nth_error l i = Some x -> nth_error (enumerate l) i = Some (i, x).
Proof.
  unfold enumerate. intro H.
  assert (G : forall k, nth_error (zip (seq k (List.length l)) l) i = Some (k + i, x)%nat).
  { revert i H. induction l as [|y l IH]; intros [|i] H k; simpl in *; try discriminate.
    - injection H as ->. rewrite Nat.add_0_r. reflexivity.
    - rewrite (IH i H (S k)). f_equal. f_equal. lia. }
  rewrite G. reflexivity.
Qed.
Lemma enumerate_nth_inv A (l : list A) i p : nth_error (enumerate l) i = Some p -> fst p = i /\ nth_error l i = Some (snd p).
Proof.
  intro H. destruct (nth_error l i) as [x|] eqn:E.
  - rewrite (enumerate_nth _ _ E) in H. injection H as <-. auto.
  - apply nth_error_None in E. assert (nth_error (enumerate l) i = None) as C.
    { apply nth_error_None. unfold enumerate, zip. rewrite combine_length, seq_length. lia. }
    congruence.
Qed.
Lemma map_snd_enumerate A (l : list A) : map snd (enumerate l) = l.
Proof.
  unfold enumerate. generalize 0%nat as k. induction l as [|x l IH]; intro k; simpl; [reflexivity|].
  rewrite IH. reflexivity.
Qed.

Lemma C12_membership X vars :
  NoDup (map fv_name vars) ->
  (forall v, In v vars -> NoDup (map fs_name (fv_sets v))) ->
  (forall row, In row X -> List.length row = List.length vars) ->
  (forall i v s row x, nth_error vars i = Some v -> In s (fv_sets v) -> In row X ->
     nth_error row i = Some x -> exists m, membership s x = Ok m) ->
  exists dm, dataset_membership X vars = Ok dm /\ dkeys dm = map fv_name vars /\
  forall i v, nth_error vars i = Some v ->
  exists d, dget (fv_name v) dm = Some d /\ dkeys d = map fs_name (fv_sets v) /\
  forall s, In s (fv_sets v) ->
  exists ms, dget (fs_name s) d = Some ms /\ List.length ms = List.length X /\
  forall r row x, nth_error X r = Some row -> nth_error row i = Some x ->
  exists m, nth_error ms r = Some m /\ membership s x = Ok m.
Proof.
  intros Hn Hns Hrect Hty. unfold dataset_membership.
  set (f := fun iv : nat * fvar => let '(i, v) := iv in
      do col <- column X i; do d <- var_membership v col; Ok (fv_name v, d)).
  assert (S : forall i v, nth_error vars i = Some v -> exists d, f (i, v) = Ok (fv_name v, d) /\
     dkeys d = map fs_name (fv_sets v) /\
     forall s, In s (fv_sets v) ->
     exists ms, dget (fs_name s) d = Some ms /\ List.length ms = List.length X /\
     forall r row x, nth_error X r = Some row -> nth_error row i = Some x ->
     exists m, nth_error ms r = Some m /\ membership s x = Ok m).
  { intros i v Hv.
    destruct (@column_ok X i) as (col & Ec & Lc & Nc).
    { intros row Hr. rewrite (Hrect row Hr). apply nth_error_Some. congruence. }
    destruct (@var_membership_ok v col) as (d & Ed & Kd & Md).
    { apply Hns. eapply nth_error_In; eassumption. }
    { intros s x Hs Hx. apply In_nth_error in Hx. destruct Hx as [r Hr].
      assert (r < List.length X)%nat by (rewrite <- Lc; apply nth_error_Some; congruence).
      destruct (nth_error X r) as [row|] eqn:Er; [|apply nth_error_None in Er; lia].
      rewrite (Nc r row Er) in Hr. eapply Hty; try eassumption. eapply nth_error_In; eassumption. }
    exists d. unfold f. rewrite Ec; simpl. rewrite Ed; simpl. repeat split; [exact Kd|].
    intros s Hs. destruct (Md s Hs) as (ms & G & F). exists ms. split; [exact G|].
    split; [rewrite <- (Forall2_len F), Lc; reflexivity|].
    intros r row x Hr Hx. destruct (Forall2_nth F r (a := x)) as (m & M1 & M2).
    - rewrite (Nc r row Hr). exact Hx.
    - exists m; auto. }
  assert (G : exists l, mapM f (enumerate vars) = Ok l).
  { apply mapM_total. intros [i v] Hin. apply In_nth_error in Hin. destruct Hin as [k Hk].
    apply enumerate_nth_inv in Hk. simpl in Hk. destruct Hk as [<- Hk].
    destruct (S i v Hk) as (d & Ed & _). eauto. }
  destruct G as [l E]. rewrite E. simpl. exists (dict_of l). split; [reflexivity|].
  apply mapM_ok in E.
  assert (K : map fst l = map fv_name vars).
  { rewrite <- (map_snd_enumerate vars) at 1. clear -E. induction E as [|[i v] p sl pl H1 H2 IH]; simpl; [reflexivity|].
    rewrite IH. f_equal. unfold f in H1. destruct (column X i); simpl in H1; [|discriminate].
    destruct (var_membership v a); simpl in H1; [|discriminate]. injection H1 as <-. reflexivity. }
  rewrite dict_of_nodup by (rewrite K; exact Hn). split; [exact K|].
  intros i v Hv. destruct (S i v Hv) as (d & Ed & Kd & Md). exists d.
  repeat split; try assumption.
  destruct (Forall2_nth E i (a := (i, v))) as (p & Hp & Hr); [apply enumerate_nth; exact Hv|].
  rewrite Ed in Hr. injection Hr as <-.
  apply dget_nodup; [unfold dkeys; rewrite K; exact Hn|]. eapply nth_error_In; eassumption.
Qed.

(** ** C11: get_fuzzy_variables *)
Lemma list_set_ok A i (x : A) l : (i < List.length l)%nat ->
  exists l', list_set i x l = Ok l' /\ List.length l' = List.length l /\
  forall j, nth_error l' j = if Nat.eqb j i then Some x else nth_error l j.
Proof.
  revert i. induction l as [|y l IH]; intros i Hi; simpl in Hi; [lia|].
  destruct i as [|i]; simpl.
  - eexists; split; [reflexivity|]. split; [reflexivity|]. intros [|j]; reflexivity.
  - destruct (IH i) as (l' & E & L & N); [lia|]. rewrite E. simpl.
    eexists; split; [reflexivity|]. split; [simpl; congruence|].
    intros [|j]; simpl; [reflexivity|apply N].
Qed.

Section Assign.
  Variable A : Type.
  Variable order : dict string nat.
  Variable nm : A -> string.
  Variable val : A -> fvar.
  Variable f : list (option fvar) -> A -> res (list (option fvar)).
  Variable n : nat.
  Hypothesis range : forall k i, dget k order = Some i -> (i < n)%nat.
  Hypothesis inj : forall k k' i, dget k order = Some i -> dget k' order = Some i -> k = k'.
  Lemma assign_fold l : forall acc,
    (forall acc x, In x l -> f acc x = do i <- ret_opt KeyError (dget (nm x) order); list_set i (Some (val x)) acc) ->
    List.length acc = n -> NoDup (map nm l) ->
    (forall x, In x l -> exists i, dget (nm x) order = Some i) ->
    exists acc', foldM f acc l = Ok acc' /\ List.length acc' = n /\
    forall k i, dget k order = Some i ->
      (forall x, In x l -> nm x = k -> nth_error acc' i = Some (Some (val x))) /\
      (~ In k (map nm l) -> nth_error acc' i = nth_error acc i).
  Proof.
    induction l as [|x l IH]; intros acc Hf HL Hn Hp.
    - exists acc. simpl. split; [reflexivity|]. split; [exact HL|]. intros k i _. split; [intros x []|auto].
    - simpl. destruct (Hp x) as [i Hi]; [left; reflexivity|].
      rewrite Hf by (left; reflexivity). rewrite Hi. cbn [ret_opt bind].
      destruct (@list_set_ok _ i (Some (val x)) acc) as (acc1 & E1 & L1 & N1); [rewrite HL; eapply range; eassumption|].
      rewrite E1. cbn [bind]. inversion Hn as [|? ? Hnx Hnl]; subst.
      destruct (IH acc1) as (acc2 & E2 & L2 & N2).
      + intros; apply Hf; right; assumption.
      + congruence.
      + exact Hnl.
      + intros; apply Hp; right; assumption.
      + exists acc2. split; [exact E2|]. split; [exact L2|]. intros k j Hk. destruct (N2 k j Hk) as [P1 P2]. split.
        * intros y [<-|Hy] Ey; [|auto]. subst k. rewrite P2 by exact Hnx. rewrite N1.
          rewrite Hi in Hk. injection Hk as <-. rewrite Nat.eqb_refl. reflexivity.
        * intro Hnk. simpl in Hnk. rewrite P2 by tauto. rewrite N1.
          destruct (Nat.eqb_spec j i) as [->|]; [|reflexivity].
          exfalso. apply Hnk. left. eapply inj; eassumption.
  Qed.
  Lemma assign_fold_err l : forall acc,
    (forall acc x, In x l -> f acc x = do i <- ret_opt KeyError (dget (nm x) order); list_set i (Some (val x)) acc) ->
    List.length acc = n ->
    (exists x, In x l /\ dget (nm x) order = None) -> foldM f acc l = Err KeyError.
  Proof.
    induction l as [|x l IH]; intros acc Hf HL (y & Hy & Ny); [contradiction|].
    simpl. rewrite Hf by (left; reflexivity).
    destruct (dget (nm x) order) as [i|] eqn:Hi; [|reflexivity]. cbn [ret_opt bind].
    destruct (@list_set_ok _ i (Some (val x)) acc) as (acc1 & E1 & L1 & N1); [rewrite HL; eapply range; eassumption|].
    rewrite E1. cbn [bind]. apply IH.
    - intros; apply Hf; right; assumption.
    - congruence.
    - destruct Hy as [->|Hy]; [congruence|]. eauto.
  Qed.
End Assign.

Lemma nodup_keys_In (A : Type) (d : dict string A) k v v' : NoDup (dkeys d) -> In (k, v) d -> In (k, v') d -> v = v'.
Proof. intros H H1 H2. apply (dget_nodup _ _ _ H) in H1. apply (dget_nodup _ _ _ H) in H2. congruence. Qed.

Definition gen_sets (show : Qc -> string) clab method (np : string * list Qc) : list cset :=
  match continuous_sets method (zip (col_labels show clab (fst np) (snd np)) (snd np)) with
  | Ok s => s | Err _ => [] end.

Section C11.
  Variables (show : Qc -> string) (show_cell : cell -> string)
    (cont : dict string (list Qc)) (disc : dict string (list cell)) (order : dict string nat)
    (clab dlab : option (dict string (list string))) (method : string).
  Hypothesis range : forall k i, dget k order = Some i -> (i < List.length order)%nat.
  Hypothesis inj : forall k k' i, dget k order = Some i -> dget k' order = Some i -> k = k'.
  Hypothesis sets_ok : forall name points, In (name, points) cont ->
    exists sets, continuous_sets method (zip (col_labels show clab name points) points) = Ok sets.

  Let f1 := fun acc (np : string * list Qc) =>
      let '(name, points) := np in
      do sets <- continuous_sets method (zip (col_labels show clab name points) points);
      do i <- ret_opt KeyError (dget name order);
      list_set i (Some (mkV name (map FC sets))) acc.
  Let f2 := fun acc (nv : string * list cell) =>
      let '(name, values) := nv in
      do i <- ret_opt KeyError (dget name order);
      list_set i (Some (mkV name (discrete_sets (zip (col_labels show_cell dlab name values) values)))) acc.
  Lemma f1_form acc np : In np cont -> f1 acc np =
    do i <- ret_opt KeyError (dget (fst np) order);
    list_set i (Some (mkV (fst np) (map FC (gen_sets show clab method np)))) acc.
  Proof.
    destruct np as [name points]. intro H. destruct (sets_ok _ _ H) as [sets E].
    unfold f1, gen_sets. cbn [fst snd]. rewrite E. reflexivity.
  Qed.
  Lemma f2_form acc nv : f2 acc nv =
    do i <- ret_opt KeyError (dget (fst nv) order);
    list_set i (Some (mkV (fst nv) (discrete_sets (zip (col_labels show_cell dlab (fst nv) (snd nv)) (snd nv))))) acc.
  Proof. destruct nv as [name values]. reflexivity. Qed.

  Lemma C11_variables :
    NoDup (dkeys cont) -> NoDup (dkeys disc) ->
    (forall k, In k (dkeys cont) \/ In k (dkeys disc) -> In k (dkeys order)) ->
    exists vars, get_fuzzy_variables show show_cell cont disc order clab dlab method = Ok vars /\
    List.length vars = List.length order /\
    forall name i, dget name order = Some i ->
      (forall values, In (name, values) disc ->
         nth_error vars i = Some (Some (mkV name (discrete_sets (zip (col_labels show_cell dlab name values) values))))) /\
      (forall points, In (name, points) cont -> ~ In name (dkeys disc) ->
         exists sets, continuous_sets method (zip (col_labels show clab name points) points) = Ok sets /\
         nth_error vars i = Some (Some (mkV name (map FC sets)))) /\
      (~ In name (dkeys cont) -> ~ In name (dkeys disc) -> nth_error vars i = Some None).
  Proof.
    intros Nc Nd Hk. unfold get_fuzzy_variables.
    destruct (@assign_fold _ order fst (fun np => mkV (fst np) (map FC (gen_sets show clab method np))) f1
       (List.length order) range inj cont (repeat None (List.length order))) as (l1 & E1 & L1 & N1).
    - intros acc x Hx. apply f1_form; assumption.
    - apply repeat_length.
    - exact Nc.
    - intros x Hx. apply dget_ex. apply Hk. left. apply (in_map fst) in Hx. exact Hx.
    - fold f1. rewrite E1. cbn [bind].
      destruct (@assign_fold _ order fst (fun nv => mkV (fst nv)
         (discrete_sets (zip (col_labels show_cell dlab (fst nv) (snd nv)) (snd nv)))) f2
       (List.length order) range inj disc l1) as (l2 & E2 & L2 & N2).
      + intros acc x _. apply f2_form.
      + exact L1.
      + exact Nd.
      + intros x Hx. apply dget_ex. apply Hk. right. apply (in_map fst) in Hx. exact Hx.
      + exists l2. split; [exact E2|]. split; [exact L2|].
        intros name i Hi. destruct (N1 name i Hi) as [P1 P2]. destruct (N2 name i Hi) as [Q1 Q2].
        split; [|split].
        * intros values Hv. apply (Q1 (name, values)); auto.
        * intros points Hp Hnd. destruct (sets_ok _ _ Hp) as [sets E]. exists sets. split; [exact E|].
          rewrite Q2 by exact Hnd. rewrite (P1 (name, points)) by auto.
          unfold gen_sets. cbn [fst snd]. rewrite E. reflexivity.
        * intros H1 H2. rewrite Q2, P2 by assumption.
          rewrite nth_error_repeat; [reflexivity|]. eapply range; eassumption.
  Qed.
  Lemma C11_unknown_name :
    NoDup (dkeys cont) ->
    (exists k, (In k (dkeys cont) \/ In k (dkeys disc)) /\ ~ In k (dkeys order)) ->
    get_fuzzy_variables show show_cell cont disc order clab dlab method = Err KeyError.
  Proof.
    intros Nc (k & Hk & Ho). unfold get_fuzzy_variables. fold f1.
    destruct (existsb (fun np => match dget (fst np) order with None => true | _ => false end) cont) eqn:E.
    - apply existsb_exists in E. destruct E as (x & Hx & Ex).
      rewrite (@assign_fold_err _ order fst (fun np => mkV (fst np) (map FC (gen_sets show clab method np))) f1
       (List.length order) range cont (repeat None (List.length order))); [reflexivity| | |].
      + intros acc y Hy. apply f1_form; assumption.
      + apply repeat_length.
      + exists x. split; [exact Hx|]. destruct (dget (fst x) order); [discriminate|reflexivity].
    - assert (A : forall x, In x cont -> exists i, dget (fst x) order = Some i).
      { intros x Hx. destruct (dget (fst x) order) as [i|] eqn:Ei; [eauto|]. exfalso.
        assert (existsb (fun np => match dget (fst np) order with None => true | _ => false end) cont = true) as C.
        { apply existsb_exists. exists x. split; [exact Hx|]. rewrite Ei. reflexivity. }
        congruence. }
      destruct (@assign_fold _ order fst (fun np => mkV (fst np) (map FC (gen_sets show clab method np))) f1
       (List.length order) range inj cont (repeat None (List.length order))) as (l1 & E1 & L1 & N1).
      + intros acc x Hx. apply f1_form; assumption.
      + apply repeat_length.
      + exact Nc.
      + exact A.
      + rewrite E1. cbn [bind]. fold f2.
        apply (@assign_fold_err _ order fst (fun nv => mkV (fst nv)
         (discrete_sets (zip (col_labels show_cell dlab (fst nv) (snd nv)) (snd nv)))) f2
         (List.length order) range disc l1).
        * intros acc x _. apply f2_form.
        * exact L1.
        * destruct Hk as [Hk|Hk]; apply in_map_iff in Hk; destruct Hk as (x & <- & Hx).
          -- destruct (A x Hx) as [i Hi]. exfalso. apply Ho. eapply dget_Some_key; eassumption.
          -- exists x. split; [exact Hx|]. apply dget_None. exact Ho.
  Qed.
End C11.

(** ** assembled statements *)
Lemma C02_all method (d : list (string * Qc)) v :
  (2 <= List.length d)%nat -> StronglySorted Qclt (map snd d) ->
  exists sets degrees, continuous_sets method d = Ok sets /\
    Forall2 (fun s m => membership (FC s) (CNum v) = Ok m) sets degrees /\
    ((exists p, In p (map snd d) /\ p <= v) -> (exists q, In q (map snd d) /\ v <= q) -> qsum degrees = 1) /\
    (forall i j di dj, nth_error degrees i = Some di -> nth_error degrees j = Some dj ->
       0 < di -> 0 < dj -> (i <= j)%nat -> (j <= S i)%nat) /\
    ((forall p, In p (map snd d) -> v < p) \/ (forall p, In p (map snd d) -> p < v) ->
       Forall (fun m => m = 0) degrees).
Proof.
  intros HL Hs. destruct (@C03_sets method d HL) as (sets & HO & _).
  destruct (@degrees_exist method d sets v (sorted_lt_le Hs) HO) as (ds & HF).
  exists sets, ds. split; [exact HO|]. split; [exact HF|]. split; [|split].
  - eapply C02_sum; eassumption.
  - eapply C02_adjacent; eassumption.
  - eapply C02_outside; eassumption.
Qed.
Lemma C03_errors :
  (forall n p, exists s, continuous_sets "point_set"%string [(n, p)] = Ok [s] /\ c_name s = n /\ c_point s = true /\
     forall x, exists m, membership (FC s) (CNum x) = Ok m /\ (x = p -> m = 1) /\ (x <> p -> m = 0)) /\
  (forall method x, method <> "point_set"%string -> continuous_sets method [x] = Err ValueError) /\
  (forall method, continuous_sets method [] = Err IndexError).
Proof.
  split; [|split].
  - intros n p. eexists; split; [reflexivity|]. split; [reflexivity|]. split; [reflexivity|].
    intro x. eexists. split; [apply membership_valid; split; apply Qcle_refl|].
    unfold tric; cbn [pa pb pc fst snd]. split.
    + intros ->. apply tri_peak.
    + intro H. apply tri_out; try apply Qcle_refl; [exact H|].
      destruct (Qc_neq_lt H); [left|right]; apply Qclt_le_weak; assumption.
  - intros method x H. simpl. apply (eqb_neq eqd_string) in H. rewrite H. reflexivity.
  - reflexivity.
Qed.
Lemma C11_labels (A : Type) (show : A -> string) name points labels :
  col_labels show None name points = map show points /\
  (~ In name (dkeys labels) -> col_labels show (Some labels) name points = map show points) /\
  (forall ls, dget name labels = Some ls -> col_labels show (Some labels) name points = ls).
Proof.
  split; [reflexivity|]. split.
  - intro H. apply dget_None in H. simpl. rewrite H. reflexivity.
  - intros ls H. simpl. rewrite H. reflexivity.
Qed.
