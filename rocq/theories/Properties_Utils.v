(** * Properties C69-C73: distance functions, column lists, label encoding *)
From Verif Require Import Prelude M_Fuzzy M_Discretize M_Rule M_FDT M_ID3 M_Neighborhood M_Sampling M_Genetic M_Utils S_Utils P_Metrics P_Counterfactual P_Neighborhood2 P_Explainer P_Sampling P_Genetic P_ID3b P_Utils P_Utils2.
Set Implicit Arguments.
Open Scope string_scope. Open Scope list_scope. Open Scope Qc_scope.

(** ** C69 *)
(** simple_match_distance is the share of mismatching positions; it is undefined only on the empty vector *)
Theorem C69_simple_match : forall x y,
  (x = [] -> simple_match x y = Err ZeroDivisionError) /\
  (x <> [] -> exists d, simple_match x y = Ok d /\ d = qn (mismatches x y) / qn (List.length x) /\ 0 <= d /\ d <= 1).
Proof.
  intros x y. rewrite simple_match_spec. split; [intros ->; reflexivity|]. intro N. destruct (Nat.eqb_spec (List.length x) 0) as [E|E]; [destruct x; [contradiction|discriminate]|].
  eexists. split; [reflexivity|]. split; [reflexivity|]. apply Qcdiv_01; [apply qn_nonneg|apply qn_le, mismatches_le|apply len_pos; assumption].
Qed.
(** on vectors of the same length it is a metric *)
Theorem C69_simple_match_metric : forall x y z dxy dyx dyz dxz, List.length x = List.length y -> List.length y = List.length z ->
  simple_match x y = Ok dxy -> simple_match y x = Ok dyx -> simple_match y z = Ok dyz -> simple_match x z = Ok dxz ->
  (dxy = 0 <-> x = y) /\ dxy = dyx /\ dxz <= dxy + dyz.
Proof.
  intros x y z dxy dyx dyz dxz L1 L2. rewrite !simple_match_spec, <- L1. destruct (Nat.eqb_spec (List.length x) 0) as [E|E]; [discriminate|].
  intros A B C D. assert (A' : dxy = qn (mismatches x y) / qn (List.length x)) by congruence. assert (B' : dyx = qn (mismatches y x) / qn (List.length x)) by congruence.
  assert (C' : dyz = qn (mismatches y z) / qn (List.length x)) by congruence. assert (D' : dxz = qn (mismatches x z) / qn (List.length x)) by congruence. clear A B C D. subst.
  assert (P : 0 < qn (List.length x)) by (apply qn_pos; lia). assert (NZ : qn (List.length x) <> 0) by (intro Q; rewrite Q in P; qlra). split; [|split].
  - rewrite Qcdiv_eq by assumption. rewrite Qcmult_0_l. change 0 with (qn 0). rewrite qn_inj, mismatches_zero. split; [|intros <-; exists []; rewrite app_nil_r; reflexivity].
    intros (w & W). destruct w as [|v w]; [rewrite W; symmetry; apply app_nil_r|]. exfalso. rewrite W, app_length in L1. cbn in L1. lia.
  - rewrite (mismatches_sym x y L1). reflexivity.
  - assert (T := proj2 (qn_le _ _) (mismatches_tri x y z L1)). rewrite qn_plus in T. apply Qcdiv_le; [assumption|]. rewrite Qcmult_plus_distr_l, !Qcdiv_mult by assumption. assumption.
Qed.
(** mad_distance adds up the differences scaled by the deviations, ignoring features of deviation 0 *)
Theorem C69_mad_value : forall x y mad, (List.length mad <= List.length x)%nat -> (List.length mad <= List.length y)%nat ->
  mad_distance x y mad = Ok (qsum (map (scaled_gap x y mad) (seq 0 (List.length mad)))).
Proof. intros x y mad X Y. destruct (mad_total x y mad X Y) as (d & D). rewrite D. apply (f_equal (@Ok _)). apply mad_value. assumption. Qed.
(** it is non-negative, symmetric, satisfies the triangle inequality and is 0 exactly when the features of positive deviation agree *)
Theorem C69_mad_metric : forall x y z mad dxy dyx dyz dxz, (forall m, In m mad -> 0 <= m) ->
  mad_distance x y mad = Ok dxy -> mad_distance y x mad = Ok dyx -> mad_distance y z mad = Ok dyz -> mad_distance x z mad = Ok dxz ->
  0 <= dxy /\ dxy = dyx /\ dxz <= dxy + dyz /\
  (dxy = 0 <-> forall i, (i < List.length mad)%nat -> 0 < nth i mad 0 -> nth i x 0 = nth i y 0).
Proof.
  intros x y z mad dxy dyx dyz dxz H A B C D. apply mad_value in A, B, C, D. subst. split; [|split; [|split]].
  - apply qsum_nonneg. apply Forall_forall. intros v I. apply in_map_iff in I. destruct I as (i & <- & _). apply gap_nonneg. assumption.
  - f_equal. apply map_ext. intro i. apply gap_sym.
  - rewrite <- qsum_map_plus. apply qsum_map_le. intros i _. apply gap_tri. assumption.
  - rewrite qsum_zero by (intros; apply gap_nonneg; assumption). split.
    + intros Z i I P. specialize (Z i). rewrite gap_zero in Z by assumption. destruct Z as [Z|Z]; [apply in_seq; lia|rewrite Z in P; exfalso; qlra|assumption].
    + intros Z i I. apply in_seq in I. apply gap_zero; [assumption|]. destruct (Qc_eq_dec (nth i mad 0) 0) as [E|E]; [left; assumption|right]. apply Z; [lia|].
      assert (0 <= nth i mad 0) by (apply H; apply nth_In; lia). destruct (Qc_neq_lt E); [exfalso; qlra|assumption].
Qed.
(** a feature with a deviation that one of the vectors lacks raises IndexError *)
Theorem C69_mad_short : forall x y mad i m, nth_error mad i = Some m -> m <> 0 -> (List.length x <= i \/ List.length y <= i)%nat ->
  exists e, mad_distance x y mad = Err e /\ e = IndexError.
Proof.
  intros x y mad i m M NZ S. destruct (mad_distance x y mad) as [d|e] eqn:E.
  - exfalso. unfold mad_distance in E. assert (I : (i < List.length mad)%nat) by (apply nth_error_Some; congruence).
    pose (Inv := fun (n : nat) (_ : Qc) => (n <= i)%nat).
    match type of E with foldM ?f ?a _ = _ => apply (@foldM_seq _ Inv f (List.length mad) 0 a d) in E end; [unfold Inv in E; lia| |unfold Inv; lia].
    intros j v v' J V F. unfold Inv in *. destruct (Nat.eq_dec j i) as [->|]; [|lia]. exfalso. unfold lget in F. rewrite M in F. cbn [ret_opt bind] in F. destruct (qeqb_spec m 0); [contradiction|].
    destruct S as [S|S]; apply nth_error_None in S; rewrite S in F; [discriminate|]. destruct (nth_error x i); discriminate.
  - exists e. split; [reflexivity|]. unfold mad_distance in E.
    assert (G : forall l v, foldM (fun val i => do m <- lget mad i; if qeqb m 0 then Ok val else do a <- lget x i; do b <- lget y i; Ok (val + qabs (a - b) / m)) v l = Err e -> e = IndexError).
    { clear. induction l as [|j l IH]; intros v H; [discriminate|]. cbn [foldM] in H. unfold lget in H.
      destruct (nth_error mad j) as [m|]; cbn [ret_opt bind] in H; [|congruence]. destruct (qeqb m 0); cbn [bind] in H; [apply (IH v); exact H|].
      destruct (nth_error x j) as [a|]; cbn [ret_opt bind] in H; [|congruence]. destruct (nth_error y j) as [b|]; cbn [ret_opt bind] in H; [|congruence]. apply (IH _ H). }
    exact (G _ _ E).
Qed.
Example C69_ex : simple_match [CStr "a"; CNum 1; CStr "b"] [CStr "a"; CNum 0; CStr "b"] = Ok (qc 1 3) /\
  mad_distance [1; qz 5; qz 2] [0; 1; qz 4] [qz 2; 0; 1] = Ok (qc 5 2).
Proof. split; qex. Qed.
Print Assumptions C69_simple_match_metric. Print Assumptions C69_mad_metric. Print Assumptions C69_mad_short.

(** ** C70 *)
(** with a discrete feature besides the class the distance is a convex combination of the two distances, weighted by the numbers of columns *)
Theorem C70_convex : forall x y discrete continuous cls ddist cdist r, (exists a, In a discrete /\ a <> cls) ->
  mixed_distance x y discrete continuous cls ddist cdist = Ok r ->
  exists xd yd xc yc dd cd wd wc,
    fields x (filter (fun a => negb (eqb a cls)) discrete) = Ok xd /\ fields y (filter (fun a => negb (eqb a cls)) discrete) = Ok yd /\
    fields x continuous = Ok xc /\ fields y continuous = Ok yc /\ ddist xd yd = Ok dd /\ cdist xc yc = Ok cd /\
    wd + wc = 1 /\ 0 < wd /\ 0 <= wc /\ wd = qn (List.length discrete) / qn (List.length discrete + List.length continuous) /\
    (cd = None -> r = None) /\ forall c, cd = Some c -> r = Some (wd * dd + wc * c).
Proof.
  intros x y discrete continuous cls ddist cdist r (a & A & NA) H. unfold mixed_distance in H.
  destruct (fields x (filter (fun a => negb (eqb a cls)) discrete)) as [xd|] eqn:XD; [|discriminate]. cbn [bind] in H.
  assert (L : (0 < List.length xd)%nat). { rewrite (fields_length _ _ XD). assert (I : In a (filter (fun a => negb (eqb a cls)) discrete)) by (apply not_class; split; assumption). destruct (filter _ discrete); [destruct I|cbn; lia]. }
  rewrite (proj2 (Nat.ltb_lt _ _) L) in H. destruct (fields y (filter (fun a => negb (eqb a cls)) discrete)) as [yd|] eqn:YD; [|discriminate]. cbn [bind] in H.
  destruct (ddist xd yd) as [dd|] eqn:DD; [|discriminate]. cbn [bind] in H. destruct (fields x continuous) as [xc|] eqn:XC; [|discriminate]. cbn [bind] in H.
  destruct (fields y continuous) as [yc|] eqn:YC; [|discriminate]. cbn [bind] in H. destruct (cdist xc yc) as [cd|] eqn:CD; [|discriminate]. cbn [bind] in H.
  assert (LD : (0 < List.length discrete)%nat) by (destruct discrete; [destruct A|cbn; lia]).
  assert (PT : 0 < qn (List.length discrete + List.length continuous)) by (apply qn_pos; lia).
  exists xd, yd, xc, yc, dd, cd, (qn (List.length discrete) / qn (List.length discrete + List.length continuous)), (qn (List.length continuous) / qn (List.length discrete + List.length continuous)).
  splits; try assumption; try reflexivity.
  - rewrite qn_plus. field. rewrite <- qn_plus. intro Q. rewrite Q in PT. qlra.
  - apply Qclt_div; [assumption|]. rewrite Qcmult_0_l. apply qn_pos. assumption.
  - apply Qcle_div; [assumption|]. rewrite Qcmult_0_l. apply qn_nonneg.
  - intros ->. cbn in H. congruence.
  - intros c ->. cbn in H. congruence.
Qed.
(** so with the default distances it lies in [0,1] and is symmetric (where it is a number) *)
Theorem C70_bounds : forall x y discrete continuous cls r, (exists a, In a discrete /\ a <> cls) ->
  mixed_distance x y discrete continuous cls simple_match (on_numbers normalized_euclidean) = Ok (Some r) ->
  0 <= r /\ r <= 1 /\ mixed_distance y x discrete continuous cls simple_match (on_numbers normalized_euclidean) = Ok (Some r).
Proof.
  intros x y discrete continuous cls r D H. assert (H0 := H). apply C70_convex in H; [|assumption].
  destruct H as (xd & yd & xc & yc & dd & cd & wd & wc & XD & YD & XC & YC & DD & CD & S & PW & NW & EW & CN & CS).
  destruct cd as [c|]; [|specialize (CN eq_refl); discriminate]. specialize (CS c eq_refl). injection CS as ->.
  assert (LD : List.length xd = List.length yd) by (rewrite (fields_length _ _ XD), (fields_length _ _ YD); reflexivity).
  unfold on_numbers in CD. destruct (numbers xc) as [qx|] eqn:QX; [|discriminate]. cbn [bind] in CD. destruct (numbers yc) as [qy|] eqn:QY; [|discriminate]. cbn [bind] in CD.
  assert (BD : 0 <= dd /\ dd <= 1).
  { destruct (C69_simple_match xd yd) as (E1 & E2). destruct xd as [|v xd]; [rewrite E1 in DD by reflexivity; discriminate|]. destruct E2 as (d & Ed & _ & B1 & B2); [discriminate|]. rewrite Ed in DD. injection DD as ->. split; assumption. }
  destruct (normalized_spec _ _ CD) as (_ & _ & BC). specialize (BC c eq_refl). destruct BC as (C0 & C1 & _). destruct BD as (D0 & D1).
  assert (W1 : wd <= 1) by qlra. assert (M1 := Qcmult_nonneg (Qclt_le_weak _ _ PW) D0). assert (M2 := Qcmult_nonneg NW C0).
  assert (M3 : wd * dd <= wd). { rewrite <- (Qcmult_1_r wd) at 2. rewrite (Qcmult_comm wd dd), (Qcmult_comm wd 1). apply Qcmult_le_compat_r; [assumption|qlra]. }
  assert (M4 : wc * c <= wc). { rewrite <- (Qcmult_1_r wc) at 2. rewrite (Qcmult_comm wc c), (Qcmult_comm wc 1). apply Qcmult_le_compat_r; assumption. }
  split; [generalize dependent (wd * dd); generalize dependent (wc * c); intros; qlra|]. split; [generalize dependent (wd * dd); generalize dependent (wc * c); intros; qlra|].
  rewrite <- H0. unfold mixed_distance. rewrite XD, YD. cbn [bind]. rewrite LD. destruct (Nat.ltb 0 (List.length yd)) eqn:LT.
  - cbn [bind]. rewrite XC, YC. cbn [bind]. assert (E : simple_match yd xd = simple_match xd yd).
    { rewrite !simple_match_spec, LD, (mismatches_sym xd yd LD). reflexivity. }
    rewrite E. destruct (simple_match xd yd); [|reflexivity]. cbn [bind]. unfold on_numbers. rewrite QX, QY. cbn [bind]. rewrite normalized_sym. reflexivity.
  - rewrite XC, YC. reflexivity.
Qed.
(** without a discrete feature besides the class every two records are at distance 0 *)
Theorem C70_continuous_only : forall x y discrete continuous cls ddist cdist, (forall a, In a discrete -> a = cls) -> has_fields x continuous ->
  mixed_distance x y discrete continuous cls ddist cdist = Ok (Some 0).
Proof.
  intros x y discrete continuous cls ddist cdist H F. unfold mixed_distance. assert (E : filter (fun a => negb (eqb a cls)) discrete = []).
  { destruct (filter (fun a => negb (eqb a cls)) discrete) as [|b l] eqn:E; [reflexivity|]. exfalso. assert (I : In b (b :: l)) by (left; reflexivity). rewrite <- E in I. apply not_class in I. destruct I as (I & N). apply N. auto. }
  rewrite E. change (fields x []) with (Ok (@nil cell)). cbn [bind List.length Nat.ltb Nat.leb]. destruct (fields_total F) as (l & L & _). rewrite L. cbn [bind]. apply (f_equal (@Ok _)). f_equal.
Qed.
(** with the default distances and fewer than two continuous features it is not a number *)
Theorem C70_undefined : forall x y discrete continuous cls, (exists a, In a discrete /\ a <> cls) ->
  has_fields x discrete -> has_fields y discrete -> has_numbers x continuous -> has_numbers y continuous -> (List.length continuous <= 1)%nat ->
  mixed_distance x y discrete continuous cls simple_match (on_numbers normalized_euclidean) = Ok None.
Proof.
  intros x y discrete continuous cls (a & A & NA) FX FY NX NY L. unfold mixed_distance.
  assert (SX : has_fields x (filter (fun a => negb (eqb a cls)) discrete)) by (intros b B; apply FX; apply not_class in B; tauto).
  assert (SY : has_fields y (filter (fun a => negb (eqb a cls)) discrete)) by (intros b B; apply FY; apply not_class in B; tauto).
  destruct (fields_total SX) as (xd & XD & LX). destruct (fields_total SY) as (yd & YD & LY). rewrite XD. cbn [bind].
  assert (I : In a (filter (fun a => negb (eqb a cls)) discrete)) by (apply not_class; split; assumption).
  assert (P : (0 < List.length xd)%nat). { rewrite LX. destruct (filter _ discrete); [destruct I|cbn; lia]. } rewrite (proj2 (Nat.ltb_lt _ _) P), YD. cbn [bind].
  destruct (C69_simple_match xd yd) as (_ & E2). destruct E2 as (d & D & _); [intros ->; cbn in P; lia|]. rewrite D. cbn [bind].
  destruct (fields_numbers NX) as (qx & QX & LQX). destruct (fields_numbers NY) as (qy & QY & LQY). rewrite QX, QY. cbn [bind]. unfold on_numbers. rewrite !numbers_map. cbn [bind].
  destruct (@normalized_total qx qy) as (r & R); [congruence|]. rewrite R. cbn [bind]. destruct (normalized_spec _ _ R) as (_ & RN & _).
  assert (C : forall q : list Qc, (List.length q <= 1)%nat -> constant q). { clear. intros [|u [|v q]] H p r P R; [destruct P|destruct P as [<-|[]], R as [<-|[]]; reflexivity|cbn in H; lia]. }
  rewrite (proj2 RN); [reflexivity|]. split; apply C; congruence.
Qed.
Example C70_ex_x : record := [("class", CStr "yes"); ("colour", CStr "red"); ("w", CNum 1); ("h", CNum (qz 4))].
Example C70_ex_y : record := [("class", CStr "no"); ("colour", CStr "red"); ("w", CNum 1); ("h", CNum (qz 2))].
Example C70_ex : mixed_distance C70_ex_x C70_ex_y ["colour"; "class"] ["w"; "h"] "class" simple_match (on_numbers normalized_euclidean) = Ok (Some (qc 1 10)) /\
  mixed_distance C70_ex_x C70_ex_y ["class"] ["w"; "h"] "class" simple_match (on_numbers normalized_euclidean) = Ok (Some 0) /\
  mixed_distance C70_ex_x C70_ex_y ["colour"; "class"] ["h"] "class" simple_match (on_numbers normalized_euclidean) = Ok None.
Proof. splits; qex. Qed.
Print Assumptions C70_convex. Print Assumptions C70_bounds. Print Assumptions C70_continuous_only. Print Assumptions C70_undefined.

(** ** C71 *)
(** normalized_euclidean_distance lies in [0,1], vanishes exactly on shifted vectors and is undefined exactly on two constant vectors *)
Theorem C71_normalized : forall x y, List.length x = List.length y ->
  exists r, normalized_euclidean x y = Ok r /\ normalized_euclidean y x = Ok r /\
    (r = None <-> constant x /\ constant y) /\
    forall d, r = Some d -> 0 <= d /\ d <= 1 /\ (d = 0 <-> exists c, shifted x y c).
Proof.
  intros x y L. destruct (normalized_total x y L) as (r & R). exists r. split; [assumption|]. rewrite normalized_sym. split; [assumption|]. destruct (normalized_spec _ _ R) as (_ & A & B). split; assumption.
Qed.
(** hence a single feature is never compared *)
Theorem C71_single : forall a b, normalized_euclidean [a] [b] = Ok None.
Proof.
  intros a b. destruct (C71_normalized [a] [b] eq_refl) as (r & R & _ & N & _). rewrite R. apply (f_equal (@Ok _)). apply N. split; intros p q [<-|[]] [<-|[]]; reflexivity.
Qed.
(** the bound 1 is attained by opposite vectors *)
Theorem C71_opposite : forall x d, normalized_euclidean x (map Qcopp x) = Ok (Some d) -> d = 1.
Proof.
  intros x d H. unfold normalized_euclidean in H. rewrite map_length, Nat.eqb_refl in H. cbn [negb] in H.
  assert (E : map2 Qcminus x (map Qcopp x) = map (fun v => (1 + 1) * v) x). { clear. induction x as [|a x IH]; [reflexivity|]. cbn [map map2]. rewrite IH. f_equal. ring. }
  rewrite E, variance_opp in H. destruct (variance x) as [v|] eqn:V; [|destruct (variance (map _ x)); discriminate].
  destruct (variance (map (fun v => (1 + 1) * v) x)) as [w|] eqn:W; [|discriminate].
  destruct (qeqb_spec (v + v) 0) as [Z|Z]; [discriminate|]. assert (D : d = qc 1 2 * w / (v + v)) by congruence. subst d. apply Qcdiv_eq; [assumption|].
  destruct (variance_dev _ V) as (m & _ & N & EV & EM). destruct (variance_dev _ W) as (k & _ & _ & EW & EK). rewrite map_length in EW, EK. assert (P := len_pos N).
  assert (NZ : qn (List.length x) <> 0) by (intro Q; rewrite Q in P; qlra).
  assert (K : k = (1 + 1) * m). { rewrite EK, EM, qsum_map_mult, map_id. field. assumption. }
  assert (DD : dev2 k (map (fun v => (1 + 1) * v) x) = (1 + 1) * (1 + 1) * dev2 m x). { rewrite K. unfold dev2. rewrite map_map, <- qsum_map_mult. f_equal. apply map_ext. intro b. ring. }
  rewrite EW, DD, EV. assert (H2 : qc 1 2 * (1 + 1) = 1) by (apply Qc_is_canon; reflexivity).
  replace (qc 1 2 * ((1 + 1) * (1 + 1) * dev2 m x / qn (List.length x))) with ((qc 1 2 * (1 + 1)) * ((1 + 1) * dev2 m x / qn (List.length x))) by (field; assumption). rewrite H2. field. assumption.
Qed.
(** normalized_square_euclidean_distance: non-negative, symmetric and 0 only for equal vectors, provided that no range is 0 *)
Theorem C71_square : forall ranges x y, List.length x = List.length y -> List.length y = List.length ranges -> ~ In 0 ranges ->
  exists d, normalized_square_euclidean ranges x y = Ok (Some d) /\ normalized_square_euclidean ranges y x = Ok (Some d) /\
    d = qsum (map (fun i => (nth i x 0 - nth i y 0) / nth i ranges 0 * ((nth i x 0 - nth i y 0) / nth i ranges 0)) (seq 0 (List.length ranges))) /\
    0 <= d /\ (d = 0 <-> x = y).
Proof.
  intros ranges x y L1 L2 NZ.
  assert (SQ : forall a : Qc, qabs a * qabs a = a * a) by (intro a; unfold qabs; destruct (qltb a 0); ring).
  assert (G : forall ranges x y, List.length x = List.length y -> List.length y = List.length ranges -> ~ In 0 ranges ->
     map2 (fun d r => (qabs d / r) * (qabs d / r)) (map2 Qcminus x y) ranges = map (fun i => (nth i x 0 - nth i y 0) / nth i ranges 0 * ((nth i x 0 - nth i y 0) / nth i ranges 0)) (seq 0 (List.length ranges))).
  { clear - SQ. induction ranges as [|r ranges IH]; intros x y L1 L2 NZ. { destruct y; [|discriminate]. destruct x; [reflexivity|discriminate]. }
    destruct y as [|b y]; [discriminate|]. destruct x as [|a x]; [discriminate|]. cbn [map2 List.length seq map nth]. rewrite <- seq_shift, map_map. rewrite IH; [|cbn in L1; congruence|cbn in L2; congruence|intro; apply NZ; right; assumption].
    f_equal. assert (R : r <> 0) by (intro; apply NZ; left; assumption). replace (qabs (a - b) / r * (qabs (a - b) / r)) with (qabs (a - b) * qabs (a - b) / (r * r)) by (field; assumption). rewrite SQ. field. assumption. }
  assert (EX : existsb (fun r => qeqb r 0) ranges = false).
  { destruct (existsb (fun r => qeqb r 0) ranges) eqn:E; [|reflexivity]. apply existsb_exists in E. destruct E as (r & R & Q). apply qeqb_eq in Q. subst. contradiction. }
  assert (V : forall x y, List.length x = List.length y -> List.length y = List.length ranges -> normalized_square_euclidean ranges x y = Ok (Some (qsum (map (fun i => (nth i x 0 - nth i y 0) / nth i ranges 0 * ((nth i x 0 - nth i y 0) / nth i ranges 0)) (seq 0 (List.length ranges)))))).
  { intros u v A B. unfold normalized_square_euclidean. rewrite A, B, Nat.eqb_refl. cbn [negb orb]. rewrite EX, G by assumption. reflexivity. }
  eexists. split; [apply V; assumption|]. split; [|split; [reflexivity|split]].
  - rewrite V by congruence. do 3 f_equal. apply map_ext_in. intros i I. apply in_seq in I. assert (R : nth i ranges 0 <> 0) by (intro Q; apply NZ; rewrite <- Q; apply nth_In; lia). field. assumption.
  - apply qsum_nonneg. apply Forall_forall. intros v I. apply in_map_iff in I. destruct I as (i & <- & _). apply sq_nonneg.
  - rewrite qsum_zero by (intros; apply sq_nonneg). split.
    + intro Z. apply (nth_ext x y 0 0 L1). intros i I. assert (J : In i (seq 0 (List.length ranges))) by (apply in_seq; lia). specialize (Z i J). assert (R : nth i ranges 0 <> 0) by (intro Q; apply NZ; rewrite <- Q; apply nth_In; lia).
      apply Qcmult_integral in Z. assert (Z' : (nth i x 0 - nth i y 0) / nth i ranges 0 = 0) by tauto. apply Qcdiv_eq in Z'; [|assumption]. qlra.
    + intros <- i I. apply in_seq in I. assert (R : nth i ranges 0 <> 0) by (intro Q; apply NZ; rewrite <- Q; apply nth_In; lia). replace (nth i x 0 - nth i x 0) with 0 by ring. field. assumption.
Qed.
Example C71_ex : normalized_euclidean [1; qz 2; qz 3] [qz 4; qz 5; qz 6] = Ok (Some 0) /\ normalized_euclidean [1; qz 3] [qz 3; 1] = Ok (Some 1).
Proof. split; qex. Qed.
Print Assumptions C71_normalized. Print Assumptions C71_opposite. Print Assumptions C71_square.

(** ** C72 *)
(** in every case: the class is the last discrete column, occurs once in the list and never among the continuous ones *)
Theorem C72_class : forall sl features tf cls discrete continuous d c, set_discrete_continuous sl features tf cls discrete continuous = (d, c) ->
  (exists d', d = d' ++ [cls] /\ ~ In cls d') /\ ~ In cls c.
Proof.
  intros sl features [[ints doubles] strs] cls discrete continuous d c H.
  assert (G : forall l, ~ In cls (filter (fun f => negb (eqb f cls)) l)) by (intros l I; apply not_class in I; destruct I; congruence).
  unfold set_discrete_continuous in H. destruct discrete as [di|], continuous as [co|]; cbv beta iota zeta in H; injection H as <- <-; (split; [eexists; split; [reflexivity|]|]); apply G.
Qed.
(** no list given: text columns are discrete, numeric ones continuous *)
Theorem C72_neither_given : forall sl features ints doubles strs cls d c f, set_discrete_continuous sl features (ints, doubles, strs) cls None None = (d, c) -> f <> cls ->
  (In f d <-> In f strs) /\ (In f c <-> In f ints \/ In f doubles).
Proof.
  intros sl features ints doubles strs cls d c f H N. unfold set_discrete_continuous in H. cbv beta iota zeta in H. injection H as <- <-.
  rewrite in_app_iff, !not_class, in_app_iff. cbn [In]. intuition congruence.
Qed.
(** the discrete columns given: text columns are added, every other numeric column of [features] is continuous, and for disjoint type lists no column is both *)
Theorem C72_discrete_given : forall sl features ints doubles strs cls discrete d c f, set_listing sl ->
  set_discrete_continuous sl features (ints, doubles, strs) cls (Some discrete) None = (d, c) ->
  NoDup d /\
  (f <> cls -> (In f d <-> In f discrete \/ In f strs) /\ (In f c <-> In f features /\ ~ In f discrete /\ (In f ints \/ In f doubles))) /\
  ((forall g, In g strs -> ~ In g ints /\ ~ In g doubles) -> In f d -> In f c -> False).
Proof.
  intros sl features ints doubles strs cls discrete d c f SL H. unfold set_discrete_continuous in H. cbv beta iota zeta in H. injection H as <- <-.
  assert (A : f <> cls -> (In f (filter (fun f => negb (eqb f cls)) (sl (discrete ++ strs)) ++ [cls]) <-> In f discrete \/ In f strs) /\
     (In f (filter (fun f => negb (eqb f cls)) (filter (fun f => negb (memb f discrete) && (memb f ints || memb f doubles)) features)) <-> In f features /\ ~ In f discrete /\ (In f ints \/ In f doubles))).
  { intro N. rewrite in_app_iff, !not_class, (setlist_In (discrete ++ strs) f SL), in_app_iff, filter_In, Bool.andb_true_iff, Bool.negb_true_iff, Bool.orb_true_iff, memb_not_In, !memb_In. cbn [In]. intuition congruence. }
  split; [|split].
  - apply NoDup_snoc; [apply NoDup_filter, setlist_NoDup; assumption|]. rewrite not_class. tauto.
  - exact A.
  - intros D Id Ic. assert (N : f <> cls) by (apply not_class in Ic; tauto). destruct (A N) as (A1 & A2). apply A1 in Id. apply A2 in Ic. destruct Ic as (_ & NI & T). destruct Id as [Id|Id]; [contradiction|]. destruct (D f Id). tauto.
Qed.
(** only the continuous columns given: an unlisted numeric column ends up in both lists *)
Theorem C72_continuous_given : forall sl features ints doubles strs cls continuous d c f, set_listing sl ->
  set_discrete_continuous sl features (ints, doubles, strs) cls None (Some continuous) = (d, c) -> f <> cls ->
  (In f d <-> In f features /\ ~ In f continuous) /\ (In f c <-> In f continuous \/ In f ints \/ In f doubles) /\
  (In f features -> ~ In f continuous -> In f ints \/ In f doubles -> In f d /\ In f c).
Proof.
  intros sl features ints doubles strs cls continuous d c f SL H N. unfold set_discrete_continuous in H. cbv beta iota zeta in H. injection H as <- <-.
  rewrite in_app_iff, !not_class, (setlist_In (continuous ++ ints ++ doubles) f SL), !in_app_iff, filter_In, Bool.negb_true_iff, memb_not_In. cbn [In]. intuition congruence.
Qed.
(** both given: the caller's lists, without the class *)
Theorem C72_both_given : forall sl features tf cls discrete continuous d c f,
  set_discrete_continuous sl features tf cls (Some discrete) (Some continuous) = (d, c) -> f <> cls -> (In f d <-> In f discrete) /\ (In f c <-> In f continuous).
Proof.
  intros sl features [[ints doubles] strs] cls discrete continuous d c f H N. unfold set_discrete_continuous in H. cbv beta iota zeta in H. injection H as <- <-. rewrite in_app_iff, !not_class. cbn [In]. intuition congruence.
Qed.
(** a concrete listing, and a table with an unlisted numeric column *)
Lemma nodup_listing : set_listing (nodup string_dec). Proof. intro l. apply Permutation_refl. Qed.
Example C72_ex : set_discrete_continuous (nodup string_dec) ["age"; "sex"; "hours"; "cls"] (["age"; "cls"], ["hours"], ["sex"]) "cls" (Some ["age"]) None = (["age"; "sex"; "cls"], ["hours"]) /\
  set_discrete_continuous (nodup string_dec) ["age"; "sex"; "hours"; "cls"] (["age"; "cls"], ["hours"], ["sex"]) "cls" None (Some ["hours"]) = (["age"; "sex"; "cls"], ["age"; "hours"]).
Proof. split; reflexivity. Qed.
Print Assumptions C72_class. Print Assumptions C72_discrete_given. Print Assumptions C72_continuous_given.

(** ** C73 *)
(** decoding an encoded table restores it *)
Theorem C73_round_trip : forall df columns, NoDup (dkeys df) -> NoDup columns -> (forall c, In c columns -> exists col, dget c df = Some col /\ uniform col) ->
  exists df' encs, label_encode df columns None = Ok (df', encs) /\ label_decode df' columns encs = Ok df.
Proof.
  intros df columns ND NC G. destruct (@encode_total columns df (conj NC G)) as (df' & encs & E). exists df', encs. split; [assumption|]. exact (round_trip (conj NC G) ND E).
Qed.
(** encoding replaces each listed column by codes 0, ..., k-1 in the order of its k distinct values and leaves the others alone *)
Theorem C73_codes : forall df columns df' encs, NoDup columns -> (forall c, In c columns -> exists col, dget c df = Some col /\ uniform col) ->
  label_encode df columns None = Ok (df', encs) ->
  dkeys df' = dkeys df /\ (forall c, ~ In c columns -> dget c df' = dget c df) /\
  forall c col, In c columns -> dget c df = Some col ->
    exists classes codes, dget c encs = Some classes /\ dget c df' = Some (map (fun k => CNum (qn k)) codes) /\
      List.length codes = List.length col /\
      (forall v, In v classes <-> In v col) /\ NoDup classes /\
      (forall k, (k < List.length classes)%nat <-> In k codes) /\
      (forall i k v, nth_error codes i = Some k -> nth_error col i = Some v -> nth_error classes k = Some v) /\
      (forall i j v w k l, nth_error col i = Some v -> nth_error col j = Some w -> nth_error codes i = Some k -> nth_error codes j = Some l ->
         ((k < l)%nat <-> cell_lt v w) /\ (k = l <-> v = w)).
Proof.
  intros df columns df' encs NC G E. apply encode_fold in E; [|split; assumption]. destruct E as (K & O & E). split; [assumption|]. split; [intros c N; apply (O c N)|].
  intros c col I C. destruct (E c col I C) as (u & codes & U & T & D1 & D2). destruct (G c I) as (col' & C' & Un). rewrite C in C'. injection C' as <-.
  destruct (uniform_unique Un) as (u' & U' & ND & UI & US). rewrite U in U'. injection U' as <-.
  assert (Q : exists ks, codes = map (fun k => CNum (qn k)) ks /\ Forall2 (fun v k => position v u = Some k) col ks).
  { clear - T. revert codes T. induction col as [|v col IH]; intros codes T; [injection T as <-; exists []; split; [reflexivity|constructor]|]. unfold transform in T. cbn [mapM] in T. destruct (position v u) as [k|] eqn:P; [|discriminate]. cbn [ret_opt bind] in T.
    match type of T with bind ?r _ = _ => destruct r as [cs|] eqn:F; [|discriminate] end. cbn [bind] in T. injection T as <-. destruct (IH cs F) as (ks & -> & H). exists (k :: ks). split; [reflexivity|constructor; assumption]. }
  destruct Q as (ks & -> & F). exists u, ks. assert (L : List.length ks = List.length col) by (symmetry; apply (Forall2_len F)).
  assert (NT : forall i k v, nth_error ks i = Some k -> nth_error col i = Some v -> nth_error u k = Some v).
  { clear - F ND. induction F as [|v0 k0 col ks P F IH]; intros i k v A B; [destruct i; discriminate|]. destruct i as [|i]; cbn in A, B; [injection A as <-; injection B as <-; apply (position_nth _ _ ND); assumption|]. exact (IH i k v A B). }
  splits; try assumption.
  - intro k. split; intro H.
    + destruct (nth_error u k) as [v|] eqn:V; [|apply nth_error_None in V; lia]. assert (J : In v col) by (apply UI; apply nth_error_In in V; assumption). apply In_nth_error in J. destruct J as (i & J).
      destruct (nth_error ks i) as [k'|] eqn:Ki; [|apply nth_error_None in Ki; assert ((i < List.length col)%nat) by (apply nth_error_Some; congruence); lia].
      assert (V' := NT i k' v Ki J). assert (k = k') by (apply (proj1 (NoDup_nth_error u) ND); [assumption|congruence]). subst. apply nth_error_In in Ki. assumption.
    + apply In_nth_error in H. destruct H as (i & H). destruct (nth_error col i) as [v|] eqn:V; [|apply nth_error_None in V; assert ((i < List.length ks)%nat) by (apply nth_error_Some; congruence); lia].
      apply nth_error_Some. rewrite (NT i k v H V). discriminate.
  - intros i j v w k l V W KI LJ. assert (A := NT i k v KI V). assert (B := NT j l w LJ W). split; [exact (sorted_nth_iff US k l A B)|]. split; [intros ->; congruence|]. intros ->.
    apply (proj1 (NoDup_nth_error u) ND); [apply nth_error_Some; congruence|congruence].
Qed.
(** encoding with existing encoders: known values get the same codes, an unknown value raises ValueError *)
Theorem C73_reencode : forall df columns df' encs, NoDup columns -> (forall c, In c columns -> exists col, dget c df = Some col /\ uniform col) -> NoDup (dkeys df) ->
  label_encode df columns None = Ok (df', encs) -> label_encode df columns (Some encs) = Ok (df', encs).
Proof.
  intros df columns df' encs NC G ND E. apply encode_fold in E; [|split; assumption]. destruct E as (K & O & E).
  destruct (@reencode_fold encs columns df NC) as (df2 & A & K2 & O2 & E2).
  { intros c I. destruct (G c I) as (col & C & _). destruct (E c col I C) as (u & codes & _ & T & D1 & D2). exists u, col, codes. tauto. }
  etransitivity; [exact A|]. apply (f_equal (fun d => Ok (d, encs))). apply dict_ext; [rewrite K2; assumption|congruence|]. intros c I. destruct (in_dec string_dec c columns) as [J|J].
  - destruct (E2 c J) as (u & col & codes & A1 & A2 & A3 & A4). destruct (E c col J A2) as (u' & codes' & _ & T & D1 & D2). rewrite A4, D1. congruence.
  - rewrite (O2 c J). symmetry. apply O. assumption.
Qed.
Theorem C73_unseen : forall df c columns encs classes col, dget c encs = Some classes -> dget c df = Some col -> (exists v, In v col /\ ~ In v classes) ->
  label_encode df (c :: columns) (Some encs) = Err ValueError.
Proof.
  intros df c columns encs classes col E C H. unfold label_encode. cbn [foldM]. rewrite E. cbn [ret_opt bind]. unfold fcolumn at 1. rewrite C. cbn [ret_opt bind]. rewrite (transform_unseen _ _ H). reflexivity.
Qed.
(** a column mixing numbers and text cannot be encoded; a missing column is a KeyError *)
Theorem C73_rejects : forall df c columns, (dget c df = None -> label_encode df (c :: columns) None = Err KeyError) /\
  (forall col, dget c df = Some col -> ~ uniform col -> label_encode df (c :: columns) None = Err TypeError).
Proof.
  intros df c columns. split.
  - intro C. unfold label_encode. cbn [foldM]. unfold fcolumn at 1. cbn [fst snd]. rewrite C. reflexivity.
  - intros col C U. unfold label_encode. cbn [foldM]. unfold fcolumn at 1. cbn [fst snd]. rewrite C. cbn [ret_opt bind]. rewrite (not_uniform U). reflexivity.
Qed.
(** listing a column twice encodes it twice and loses its values: the round trip needs distinct columns *)
Theorem C73_duplicate_refuted : exists df columns df' encs, NoDup (dkeys df) /\ (forall c, In c columns -> exists col, dget c df = Some col /\ uniform col) /\
  label_encode df columns None = Ok (df', encs) /\ label_decode df' columns encs <> Ok df.
Proof.
  exists [("a", [CStr "x"; CStr "y"])], ["a"; "a"]. eexists. eexists. split; [repeat constructor; intros []|]. split.
  - intros c I. assert (c = "a") as -> by (destruct I as [I|[I|[]]]; congruence). eexists. split; [reflexivity|]. right. intros v [<-|[<-|[]]]; eexists; reflexivity.
  - split; [reflexivity|]. intro H. vm_compute in H. discriminate.
Qed.
Example C73_ex : let df := [("cls", [CStr "no"; CStr "yes"; CStr "no"]); ("n", [CNum (qz 7); CNum (qz 5); CNum (qz 6)])] in
  exists df' encs, label_encode df ["cls"; "n"] None = Ok (df', encs) /\ dget "n" df' = Some [CNum (qz 2); CNum 0; CNum 1] /\ dget "cls" encs = Some [CStr "no"; CStr "yes"].
Proof. eexists. eexists. splits; [reflexivity| |reflexivity]. qex. Qed.
Print Assumptions C73_round_trip. Print Assumptions C73_codes. Print Assumptions C73_reencode. Print Assumptions C73_unseen. Print Assumptions C73_duplicate_refuted.
