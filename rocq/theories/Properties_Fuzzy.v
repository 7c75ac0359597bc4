(** * Properties C01-C12: fuzzy sets and variables *)
From Verif Require Import Prelude M_Fuzzy M_Discretize P_FuzzySet P_FuzzyVar P_Discretize.

Local Open Scope string_scope.
Local Open Scope Qc_scope.

(** ** C01 *)
Theorem C01_membership_shape : forall s x, pa s <= pb s -> pb s <= pc s ->
  exists d, membership (FC s) (CNum x) = Ok d /\ 0 <= d /\ d <= 1 /\ (d = 1 <-> x = pb s) /\
    (pa s < x -> x < pb s -> d = (x - pa s) / (pb s - pa s)) /\
    (pb s < x -> x < pc s -> d = (pc s - x) / (pc s - pb s)) /\
    (x <> pb s -> x <= pa s \/ pc s <= x -> d = 0).
Proof. exact (fun s x H1 H2 => C01_trimf_shape x (conj H1 H2)). Qed.
Print Assumptions C01_membership_shape.

Theorem C01_membership_monotone : forall s x y dx dy,
  membership (FC s) (CNum x) = Ok dx -> membership (FC s) (CNum y) = Ok dy ->
  (x <= y -> y <= pb s -> dx <= dy) /\ (pb s <= x -> x <= y -> dy <= dx).
Proof. exact C01_trimf_monotone. Qed.
Print Assumptions C01_membership_monotone.

Theorem C01_unordered_points_rejected : forall s x, ~ (pa s <= pb s /\ pb s <= pc s) ->
  membership (FC s) (CNum x) = Err AssertionError.
Proof. exact membership_invalid. Qed.
Print Assumptions C01_unordered_points_rejected.

Example C01_instance :
  let s := mkC "mid" 0 (qc 2 1) (qc 6 1) false in
  pa s <= pb s /\ pb s <= pc s /\ membership (FC s) (CNum (qc 3 1)) = Ok (qc 3 4).
Proof. cbn [pa pb pc]. unfold qc. split; [qlra|]. split; [qlra|]. qex. Qed.

(** ** C02 *)
Theorem C02_strong_partition : forall method (d : list (string * Qc)) v,
  (2 <= List.length d)%nat -> StronglySorted Qclt (map snd d) ->
  exists sets degrees, continuous_sets method d = Ok sets /\
    Forall2 (fun s m => membership (FC s) (CNum v) = Ok m) sets degrees /\
    ((exists p, In p (map snd d) /\ p <= v) -> (exists q, In q (map snd d) /\ v <= q) -> qsum degrees = 1) /\
    (forall i j di dj, nth_error degrees i = Some di -> nth_error degrees j = Some dj ->
       0 < di -> 0 < dj -> (i <= j)%nat -> (j <= S i)%nat) /\
    ((forall p, In p (map snd d) -> v < p) \/ (forall p, In p (map snd d) -> p < v) ->
       Forall (fun m => m = 0) degrees).
Proof. exact C02_all. Qed.
Print Assumptions C02_strong_partition.

Example C02_instance :
  let d := [("low", qc 0 1); ("mid", qc 2 1); ("high", qc 5 1)] in
  (2 <= List.length d)%nat /\ StronglySorted Qclt (map snd d).
Proof. simpl. split; [lia|]. repeat constructor. Qed.

(** ** C03 *)
Theorem C03_generation : forall method d, (2 <= List.length d)%nat ->
  exists sets, continuous_sets method d = Ok sets /\ List.length sets = List.length d /\
  forall i n p, nth_error d i = Some (n, p) ->
  exists s, nth_error sets i = Some s /\ c_name s = n /\ pb s = p /\ c_point s = false /\
    (i = 0%nat -> pa s = p) /\
    (forall j q, i = S j -> nth_error (map snd d) j = Some q -> pa s = q) /\
    (S i = List.length d -> pc s = p) /\
    (forall q, nth_error (map snd d) (S i) = Some q -> pc s = q).
Proof. exact C03_sets. Qed.
Print Assumptions C03_generation.

Theorem C03_sorted_peaks_valid : forall method d sets s, StronglySorted Qcle (map snd d) ->
  continuous_sets method d = Ok sets -> In s sets -> pa s <= pb s /\ pb s <= pc s.
Proof. exact C03_valid. Qed.
Print Assumptions C03_sorted_peaks_valid.

Theorem C03_point_and_errors :
  (forall n p, exists s, continuous_sets "point_set" [(n, p)] = Ok [s] /\ c_name s = n /\ c_point s = true /\
     forall x, exists m, membership (FC s) (CNum x) = Ok m /\ (x = p -> m = 1) /\ (x <> p -> m = 0)) /\
  (forall method x, method <> "point_set" -> continuous_sets method [x] = Err ValueError) /\
  (forall method, continuous_sets method [] = Err IndexError).
Proof. exact C03_errors. Qed.
Print Assumptions C03_point_and_errors.

(** ** C04 *)
Theorem C04_repeated_first_peak : forall method n0 n1 p d sets ds,
  StronglySorted Qcle (p :: p :: map snd d) ->
  continuous_sets method ((n0, p) :: (n1, p) :: d) = Ok sets ->
  Forall2 (fun s m => membership (FC s) (CNum p) = Ok m) sets ds ->
  1 < qsum ds.
Proof. exact C04_repeated. Qed.
Print Assumptions C04_repeated_first_peak.

Theorem C04_default_labels_collapse : forall method name p rest sets show col d,
  continuous_sets method (zip (map show (p :: p :: rest)) (p :: p :: rest)) = Ok sets ->
  var_membership (mkV name (map FC sets)) col = Ok d ->
  (List.length d < List.length sets)%nat.
Proof. exact C04_collapse. Qed.
Print Assumptions C04_default_labels_collapse.

Theorem C04_equal_freq_fallback_repeats : forall qcut2 variable peaks,
  equal_freq None qcut2 variable = Ok peaks ->
  exists m rest, peaks = m :: m :: rest /\ In m variable /\ forall x, In x variable -> m <= x.
Proof. exact C04_fallback. Qed.
Print Assumptions C04_equal_freq_fallback_repeats.

Example C04_instance :
  equal_freq None (Some ([qc 1 1], qc 4 1)) [qc 1 1; qc 1 1; qc 4 1] = Ok [qc 1 1; qc 1 1; qc 4 1] /\
  StronglySorted Qcle [qc 1 1; qc 1 1; qc 4 1].
Proof. split; [reflexivity|]. repeat constructor; discriminate. Qed.

(** ** C05 *)
Theorem C05_alpha_cut_exact : forall s cut x d, 0 < cut -> cut <= 1 -> membership (FC s) (CNum x) = Ok d ->
  exists l r, alpha_cut s cut = Ok (l, r) /\ (l <= x /\ x <= r <-> cut <= d).
Proof. exact C05_cut_exact. Qed.
Print Assumptions C05_alpha_cut_exact.

Theorem C05_alpha_cut_zero_one : forall s, alpha_cut s 0 = Ok (pa s, pc s) /\ alpha_cut s 1 = Ok (pb s, pb s).
Proof. exact (fun s => conj (C05_cut_zero s) (C05_cut_one s)). Qed.
Print Assumptions C05_alpha_cut_zero_one.

Theorem C05_alpha_cut_nested : forall s c1 c2 l1 r1 l2 r2, pa s <= pb s /\ pb s <= pc s -> c1 <= c2 ->
  alpha_cut s c1 = Ok (l1, r1) -> alpha_cut s c2 = Ok (l2, r2) -> l1 <= l2 /\ l2 <= r2 /\ r2 <= r1.
Proof. exact C05_cut_nested. Qed.
Print Assumptions C05_alpha_cut_nested.

Theorem C05_alpha_cut_rejects : forall s cut, cut < 0 \/ 1 < cut -> alpha_cut s cut = Err ValueError.
Proof. exact alpha_cut_err. Qed.
Print Assumptions C05_alpha_cut_rejects.

Example C05_instance :
  let s := mkC "s" 0 (qc 2 1) (qc 6 1) false in
  membership (FC s) (CNum (qc 3 1)) = Ok (qc 3 4) /\ 0 < qc 1 2 /\ qc 1 2 <= 1.
Proof. split; [qex|]. split; unfold qc; qlra. Qed.

(** ** C06 *)
Theorem C06_intersection_is_height : forall s o,
  pa s <= pb s /\ pb s <= pc s -> pa o <= pb o /\ pb o <= pc o ->
  exists h, intersection (FC s) (FC o) = Ok h /\
    (forall x m n, membership (FC s) (CNum x) = Ok m -> membership (FC o) (CNum x) = Ok n -> qmin m n <= h) /\
    (exists x m n, membership (FC s) (CNum x) = Ok m /\ membership (FC o) (CNum x) = Ok n /\ qmin m n = h).
Proof. exact C06_height. Qed.
Print Assumptions C06_intersection_is_height.

Theorem C06_intersection_laws :
  (forall s o, intersection s o = intersection o s) /\
  (forall s o h, intersection s o = Ok h -> 0 <= h /\ h <= 1) /\
  (forall s, intersection (FC s) (FC s) = Ok 1) /\
  (forall s o, pa s <= pb s /\ pb s <= pc s -> pa o <= pb o /\ pb o <= pc o ->
     (intersection (FC s) (FC o) = Ok 1 <-> pb s = pb o)) /\
  (forall s n v, intersection (FC s) (FD n v) = Err ValueError /\ intersection (FD n v) (FC s) = Err ValueError).
Proof. exact C06_laws. Qed.
Print Assumptions C06_intersection_laws.

Example C06_instance :
  let s := mkC "s" 0 (qc 2 1) (qc 4 1) false in let o := mkC "o" (qc 2 1) (qc 4 1) (qc 4 1) false in
  (pa s <= pb s /\ pb s <= pc s) /\ (pa o <= pb o /\ pb o <= pc o) /\ intersection (FC s) (FC o) = Ok (qc 1 2).
Proof.
  cbn [pa pb pc]. unfold qc. split; [split; qlra|]. split; [split; qlra|].
  qex.
Qed.

(** ** C07 *)
Theorem C07_simmilarity_bounds : forall s o,
  - (1) < simmilarity_c s o /\ simmilarity_c s o <= 1 /\ simmilarity (FC s) (FC o) = Ok (simmilarity_c s o) /\
  (pb s - pa s <= pc s - pb s -> pb o - pa o <= pc o - pb o -> 0 <= simmilarity_c s o).
Proof. exact C07_bounds. Qed.
Print Assumptions C07_simmilarity_bounds.

Theorem C07_simmilarity_symmetric : forall s o, simmilarity s o = simmilarity o s.
Proof. exact C07_sym. Qed.
Print Assumptions C07_simmilarity_symmetric.

Theorem C07_simmilarity_shift_blind : forall s o k j n n' b b',
  simmilarity (FC (mkC n (pa s + k) (pb s + k) (pc s + k) b)) (FC (mkC n' (pa o + j) (pb o + j) (pc o + j) b'))
  = simmilarity (FC s) (FC o).
Proof. exact C07_shift. Qed.
Print Assumptions C07_simmilarity_shift_blind.

Theorem C07_simmilarity_self : forall s,
  (pc s - pb s <= pb s - pa s -> simmilarity (FC s) (FC s) = Ok 0) /\
  (pb s - pa s < pc s - pb s -> simmilarity (FC s) (FC s) = Ok 1).
Proof. exact C07_self. Qed.
Print Assumptions C07_simmilarity_self.

(** two valid sets with a negative simmilarity, and two with disjoint supports and simmilarity 1 *)
Theorem C07_degree_refuted : exists s o,
  (pa s <= pb s /\ pb s <= pc s) /\ (pa o <= pb o /\ pb o <= pc o) /\
  exists r, simmilarity (FC s) (FC o) = Ok r /\ r < 0.
Proof. exact C07_negative. Qed.
Print Assumptions C07_degree_refuted.
Theorem C07_location_refuted : exists s o,
  (pa s <= pb s /\ pb s <= pc s) /\ (pa o <= pb o /\ pb o <= pc o) /\ pc s < pa o /\
  simmilarity (FC s) (FC o) = Ok 1.
Proof. exact C07_disjoint. Qed.
Print Assumptions C07_location_refuted.

(** ** C08 *)
Theorem C08_jaccard_laws : forall a b,
  jaccard a b = jaccard b a /\ 0 <= jaccard a b /\ jaccard a b <= 1 /\
  (pc a <= pa b \/ pc b <= pa a -> jaccard a b = 0).
Proof. exact C08_laws. Qed.
Print Assumptions C08_jaccard_laws.
Theorem C08_jaccard_self : forall a, (pa a < pc a -> jaccard a a = 1) /\ (pa a = pc a -> jaccard a a = 0).
Proof. exact C08_self. Qed.
Print Assumptions C08_jaccard_self.
Theorem C08_jaccard_value : forall a b, pa a <= pb a /\ pb a <= pc a -> pa b <= pb b /\ pb b <= pc b ->
  pa a < pc b -> pa b < pc a -> pa a < pc a -> pa b < pc b ->
  exists h, intersection (FC a) (FC b) = Ok h /\
  jaccard a b = (qmin (pc a) (pc b) - qmax (pa a) (pa b)) / (qmax (pc a) (pc b) - qmin (pa a) (pa b)) * h.
Proof. exact C08_value. Qed.
Print Assumptions C08_jaccard_value.
Example C08_instance : let a := mkC "a" 0 1 (qc 2 1) false in pa a < pc a /\ jaccard a a = 1.
Proof. split; [cbn; unfold qc; qlra|]. apply jaccard_self. cbn; unfold qc; qlra. Qed.

(** ** C09 *)
Theorem C09_merge_covers : forall parse show a b x y,
  pa a <= pb a /\ pb a <= pc a -> pa b <= pb b /\ pb b <= pc b ->
  parse (c_name a) = Some x -> parse (c_name b) = Some y ->
  exists m, merge parse show a b = Ok m /\ (pa m <= pb m /\ pb m <= pc m) /\
    (pa m <= pa a /\ pa m <= pa b /\ (pa m = pa a \/ pa m = pa b)) /\
    (pc a <= pc m /\ pc b <= pc m /\ (pc m = pc a \/ pc m = pc b)) /\
    pb m + pb m = pb a + pb b /\ c_name m = show ((x + y) / two) /\ c_point m = false.
Proof. exact merge_spec. Qed.
Print Assumptions C09_merge_covers.
Theorem C09_merge_algebra : forall parse show a b,
  (forall m, merge parse show a b = Ok m -> merge parse show b a = Ok m) /\
  (forall m, merge parse show a a = Ok m -> pa m = pa a /\ pb m = pb a /\ pc m = pc a) /\
  (merge parse show a b = Err ValueError <-> parse (c_name a) = None \/ parse (c_name b) = None).
Proof. exact C09_algebra. Qed.
Print Assumptions C09_merge_algebra.

(** ** C10 *)
Theorem C10_discrete_degree : forall n v x m, membership (FD n v) x = Ok m -> (x = v -> m = 1) /\ (x <> v -> m = 0).
Proof. exact C10_degree. Qed.
Print Assumptions C10_discrete_degree.
Theorem C10_discrete_partition : forall (d : list (string * cell)) x ds,
  NoDup (map snd d) ->
  Forall2 (fun s m => membership s x = Ok m) (discrete_sets d) ds ->
  (In x (map snd d) -> qsum ds = 1) /\ (~ In x (map snd d) -> qsum ds = 0).
Proof. exact discrete_sum. Qed.
Print Assumptions C10_discrete_partition.
Theorem C10_discrete_intersection : forall n v n' v',
  intersection (FD n v) (FD n' v') = simmilarity (FD n v) (FD n' v') /\
  (intersection (FD n v) (FD n' v') = Ok 1 <-> n = n' /\ v = v') /\
  (intersection (FD n v) (FD n' v') = Ok 0 <-> ~ (n = n' /\ v = v')).
Proof. exact discrete_intersection. Qed.
Print Assumptions C10_discrete_intersection.
Example C10_instance : NoDup (map snd [("a", CStr "x"); ("b", CNum 1)]).
Proof. repeat constructor; simpl; intuition discriminate. Qed.

(** ** C11 *)
Theorem C11_variables_at_their_columns : forall show show_cell cont disc order clab dlab method,
  (forall k i, dget k order = Some i -> (i < List.length order)%nat) ->
  (forall k k' i, dget k order = Some i -> dget k' order = Some i -> k = k') ->
  (forall name points, In (name, points) cont ->
    exists sets, continuous_sets method (zip (col_labels show clab name points) points) = Ok sets) ->
  NoDup (dkeys cont) -> NoDup (dkeys disc) ->
  (forall k, In k (dkeys cont) \/ In k (dkeys disc) -> In k (dkeys order)) ->
  exists vars, get_fuzzy_variables show show_cell cont disc order clab dlab method = Ok vars /\
  List.length vars = List.length order /\
  forall name i, dget name order = Some i ->
    (forall values, In (name, values) disc ->
       nth_error vars i = Some (Some (mkV name (discrete_sets (zip (col_labels show_cell dlab name values) values))))) /\
    (forall points, In (name, points) cont -> ~ In name (dkeys disc) ->
       exists sets, continuous_sets method (zip (col_labels show clab name points) points) = Ok sets /\
       nth_error vars i = Some (Some (mkV name (map FC sets)))) /\
    (~ In name (dkeys cont) -> ~ In name (dkeys disc) -> nth_error vars i = Some None).
Proof. exact C11_variables. Qed.
Print Assumptions C11_variables_at_their_columns.
Theorem C11_default_labels : forall (A : Type) (show : A -> string) name points labels,
  col_labels show None name points = map show points /\
  (~ In name (dkeys labels) -> col_labels show (Some labels) name points = map show points) /\
  (forall ls, dget name labels = Some ls -> col_labels show (Some labels) name points = ls).
Proof. exact C11_labels. Qed.
Print Assumptions C11_default_labels.
Theorem C11_unknown_name_raises : forall show show_cell cont disc order clab dlab method,
  (forall k i, dget k order = Some i -> (i < List.length order)%nat) ->
  (forall k k' i, dget k order = Some i -> dget k' order = Some i -> k = k') ->
  (forall name points, In (name, points) cont ->
    exists sets, continuous_sets method (zip (col_labels show clab name points) points) = Ok sets) ->
  NoDup (dkeys cont) ->
  (exists k, (In k (dkeys cont) \/ In k (dkeys disc)) /\ ~ In k (dkeys order)) ->
  get_fuzzy_variables show show_cell cont disc order clab dlab method = Err KeyError.
Proof. exact C11_unknown_name. Qed.
Print Assumptions C11_unknown_name_raises.
Example C11_instance :
  let show := fun _ : Qc => "p" in let show_cell := fun _ : cell => "c" in
  let cont := [("age", [qc 0 1; qc 5 1])] in let disc := [("job", [CStr "x"; CStr "y"])] in
  let order := [("job", 0%nat); ("age", 1%nat)] in
  get_fuzzy_variables show show_cell cont disc order (Some [("age", ["low"; "high"])]) (Some [("job", ["X"; "Y"])]) "point_set"
  = Ok [Some (mkV "job" [FD "X" (CStr "x"); FD "Y" (CStr "y")]);
        Some (mkV "age" [FC (mkC "low" (qc 0 1) (qc 0 1) (qc 5 1) false); FC (mkC "high" (qc 0 1) (qc 5 1) (qc 5 1) false)])].
Proof. reflexivity. Qed.

(** ** C12 *)
Theorem C12_dataset_membership : forall X vars,
  NoDup (map fv_name vars) ->
  (forall v, In v vars -> NoDup (map fs_name (fv_sets v))) ->
  (forall row, In row X -> List.length row = List.length vars) ->
  (forall i v s row x, nth_error vars i = Some v -> In s (fv_sets v) -> In row X ->
     nth_error row i = Some x -> exists m, membership s x = Ok m) ->
  exists dm, dataset_membership X vars = Ok dm /\ dkeys dm = map fv_name vars /\
  forall i v, nth_error vars i = Some v ->
  exists d, dget (fv_name v) dm = Some d /\ dkeys d = map fs_name (fv_sets v) /\
  forall s, In s (fv_sets v) ->
  exists ms, dget (fs_name s) d = Some ms /\ List.length ms = List.length X /\
  forall r row x, nth_error X r = Some row -> nth_error row i = Some x ->
  exists m, nth_error ms r = Some m /\ membership s x = Ok m.
Proof. exact C12_membership. Qed.
Print Assumptions C12_dataset_membership.
Example C12_instance :
  let vars := [mkV "age" [FC (mkC "low" 0 0 (qc 5 1) false); FC (mkC "high" 0 (qc 5 1) (qc 5 1) false)];
               mkV "job" [FD "x" (CStr "x"); FD "y" (CStr "y")]] in
  let X := [[CNum 1; CStr "x"]; [CNum (qc 2 1); CStr "z"]] in
  rmap (fun dm => map (fun kv => (fst kv, dkeys (snd kv))) dm) (dataset_membership X vars)
  = Ok [("age", ["low"; "high"]); ("job", ["x"; "y"])].
Proof. vm_compute. reflexivity. Qed.
