(** * Properties C16-C22: rules *)
From Verif Require Import Prelude M_Fuzzy M_Rule S_Rule P_FuzzySet P_FuzzyVar P_Rule.
Open Scope Qc_scope.
Open Scope string_scope.
Open Scope list_scope.
Open Scope Qc_scope.

(** a small instance and rules used by the examples below *)
Definition ex_mem : imem :=
  [("age", [("young", qc 1 4); ("old", qc 3 4)]); ("car", [("red", 1); ("blue", 0)])].
Definition ex_rules : list (rule string) :=
  [mkR [("age", "young")] 0%Z (qc 1 2); mkR [("age", "old"); ("car", "red")] 1%Z 1; mkR [("car", "blue")] 0%Z 1].

(** ** C16 *)
Theorem C16_matching_is_minimum : forall (m : imem) (r : rule string), r_ant r <> [] ->
  (forall f v, In (f, v) (r_ant r) -> exists d, knows m f v d) ->
  exists x, matching m r = Ok x /\
    (exists f v, In (f, v) (r_ant r) /\ knows m f v x) /\
    (forall f v d, In (f, v) (r_ant r) -> knows m f v d -> x <= d).
Proof. exact C16_min. Qed.
Print Assumptions C16_matching_is_minimum.

Theorem C16_matching_unknown_is_zero : forall (m : imem) (r : rule string) f v,
  In (f, v) (r_ant r) -> (forall d, ~ knows m f v d) -> matching m r = Ok 0.
Proof. exact C16_unknown. Qed.
Print Assumptions C16_matching_unknown_is_zero.

Theorem C16_matching_empty_raises : forall m c w, matching m (mkR [] c w) = Err ValueError.
Proof. exact C16_empty. Qed.
Print Assumptions C16_matching_empty_raises.

Theorem C16_matching_unit_interval : forall m r x,
  (forall f v d, knows m f v d -> 0 <= d /\ d <= 1) -> matching m r = Ok x -> 0 <= x /\ x <= 1.
Proof. exact matching_01. Qed.
Print Assumptions C16_matching_unit_interval.

Theorem C16_matching_order_irrelevant : forall m (r r' : rule string),
  (forall l, In l (r_ant r) <-> In l (r_ant r')) -> matching m r = matching m r'.
Proof. exact C16_set. Qed.
Print Assumptions C16_matching_order_irrelevant.

Example C16_instance :
  matching ex_mem (mkR [("age", "old"); ("car", "red")] 1%Z 1) = Ok (qc 3 4) /\
  matching ex_mem (mkR [("age", "old"); ("car", "green")] 1%Z 1) = Ok 0.
Proof. split; qex. Qed.

(** ** C17 *)
Theorem C17_multi_matching_is_minimum_of_sums : forall m (r : rule (list string)), r_ant r <> [] ->
  (forall f vs v, In (f, vs) (r_ant r) -> In v vs -> exists d, knows m f v d) ->
  exists x, matching_multi m r = Ok x /\
    (exists f vs, In (f, vs) (r_ant r) /\ group_degree m f vs x) /\
    (forall f vs s, In (f, vs) (r_ant r) -> group_degree m f vs s -> x <= s).
Proof. exact C17_min. Qed.
Print Assumptions C17_multi_matching_is_minimum_of_sums.

Theorem C17_multi_matching_unknown_is_zero : forall m (r : rule (list string)) f vs v,
  In (f, vs) (r_ant r) -> In v vs -> (forall d, ~ knows m f v d) -> matching_multi m r = Ok 0.
Proof. exact C17_unknown. Qed.
Print Assumptions C17_multi_matching_unknown_is_zero.

Theorem C17_multi_matching_unit_interval : forall m (r : rule (list string)) x,
  (forall f row, dget f m = Some row -> (forall v d, In (v, d) row -> 0 <= d) /\ qsum (map snd row) = 1) ->
  (forall f vs, In (f, vs) (r_ant r) -> NoDup vs) ->
  matching_multi m r = Ok x -> 0 <= x /\ x <= 1.
Proof. exact C17_unit. Qed.
Print Assumptions C17_multi_matching_unit_interval.

Theorem C17_multi_matching_monotone : forall m f vs v l1 l2 c w x y,
  (forall f v d, knows m f v d -> 0 <= d) ->
  matching_multi m (mkR (l1 ++ (f, vs) :: l2) c w) = Ok x ->
  matching_multi m (mkR (l1 ++ (f, v :: vs) :: l2) c w) = Ok y ->
  (exists d, knows m f v d) -> x <= y.
Proof. exact C17_mono. Qed.
Print Assumptions C17_multi_matching_monotone.

Example C17_instance :
  matching_multi ex_mem (mkR [("age", ["young"; "old"]); ("car", ["blue"; "red"])] 1%Z 1) = Ok 1 /\
  matching_multi ex_mem (mkR [("age", ["old"]); ("car", ["blue"; "red"])] 1%Z 1) = Ok (qc 3 4) /\
  (forall f row, dget f ex_mem = Some row -> (forall v d, In (v, d) row -> 0 <= d) /\ qsum (map snd row) = 1).
Proof.
  split; [qex|]. split; [qex|]. intros f row. cbn [dget ex_mem].
  destruct (eqb f "age"); [|destruct (eqb f "car"); [|discriminate]]; intro E; injection E as <-; (split; [|qex]);
    intros v d [H|[H|[]]]; injection H as <- <-; unfold qc; qlra.
Qed.

(** ** C18 *)
Theorem C18_simplify_shortest_literal : forall V (len : V -> nat) (r : rule V),
  r_cons (simplify len r) = r_cons r /\ r_weight (simplify len r) = r_weight r /\
  map fst (r_ant (simplify len r)) = first_occurrences (map fst (r_ant r)) /\
  (forall f v, In (f, v) (r_ant (simplify len r)) -> first_shortest len (r_ant r) f v) /\
  simplify len (simplify len r) = simplify len r.
Proof. exact @C18_shape. Qed.
Print Assumptions C18_simplify_shortest_literal.

Theorem C18_simplify_keeps_matching : forall m (r : rule (list string)),
  (forall f v d, knows m f v d -> 0 <= d) ->
  (forall f vs, In (f, vs) (r_ant r) -> NoDup vs /\ forall v, In v vs -> exists d, knows m f v d) ->
  (forall f vs ws, In (f, vs) (r_ant r) -> In (f, ws) (r_ant r) -> incl vs ws \/ incl ws vs) ->
  matching_multi m (simplify (@List.length string) r) = matching_multi m r.
Proof. exact C18_matching. Qed.
Print Assumptions C18_simplify_keeps_matching.

Example C18_instance :
  simplify (@List.length string) (mkR [("age", ["young"; "old"]); ("car", ["red"]); ("age", ["old"])] 1%Z 1)
  = mkR [("age", ["old"]); ("car", ["red"])] 1%Z 1.
Proof. reflexivity. Qed.

(** ** C19 *)
Theorem C19_vote_is_first_maximal_class : forall m rules ms,
  Forall2 (fun r x => matching m r = Ok x) rules ms -> rules <> [] ->
  exists c, weighted_vote rules m = Ok c /\
    (exists l1 r l2, rules = l1 ++ r :: l2 /\ r_cons r = c /\
       forall r', In r' l1 -> support rules ms (r_cons r') < support rules ms c) /\
    (forall r', In r' rules -> support rules ms (r_cons r') <= support rules ms c).
Proof. exact C19_vote. Qed.
Print Assumptions C19_vote_is_first_maximal_class.

Theorem C19_empty_rule_list_raises : forall m, weighted_vote [] m = Err ValueError.
Proof. exact C19_empty_list. Qed.
Print Assumptions C19_empty_rule_list_raises.

Theorem C19_empty_antecedent_raises : forall m rules r,
  In r rules -> r_ant r = [] -> weighted_vote rules m = Err ValueError.
Proof. exact C19_empty_rule. Qed.
Print Assumptions C19_empty_antecedent_raises.

Example C19_instance :
  Forall2 (fun r x => matching ex_mem r = Ok x) ex_rules [qc 1 4; qc 3 4; 0] /\ weighted_vote ex_rules ex_mem = Ok 1%Z.
Proof. split; [repeat constructor; qex|reflexivity]. Qed.

(** ** C20 *)
Definition ex_vars : list fvar :=
  [mkV "age" [FC (mkC "young" 0 0 (qz 10) false); FC (mkC "old" 0 (qz 10) (qz 10) false)];
   mkV "car" [FD "red" (CStr "r"); FD "blue" (CStr "b")]].

Theorem C20_crisp_iff_matching_at_cut : forall vars (x : string -> cell) m r cut cr d,
  (forall v s, In v vars -> In s (fv_sets v) ->
     exists e, knows m (fv_name v) (fs_name s) e /\ membership s (x (fv_name v)) = Ok e) ->
  (forall v s t, In v vars -> In s (fv_sets v) -> In t (fv_sets v) -> fs_name s = fs_name t -> s = t) ->
  (forall v w, In v vars -> In w vars -> fv_name v = fv_name w -> v = w) ->
  0 < cut -> cut <= 1 -> to_crisp cut vars r = Ok cr -> matching m r = Ok d ->
  r_cons cr = r_cons r /\ r_weight cr = r_weight r /\ map fst (r_ant cr) = map fst (r_ant r) /\
  (cut <= d <-> Forall (crisp_holds vars x) (r_ant cr)).
Proof. exact C20_crisp. Qed.
Print Assumptions C20_crisp_iff_matching_at_cut.

Theorem C20_crisp_defined : forall vars r cut,
  (forall f n, In (f, n) (r_ant r) -> exists s, find_set vars f n = Ok s) ->
  0 <= cut -> cut <= 1 -> exists cr, to_crisp cut vars r = Ok cr.
Proof. exact C20_ok. Qed.
Print Assumptions C20_crisp_defined.

Theorem C20_bad_cut_raises : forall vars r cut,
  (forall f n, In (f, n) (r_ant r) -> exists s, find_set vars f n = Ok s) ->
  (exists f n c, In (f, n) (r_ant r) /\ find_set vars f n = Ok (FC c)) ->
  cut < 0 \/ 1 < cut -> to_crisp cut vars r = Err ValueError.
Proof. exact C20_err. Qed.
Print Assumptions C20_bad_cut_raises.

Example C20_instance :
  to_crisp (qc 1 2) ex_vars (mkR [("age", "old"); ("car", "red")] 1%Z 1)
    = Ok (mkR [("age", CrInterval (qz 5) (qz 10)); ("car", CrName "red")] 1%Z 1) /\
  to_crisp (qz 2) ex_vars (mkR [("age", "old")] 1%Z 1) = Err ValueError.
Proof. split; qex. Qed.

(** ** C21 *)
Theorem C21_mapping_picks_best_set : forall r origin dest mf r',
  map_rule_variables r origin dest mf = Ok r' ->
  r_cons r' = r_cons r /\ r_weight r' = r_weight r /\
  Forall2 (fun l l' => fst l' = fst l /\
     exists o v b, find_set origin (fst l) (snd l) = Ok o /\ In v dest /\ fv_name v = fst l /\
       first_best (fun s => set_key mf s o) (fv_sets v) b /\ snd l' = fs_name b) (r_ant r) (r_ant r').
Proof. exact C21_map. Qed.
Print Assumptions C21_mapping_picks_best_set.

Theorem C21_mapping_identity : forall r vars, NoDup (map fv_name vars) -> (forall v, In v vars -> separated v) ->
  (forall f n, In (f, n) (r_ant r) -> exists s, find_set vars f n = Ok s) ->
  map_rule_variables r vars vars MapIntersection = Ok r.
Proof. exact C21_identity. Qed.
Print Assumptions C21_mapping_identity.

Theorem C21_different_universes_raise : forall r origin dest mf,
  ~ (forall k, In k (map fv_name origin) <-> In k (map fv_name dest)) ->
  map_rule_variables r origin dest mf = Err ValueError.
Proof. exact C21_universes. Qed.
Print Assumptions C21_different_universes_raise.

Theorem C21_unknown_map_function_raises : forall r origin dest f n l,
  r_ant r = (f, n) :: l -> (exists o, find_set origin f n = Ok o) ->
  map_rule_variables r origin dest MapOther = Err ValueError.
Proof. exact C21_other. Qed.
Print Assumptions C21_unknown_map_function_raises.

Example C21_instance :
  let dest := [mkV "age" [FC (mkC "a" 0 0 (qz 5) false); FC (mkC "b" 0 (qz 5) (qz 10) false);
                          FC (mkC "c" (qz 5) (qz 10) (qz 10) false)];
               mkV "car" [FD "red" (CStr "r"); FD "blue" (CStr "b")]] in
  map_rule_variables (mkR [("age", "old"); ("car", "blue")] 1%Z 1) ex_vars dest MapIntersection
    = Ok (mkR [("age", "c"); ("car", "blue")] 1%Z 1) /\
  NoDup (map fv_name ex_vars) /\ (forall v, In v ex_vars -> separated v).
Proof.
  cbv zeta. split; [qex|]. split.
  - repeat constructor; cbn; intuition discriminate.
  - intros v [<-|[<-|[]]].
    + split; [repeat constructor; cbn; intuition discriminate|left].
      exists [mkC "young" 0 0 (qz 10) false; mkC "old" 0 (qz 10) (qz 10) false]. split; [reflexivity|]. split.
      * intros c [<-|[<-|[]]]; cbn; split; unfold qz, inject_Z; qlra.
      * repeat constructor; cbn; intuition. discriminate.
    + split; [repeat constructor; cbn; intuition discriminate|right].
      exists [("red", CStr "r"); ("blue", CStr "b")]. reflexivity.
Qed.

(** ** C22 *)
Theorem C22_json_lists_the_literals : forall vars r, NoDup (map fst (r_ant r)) ->
  (forall f n, In (f, n) (r_ant r) -> exists s, find_set vars f n = Ok s) ->
  exists things, to_json vars r = Ok (r_ant r, r_cons r, r_weight r, things) /\
    Forall2 (fun l th => exists s, find_set vars (fst l) (snd l) = Ok s /\
       fst (fst th) = fst l /\ snd (fst th) = snd l /\
       snd th = match s with FC c => Some (pa c, pb c, pc c) | FD _ _ => None end) (r_ant r) things.
Proof. exact C22_json. Qed.
Print Assumptions C22_json_lists_the_literals.

Theorem C22_json_multi_lists_the_literals : forall vars r, NoDup (map fst (r_ant r)) ->
  (forall f ns n, In (f, ns) (r_ant r) -> In n ns -> exists s, find_set vars f n = Ok s) ->
  (forall f ns, In (f, ns) (r_ant r) -> exists v, In v vars /\ fv_name v = f) ->
  exists things, to_json_multi vars r = Ok (r_ant r, r_cons r, r_weight r, things) /\
    Forall2 (fun l th => exists s, find_set vars (fst l) (snd l) = Ok s /\
       fst (fst th) = fst l /\ snd (fst th) = snd l /\
       snd th = match s with FC c => Some (pa c, pb c, pc c) | FD _ _ => None end)
      (List.concat (map (fun fv => map (fun n => (fst fv, n)) (snd fv)) (r_ant r))) things.
Proof. exact C22_multi. Qed.
Print Assumptions C22_json_multi_lists_the_literals.

Theorem C22_json_unknown_name_raises : forall vars r f n,
  In (f, n) (r_ant r) -> find_set vars f n = Err KeyError -> to_json vars r = Err KeyError.
Proof. exact C22_unknown. Qed.
Print Assumptions C22_json_unknown_name_raises.

(** [find_set] finds the set with that name in the variable with that name, and fails with
    KeyError when there is none *)
Theorem C22_lookup_found : forall vars v s, NoDup (map fv_name vars) -> In v vars ->
  NoDup (map fs_name (fv_sets v)) -> In s (fv_sets v) -> find_set vars (fv_name v) (fs_name s) = Ok s.
Proof. exact find_set_ok. Qed.
Print Assumptions C22_lookup_found.

Theorem C22_lookup_sound : forall vars f n s, find_set vars f n = Ok s ->
  exists v, In v vars /\ fv_name v = f /\ In s (fv_sets v) /\ fs_name s = n.
Proof. exact find_set_In. Qed.
Print Assumptions C22_lookup_sound.

Theorem C22_lookup_unknown : forall vars f n,
  (forall v s, In v vars -> fv_name v = f -> In s (fv_sets v) -> fs_name s = n -> False) ->
  find_set vars f n = Err KeyError.
Proof. exact find_set_unknown. Qed.
Print Assumptions C22_lookup_unknown.

Example C22_instance :
  to_json ex_vars (mkR [("age", "old"); ("car", "red")] 1%Z 1)
  = Ok ([("age", "old"); ("car", "red")], 1%Z, 1, [("age", "old", Some (0, qz 10, qz 10)); ("car", "red", None)]) /\
  to_json ex_vars (mkR [("age", "ancient")] 1%Z 1) = Err KeyError.
Proof. split; reflexivity. Qed.
