(** * Properties C52-C58: counterfactual explanations *)
From Verif Require Import Prelude M_Fuzzy M_Rule S_Rule P_Rule M_Metrics S_Metrics P_Metrics P_Factual P_FuzzyVar M_Counterfactual S_Counterfactual P_Counterfactual.
Open Scope string_scope.
Open Scope list_scope.
Open Scope Qc_scope.

(** Examples: a numerical feature x and a categorical one z; the vote on [kx_m] is class 1. *)
Definition kx_m : imem := [("x", [("low", qc 3 4); ("mid", qc 1 4); ("high", 0)]); ("z", [("a", 1); ("b", 0)])].
Definition kx_r1 : rule string := mkR [("x", "low")] 1%Z (qc 4 5).
Definition kx_r2 : rule string := mkR [("x", "high"); ("z", "b")] 0%Z 1.
Definition kx_r3 : rule string := mkR [("x", "mid")] 0%Z 1.
Definition kx_r4 : rule string := mkR [("x", "mid"); ("z", "b")] 2%Z (qc 3 2).
Definition kx_rules := [kx_r1; kx_r2; kx_r3; kx_r4].
Definition kx_same (f a b : string) : bool := if string_dec a b then true else false.

Lemma kx_proper : proper kx_m.
Proof.
  split; [repeat constructor; cbn; intuition congruence|]. intros f row [H|[H|[]]]; injection H as <- <-; (split; [discriminate|repeat constructor; cbn; intuition congruence]).
Qed.

(** ** C52.  apply_changes returns a new value; the instance it is given is a value of the model
    and so unchanged (the code works on copy.deepcopy of the instance). *)
Theorem C52_apply_changes : forall r m, proper m ->
  exists m' ch, apply_changes r m = Ok (m', ch) /\ applied r m m' /\ changes r m ch.
Proof. intros r m [N H]. apply apply_gen; [intros f row I; apply (H _ _ I)|assumption]. Qed.
Print Assumptions C52_apply_changes.

Theorem C52_wanted_set_is_strongest_afterwards : forall r m m' ch f v row, proper m ->
  apply_changes r m = Ok (m', ch) -> wants r f v -> In (f, row) m -> In v (map fst row) ->
  exists row', In (f, row') m' /\ map fst row' = map fst row /\ strongest row' v.
Proof.
  intros r m m' ch f v row PM E W I K. destruct (C52_apply_changes r m PM) as (m2 & ch2 & E2 & A & _). rewrite E in E2. injection E2 as <- <-.
  assert (X : exists row', In (f, row') m' /\ row_applied r f row row').
  { clear - A I. induction A as [|[g x] [g' y] m m' [Q R] A IH]; [destruct I|]. cbn in *. subst g'. destruct I as [I|I]; [injection I as -> ->; exists y; auto|]. destruct (IH I) as (row' & ? & ?). exists row'. auto. }
  destruct X as (row' & I' & R). exists row'. split; [assumption|]. destruct R as [[-> [N|(w & W' & S)]]|(w & W' & S & ->)].
  - exfalso. apply (N _ W).
  - split; [reflexivity|]. rewrite (wants_fun W W'). assumption.
  - rewrite (wants_fun W' W) in *. split.
    + unfold crisp_row. rewrite map_map. reflexivity.
    + destruct PM as [_ PM]. destruct (PM _ _ I) as [_ ND]. clear - K ND. apply in_map_iff in K. destruct K as ([s d] & Q & K). cbn in Q. subst s. apply in_split in K. destruct K as (l1 & l2 & ->).
      unfold strongest, crisp_row. rewrite map_app. cbn [map fst snd]. destruct (string_dec v v) as [_|]; [|congruence].
      exists (crisp_row v l1), 1, (crisp_row v l2). split; [reflexivity|].
      rewrite map_app in ND. cbn [map fst] in ND. apply NoDup_remove_2 in ND. split.
      * intros x Hx. apply in_map_iff in Hx. destruct Hx as ([t e] & <- & J). cbn [fst snd]. destruct (string_dec t v) as [->|]; [|qlra]. exfalso. apply ND. apply in_or_app. left. apply (in_map fst) in J. exact J.
      * intros x Hx. apply in_map_iff in Hx. destruct Hx as ([t e] & <- & J). cbn [fst snd]. destruct (string_dec t v); qlra.
Qed.
Print Assumptions C52_wanted_set_is_strongest_afterwards.

(** features the rule does not mention, and features whose wanted set is already strongest, keep
    their degrees; the keys stay the same *)
Theorem C52_others_untouched : forall r m m' ch f row, proper m -> apply_changes r m = Ok (m', ch) -> In (f, row) m ->
  map fst m' = map fst m /\ ((forall v, wants r f v -> strongest row v) -> In (f, row) m').
Proof.
  intros r m m' ch f row PM E I. destruct (C52_apply_changes r m PM) as (m2 & ch2 & E2 & A & _). rewrite E in E2. injection E2 as <- <-. split.
  - clear - A. induction A as [|x y m m' [Q R] A IH]; [reflexivity|]. cbn. f_equal; assumption.
  - intro H. clear - A I H. induction A as [|[g x] [g' y] m m' [Q R] A IH]; [destruct I|]. cbn in *. subst g'. destruct I as [I|I]; [injection I as -> ->; left|right; auto].
    destruct R as [[-> _]|(w & W & S & _)]; [reflexivity|]. exfalso. auto.
Qed.
Print Assumptions C52_others_untouched.
Example C52_instance : proper kx_m /\
  apply_changes kx_r4 kx_m = Ok ([("x", [("low", 0); ("mid", 1); ("high", 0)]); ("z", [("a", 0); ("b", 1)])], [("x", "mid"); ("z", "b")]) /\
  apply_changes kx_r1 kx_m = Ok (kx_m, []).
Proof. split; [exact kx_proper|]. split; vm_compute; reflexivity. Qed.

(** ** C53 *)
Lemma mapM_dist (g : rule string -> res Qc) (dist : rule string -> Qc) (l : list (rule string)) : (forall r, In r l -> g r = Ok (dist r)) ->
  mapM (fun r => do d <- g r; Ok (r, d)) l = Ok (map (fun r => (r, dist r)) l).
Proof. induction l as [|r l IH]; intro H; [reflexivity|]. cbn [mapM]. rewrite H by (left; reflexivity). cbn [bind]. rewrite IH by (intros; apply H; right; assumption). reflexivity. Qed.
Lemma other_class_In c rules r : In r (other_class c rules) <-> In r rules /\ r_cons r <> c.
Proof. unfold other_class. rewrite filter_In, negb_true_iff, Z.eqb_neq. tauto. Qed.

(** [cands] are the rules of another class, in rule order; [dist] their distances.  Either no
    candidate makes the vote leave [c], or the result is a closest valid counterfactual. *)
Theorem C53_i_counterfactual : forall same m rules c num cands dist,
  proper m -> rules <> [] -> (forall r, In r rules -> r_ant r <> []) ->
  cands = filter (fun r => negb (Z.eqb (r_cons r) c)) rules ->
  (forall r, In r cands -> cf_dist_instance same r m num = Ok (dist r)) ->
  (i_counterfactual same m rules c num = Ok None /\ forall r k, In r cands -> leads_to (weighted_vote rules) r m k -> k = c) \/
  (exists ch, i_counterfactual same m rules c num = Ok (Some ch) /\
     closest_flip (weighted_vote rules) m c cands dist (fun k => k <> c) ch /\ (weighted_vote rules m = Ok c -> ch <> [])).
Proof.
  intros same m rules c num cands dist PM N A -> D. unfold i_counterfactual, i_candidates. fold (other_class c rules). rewrite (mapM_dist (fun r => cf_dist_instance same r m num) dist); [|exact D]. cbn [bind].
  apply counterfactual_gen; assumption.
Qed.
Print Assumptions C53_i_counterfactual.
Example C53_instance : i_counterfactual kx_same kx_m kx_rules 1 ["x"] = Ok (Some [("x", "mid")]) /\
  (forall r, In r kx_rules -> r_ant r <> []) /\ weighted_vote kx_rules kx_m = Ok 1%Z /\
  map (fun r => cf_dist_instance kx_same r kx_m ["x"]) (other_class 1 kx_rules) = [Ok (qz 2); Ok (qc 3 8); Ok (qc 11 8)] /\
  i_counterfactual kx_same kx_m [kx_r1; mkR [("x", "high")] 0%Z 0] 1 ["x"] = Ok None.
Proof.
  repeat split; try (vm_compute; reflexivity). intros r [<-|[<-|[<-|[<-|[]]]]]; discriminate.
Qed.

(** ** C54: the distance is the matching-weighted distance to the factual rules; only candidates
    at a positive distance are considered *)
Theorem C54_f_counterfactual : forall same factual m rules c num tau cands deg rd,
  proper m -> rules <> [] -> (forall r, In r rules -> r_ant r <> []) ->
  (forall fr, In fr factual -> matching m fr = Ok (deg fr)) ->
  (forall r fr, In r rules -> r_cons r <> c -> In fr factual -> cf_dist_rule same r fr m num tau = Ok (rd r fr)) ->
  let dist r := qsum (map (fun fr => deg fr * rd r fr) factual) in
  cands = filter (fun r => negb (Z.eqb (r_cons r) c) && qltb 0 (dist r)) rules ->
  (f_counterfactual same factual m rules c num tau = Ok None /\ forall r k, In r cands -> leads_to (weighted_vote rules) r m k -> k = c) \/
  (exists ch, f_counterfactual same factual m rules c num tau = Ok (Some ch) /\
     closest_flip (weighted_vote rules) m c cands dist (fun k => k <> c) ch /\ (weighted_vote rules m = Ok c -> ch <> [])).
Proof.
  intros same factual m rules c num tau cands deg rd PM N A MD RD dist ->. unfold f_counterfactual.
  rewrite (mapM_dist (f_distance same factual m num tau) dist).
  - cbn [bind]. replace (filter (fun cf => qltb 0 (snd cf)) (map (fun r => (r, dist r)) (other_class c rules))) with (map (fun r => (r, dist r)) (filter (fun r => negb (Z.eqb (r_cons r) c) && qltb 0 (dist r)) rules)).
    + apply counterfactual_gen; assumption.
    + unfold other_class. clear. induction rules as [|r l IH]; [reflexivity|]. cbn [filter]. destruct (Z.eqb (r_cons r) c); cbn [negb andb]; [exact IH|]. cbn [map filter snd]. destruct (qltb 0 (dist r)); cbn [map]; rewrite IH; reflexivity.
  - intros r I. apply other_class_In in I. destruct I as [I K]. unfold f_distance, dist.
    assert (G : forall l acc, (forall fr, In fr l -> In fr factual) -> foldM (fun acc fr => do md <- matching m fr; do d <- cf_dist_rule same r fr m num tau; Ok (acc + md * d)) acc l = Ok (acc + qsum (map (fun fr => deg fr * rd r fr) l))).
    { induction l as [|fr l IH]; intros acc H; cbn [foldM map]; [rewrite qsum_nil, Qcplus_0_r; reflexivity|]. rewrite MD, RD; try assumption; try (apply H; left; reflexivity). cbn [bind]. rewrite IH by (intros; apply H; right; assumption). rewrite qsum_cons, Qcplus_assoc. reflexivity. }
    rewrite G by auto. rewrite Qcplus_0_l. reflexivity.
Qed.
Print Assumptions C54_f_counterfactual.

(** a rule of another class with the antecedent of the factual rule is at distance 0 and never
    considered, although it would flip the vote: here the vote on [z1] is 0 while class 1 is
    explained, the other rule is at distance 0, and the result is None *)
Definition zx_r1 : rule string := mkR [("x", "low")] 1%Z (qc 1 2).
Definition zx_r2 : rule string := mkR [("x", "low")] 0%Z 1.
Theorem C54_distance_zero_never_considered_refuted :
  exists m rules factual c k, proper m /\ In zx_r2 rules /\ r_cons zx_r2 <> c /\ leads_to (weighted_vote rules) zx_r2 m k /\ k <> c /\
    f_counterfactual kx_same factual m rules c ["x"] (qc 1 2) = Ok None.
Proof.
  exists kx_m, [zx_r1; zx_r2], [zx_r1], 1%Z, 0%Z. split; [exact kx_proper|]. split; [right; left; reflexivity|]. split; [discriminate|].
  split; [|split; [discriminate|vm_compute; reflexivity]].
  destruct (C52_apply_changes zx_r2 kx_m kx_proper) as (m' & ch & E & A & _). assert (E' : apply_changes zx_r2 kx_m = Ok (kx_m, [])) by (vm_compute; reflexivity). rewrite E in E'. injection E' as -> ->.
  exists kx_m. split; [assumption|vm_compute; reflexivity].
Qed.
Print Assumptions C54_distance_zero_never_considered_refuted.
Example C54_instance : f_counterfactual kx_same [kx_r1] kx_m kx_rules 1 ["x"] (qc 1 2) = Ok (Some [("x", "mid")]) /\
  map (fun r => f_distance kx_same [kx_r1] kx_m ["x"] (qc 1 2) r) (other_class 1 kx_rules) = [Ok (qc 3 4); Ok (qc 3 16); Ok (qc 9 16)].
Proof. split; vm_compute; reflexivity. Qed.

Lemma mapM_nth A B (f : A -> res B) l ys : List.length ys = List.length l ->
  (forall i x, nth_error l i = Some x -> exists y, f x = Ok y /\ nth_error ys i = Some y) -> mapM f l = Ok ys.
Proof.
  revert ys. induction l as [|x l IH]; intros ys L H; [destruct ys; [reflexivity|discriminate]|]. destruct ys as [|y ys]; [discriminate|].
  destruct (H 0%nat x eq_refl) as (y' & E & Q). cbn in Q. injection Q as <-. cbn. rewrite E. cbn [bind]. rewrite (IH ys); [reflexivity|cbn in L; lia|]. intros i z Hz. apply (H (S i) z Hz).
Qed.

(** ** C55: the distance is that of the decoded instance to the changed instance, in which each
    feature takes the name of its strongest set, read as a number in continuous columns *)
Theorem C55_d_counterfactual : forall parse decoded m rules c continuous discrete mad cands dist,
  proper m -> rules <> [] -> (forall r, In r rules -> r_ant r <> []) ->
  cands = filter (fun r => negb (Z.eqb (r_cons r) c)) rules ->
  (forall r, In r cands -> exists m' names cells, applied r m m' /\ Forall2 (fun fr n => strongest (snd fr) n) m' names /\
     List.length cells = List.length names /\
     (forall i n, nth_error names i = Some n ->
        (In i continuous /\ exists q, parse n = Ok q /\ nth_error cells i = Some (CNum q)) \/ (~ In i continuous /\ nth_error cells i = Some (CStr n))) /\
     moth decoded cells continuous discrete mad = Ok (dist r)) ->
  (d_counterfactual parse decoded m rules c continuous discrete mad = Ok None /\ forall r k, In r cands -> leads_to (weighted_vote rules) r m k -> k = c) \/
  (exists ch, d_counterfactual parse decoded m rules c continuous discrete mad = Ok (Some ch) /\
     closest_flip (weighted_vote rules) m c cands dist (fun k => k <> c) ch /\ (weighted_vote rules m = Ok c -> ch <> [])).
Proof.
  intros parse decoded m rules c continuous discrete mad cands dist PM N A -> D. unfold d_counterfactual. fold (other_class c rules) in D.
  rewrite (mapM_dist (d_distance parse decoded m continuous discrete mad) dist); [cbn [bind]; apply counterfactual_gen; assumption|].
  intros r I. destruct (D r I) as (m' & names & cells & A' & F & L & C & E). unfold d_distance. destruct (C52_apply_changes r m PM) as (m2 & ch & E2 & A2 & _).
  rewrite E2. cbn [bind fst]. rewrite (applied_fun A2 A').
  assert (M1 : mapM (fun fr : string * dict string Qc => strongest_set (snd fr)) m' = Ok names).
  { clear - F. induction F as [|fr n m' names S F IH]; [reflexivity|]. cbn. rewrite <- strongest_iff in S. rewrite S. cbn [bind]. rewrite IH. reflexivity. }
  rewrite M1. cbn [bind].
  assert (M2 : mapM (fun ix : nat * string => if memb (fst ix) continuous then do q <- parse (snd ix); Ok (CNum q) else Ok (CStr (snd ix))) (enumerate names) = Ok cells).
  { clear - L C. apply mapM_nth; [unfold enumerate, zip; rewrite combine_length, seq_length, Nat.min_id; assumption|]. intros i [j n] En. apply enumerate_nth_inv in En. cbn [fst snd] in En. destruct En as [-> En]. cbn [fst snd]. destruct (C i n En) as [(Ic & q & P & Q)|(Nc & Q)].
    + rewrite <- memb_In in Ic. rewrite Ic, P. cbn. eauto.
    + rewrite <- memb_not_In in Nc. rewrite Nc. eauto. }
  rewrite M2. cbn [bind]. exact E.
Qed.

Print Assumptions C55_d_counterfactual.
(** two crisp rules on a fuzzified number: set names are numbers *)
Definition dx_m : imem := [("x", [("1.0", 1); ("2.0", 0); ("4.0", 0)]); ("z", [("a", 1); ("b", 0)])].
Definition dx_parse (n : string) : res Qc :=
  if string_dec n "1.0" then Ok 1 else if string_dec n "2.0" then Ok (qz 2) else if string_dec n "4.0" then Ok (qz 4) else Err ValueError.
Definition dx_rules : list (rule string) := [mkR [("x", "1.0")] 1%Z 1; mkR [("x", "4.0")] 0%Z 1; mkR [("x", "2.0")] 0%Z 1].
Example C55_instance : d_counterfactual dx_parse [CNum 1; CStr "a"] dx_m dx_rules 1 [0%nat] [1%nat] [(0%nat, 1)] = Ok (Some [("x", "2.0")]) /\
  map (d_distance dx_parse [CNum 1; CStr "a"] dx_m [0%nat] [1%nat] [(0%nat, 1)]) (other_class 1 dx_rules) = [Ok (qz 3); Ok 1].
Proof. split; vm_compute; reflexivity. Qed.

(** ** C56: i_counterfactual(..., multiclass=True); the code stops as soon as all candidate
    classes are found, the result is that of the full search *)
Theorem C56_multiclass : forall same m rules c num cands dist,
  proper m -> rules <> [] -> (forall r, In r rules -> r_ant r <> []) ->
  cands = filter (fun r => negb (Z.eqb (r_cons r) c)) rules ->
  (forall r, In r cands -> cf_dist_instance same r m num = Ok (dist r)) ->
  exists f, i_counterfactual_multi same m rules c num = Ok f /\ NoDup (map fst f) /\
    (forall k, In k (map fst f) <-> k <> c /\ exists r, In r cands /\ leads_to (weighted_vote rules) r m k) /\
    (forall k ch, In (k, ch) f -> closest_flip (weighted_vote rules) m c cands dist (fun k' => k' = k) ch).
Proof.
  intros same m rules c num cands dist PM N A -> D. unfold i_counterfactual_multi, i_candidates. fold (other_class c rules). rewrite (mapM_dist (fun r => cf_dist_instance same r m num) dist); [|exact D]. cbn [bind].
  apply counterfactual_multi_gen; try assumption. apply other_class_In.
Qed.
Print Assumptions C56_multiclass.
Example C56_instance : i_counterfactual_multi kx_same kx_m kx_rules 1 ["x"] = Ok [(0%Z, [("x", "mid")]); (2%Z, [("x", "mid"); ("z", "b")])].
Proof. vm_compute; reflexivity. Qed.

(** ** C57; None stands for infinity *)
Theorem C57_FID3_counterfactual : forall factual counter_rules dist,
  (forall r, In r counter_rules -> n_differ factual r (dist r)) ->
  (counter_rules = [] /\ FID3_counterfactual factual counter_rules = ([], None)) \/
  (exists mn, FID3_counterfactual factual counter_rules = (filter (fun r => Nat.eqb (dist r) mn) counter_rules, Some mn) /\
     (exists r, In r counter_rules /\ dist r = mn) /\ forall r, In r counter_rules -> (mn <= dist r)%nat).
Proof.
  intros factual counter_rules dist H. assert (D : forall r, In r counter_rules -> compare_rules_FID3 factual r = dist r) by (intros r I; apply (n_differ_fun (compare_spec factual r) (H r I))).
  destruct (fid3_gen factual counter_rules) as [L|(mn & E & (r & I & Q) & M)]; [left; exact L|right]. exists mn. split; [|split].
  - rewrite E. f_equal. clear - D. induction counter_rules as [|r l IH]; [reflexivity|]. cbn. rewrite D by (left; reflexivity). rewrite IH by (intros; apply D; right; assumption). reflexivity.
  - exists r. split; [assumption|]. rewrite <- D by assumption. assumption.
  - intros r' I'. rewrite <- D by assumption. apply M. assumption.
Qed.
Print Assumptions C57_FID3_counterfactual.

(** the count of differing features always exists, is symmetric, and 0 iff the antecedents are
    equal as dictionaries *)
Theorem C57_distance : forall a b, exists n, n_differ a b n /\ n_differ b a n /\
  (n = 0%nat <-> forall f v, wants a f v <-> wants b f v).
Proof.
  intros a b. destruct (compare_spec a b) as (fs & N & I & E). exists (compare_rules_FID3 a b). split; [exists fs; auto|]. split.
  - exists fs. split; [assumption|]. split; [|assumption]. intro f. rewrite I. apply differ_sym.
  - rewrite E. split.
    + intros Z f v. destruct fs; [|discriminate]. assert (ND : ~ differ a b f) by (rewrite <- I; intros []).
      split; intro W.
      * destruct (wants_dec b f) as [[w W']|W']; [|exfalso; apply ND; exists v; left; split; [assumption|apply W']].
        destruct (string_dec v w) as [->|Q]; [assumption|]. exfalso. apply ND. exists v. left. split; [assumption|]. intro W2. apply Q. apply (wants_fun W2 W').
      * destruct (wants_dec a f) as [[w W']|W']; [|exfalso; apply ND; exists v; right; split; [assumption|apply W']].
        destruct (string_dec v w) as [->|Q]; [assumption|]. exfalso. apply ND. exists v. right. split; [assumption|]. intro W2. apply Q. apply (wants_fun W2 W').
    + intro H. destruct fs as [|f fs]; [reflexivity|]. exfalso. assert (D : differ a b f) by (apply I; left; reflexivity). destruct D as (v & [[W Q]|[W Q]]); apply Q; apply H; assumption.
Qed.
Print Assumptions C57_distance.
Example C57_instance : FID3_counterfactual kx_r1 [kx_r2; kx_r3; mkR [("z", "a"); ("x", "low")] 0%Z 1] = ([kx_r3; mkR [("z", "a"); ("x", "low")] 0%Z 1], Some 1%nat).
Proof. vm_compute; reflexivity. Qed.

(** ** C58 *)
Theorem C58_literal_distance : forall row v w i j, NoDup (map fst row) -> (2 <= List.length row)%nat ->
  nth_error (map fst row) i = Some v -> nth_error (map fst row) j = Some w ->
  exists d, literal_distance row v w = Ok d /\ d = qabs (qn i - qn j) / (qn (List.length row) - 1) /\
    0 <= d /\ d <= 1 /\ (d = 0 <-> v = w).
Proof.
  intros row v w i j N L Ei Ej. assert (S : steps row v w (qabs (qn i - qn j) / (qn (List.length row) - 1))) by (exists i, j; auto).
  eexists. split; [apply literal_steps; [assumption|exact S]|]. split; [reflexivity|]. apply (steps_01 N S).
Qed.
Print Assumptions C58_literal_distance.
Theorem C58_single_set_raises : forall s d, literal_distance [(s, d)] s s = Err ZeroDivisionError.
Proof. intros s d. unfold literal_distance. cbn. rewrite eqb_refl. cbn. reflexivity. Qed.
Print Assumptions C58_single_set_raises.

(** the distance to the instance is the sum of the costs of the shared features *)
Theorem C58_distance_to_instance : forall same r m num cost fs, proper m -> NoDup num ->
  (forall f a b, ~ In f num -> same f a b = if string_dec a b then true else false) ->
  lists fs (fun f => In f (map fst m) /\ exists v, wants r f v) -> (forall f, In f fs -> instance_cost m num r f (cost f)) ->
  cf_dist_instance same r m num = Ok (qsum (map cost fs)).
Proof.
  intros same r m num cost fs [NM PM] NN SM [NF HF] HC. unfold cf_dist_instance.
  destruct (@fuzzified_spec m) as (fz & E & F); [intros f row I; apply (PM _ _ I)|]. rewrite E. cbn [bind].
  assert (KZ : dkeys fz = map fst m) by (apply (Forall2_keys strongest F)).
  assert (KW : forall f, In f (dkeys (ant_dict r)) <-> exists v, wants r f v).
  { intro f. split; [intro I; apply dget_ex in I; destruct I as [v Q]; exists v; apply wants_dget; assumption|]. intros [v W]. rewrite wants_dget in W. apply dget_Some_key in W. assumption. }
  assert (ES : forall a b : string, (if string_dec a b then true else false) = eqb a b).
  { intros a b. destruct (eqb a b) eqn:Q, (string_dec a b) as [Y|Y]; try reflexivity; exfalso; [apply eqb_eq in Q|apply eqb_neq in Q]; contradiction. }
  rewrite <- (@dist_sum same num NN fz (ant_dict r) cost fs (fun f => do clause <- ret_opt KeyError (dget f m); do v <- ret_opt KeyError (dget f fz); do w <- ret_opt KeyError (dget f (ant_dict r)); weighted_literal_distance clause v w)).
  - apply foldM_ext_in. intros acc f _. destruct (dget f m); cbn; [|reflexivity]. destruct (dget f fz); cbn; [|reflexivity]. destruct (dget f (ant_dict r)); reflexivity.
  - rewrite KZ. assumption.
  - split; [assumption|]. intro f. rewrite HF, KZ, KW. tauto.
  - intros f v w Nf _ _. rewrite SM by assumption. apply ES.
  - intros f v w Nf Ev Ew. assert (If : In f fs) by (apply HF; split; [rewrite <- KZ; apply dget_Some_key in Ev; assumption|exists w; apply wants_dget; assumption]).
    destruct (HC f If) as (row & v' & w' & I & S & W & [(_ & C)|(In' & _)]); [|contradiction].
    assert (Dm : dget f m = Some row) by (apply dget_nodup; assumption). destruct (Forall2_dget strongest f F Dm) as (b & Eb & Sb).
    assert (v' = v) by (rewrite Ev in Eb; injection Eb as <-; apply (strongest_fun S Sb)). assert (w' = w) by (rewrite wants_dget in W; congruence). subst v' w'.
    destruct C as [[-> ->]|[Q ->]]; [rewrite eqb_refl; reflexivity|]. destruct (eqb v w) eqn:X; [apply eqb_eq in X; contradiction|reflexivity].
  - intros f Inum If. destruct (HC f If) as (row & v & w & I & S & W & [(Nn & _)|(_ & s & mu & St & Im & Q)]); [contradiction|].
    assert (Dm : dget f m = Some row) by (apply dget_nodup; assumption). destruct (Forall2_dget strongest f F Dm) as (b & Eb & Sb). rewrite Dm, Eb. rewrite wants_dget in W. rewrite W. cbn [ret_opt bind].
    rewrite (strongest_fun Sb S). destruct (PM _ _ I) as [_ NR]. unfold weighted_literal_distance. rewrite (literal_steps NR St). cbn [bind]. rewrite (@nodup_nth_dget _ _ _ _ NR Im). cbn [ret_opt bind]. rewrite Q. reflexivity.
Qed.
Print Assumptions C58_distance_to_instance.

(** the costs, and so the distance, are bounded: between 0 and the number of shared features;
    0 when the rule names the strongest set in every shared feature *)
Theorem C58_distance_bounds : forall m num r cost fs, proper m ->
  (forall f row v d, In (f, row) m -> In (v, d) row -> 0 <= d /\ d <= 1) ->
  (forall f, In f fs -> instance_cost m num r f (cost f)) ->
  0 <= qsum (map cost fs) /\ qsum (map cost fs) <= qn (List.length fs) /\
  ((forall f row v, In f fs -> In (f, row) m -> wants r f v -> strongest row v) -> qsum (map cost fs) = 0).
Proof.
  intros m num r cost fs [NM PM] D H.
  assert (B : forall f, In f fs -> 0 <= cost f /\ cost f <= 1).
  { intros f I. destruct (H f I) as (row & v & w & Ir & S & W & [(_ & [[_ ->]|[_ ->]])|(_ & s & mu & St & Im & ->)]); [split; qlra|split; qlra|].
    destruct (PM _ _ Ir) as [_ NR]. destruct (steps_01 NR St) as (S0 & S1 & _). destruct (D _ _ _ _ Ir Im) as [M0 M1].
    split; [apply Qcmult_nonneg; qlra|]. assert (0 <= s * mu) by (apply Qcmult_nonneg; assumption). replace (s * (1 - mu)) with (s - s * mu) by ring. qlra. }
  split; [apply qsum_nonneg; apply Forall_forall; intros x Ix; apply in_map_iff in Ix; destruct Ix as (f & <- & I); apply B; assumption|]. split.
  - assert (Q : qsum (map cost fs) <= qsum (map (fun _ => 1) fs)) by (apply qsum_map_le; intros f I; apply B; assumption). rewrite qsum_const in Q. rewrite Qcmult_1_r in Q. assumption.
  - intro A. apply qsum_map_zero. intros f I. destruct (H f I) as (row & v & w & Ir & S & W & C). pose proof (A f row w I Ir W) as Sw. assert (v = w) by (apply (strongest_fun S Sw)). subst w.
    destruct C as [(_ & [[_ ->]|[Q _]])|(_ & s & mu & St & Im & ->)]; [reflexivity|congruence|]. destruct (PM _ _ Ir) as [_ NR]. destruct (steps_01 NR St) as (_ & _ & Z). rewrite (proj2 Z eq_refl). ring.
Qed.
Print Assumptions C58_distance_bounds.

(** the distance between two rules: tau * features in only one + (1 - tau) * cost of the shared *)
Theorem C58_distance_of_rules : forall same cf r m num tau cost fs only_r only_cf, proper m -> NoDup num ->
  (forall f a b, ~ In f num -> same f a b = if string_dec a b then true else false) ->
  lists fs (fun f => (exists v, wants r f v) /\ exists v, wants cf f v) ->
  lists only_r (fun f => (exists v, wants r f v) /\ forall v, ~ wants cf f v) ->
  lists only_cf (fun f => (exists v, wants cf f v) /\ forall v, ~ wants r f v) ->
  (forall f, In f fs -> rule_cost m num r cf f (cost f)) ->
  cf_dist_rule same cf r m num tau = Ok (tau * qn (List.length only_r + List.length only_cf) + (1 - tau) * qsum (map cost fs)).
Proof.
  intros same cf r m num tau cost fs only_r only_cf [NM PM] NN SM [NF HF] [N1 H1] [N2 H2] HC. unfold cf_dist_rule. cbv zeta.
  assert (KW : forall r f, In f (dkeys (ant_dict r)) <-> exists v, wants r f v).
  { clear. intros r f. split; [intro I; apply dget_ex in I; destruct I as [v Q]; exists v; apply wants_dget; assumption|]. intros [v W]. rewrite wants_dget in W. apply dget_Some_key in W. assumption. }
  assert (ES : forall a b : string, (if string_dec a b then true else false) = eqb a b).
  { intros a b. destruct (eqb a b) eqn:Q, (string_dec a b) as [Y|Y]; try reflexivity; exfalso; [apply eqb_eq in Q|apply eqb_neq in Q]; contradiction. }
  assert (X : foldM (fun acc f => do clause <- ret_opt KeyError (dget f m); do v <- ret_opt KeyError (dget f (ant_dict r)); do w <- ret_opt KeyError (dget f (ant_dict cf)); do d <- literal_distance clause v w; Ok (acc + d))
      (qn (categorical_distance same (ant_dict r) (ant_dict cf) num)) (num_keys (ant_dict r) (ant_dict cf) num) = Ok (qsum (map cost fs))).
  { rewrite <- (@dist_sum same num NN (ant_dict r) (ant_dict cf) cost fs (fun f => do clause <- ret_opt KeyError (dget f m); do v <- ret_opt KeyError (dget f (ant_dict r)); do w <- ret_opt KeyError (dget f (ant_dict cf)); literal_distance clause v w)).
    - apply foldM_ext_in. intros acc f _. destruct (dget f m); cbn; [|reflexivity]. destruct (dget f (ant_dict r)); cbn; [|reflexivity]. destruct (dget f (ant_dict cf)); reflexivity.
    - apply dict_of_nodup_keys.
    - split; [assumption|]. intro f. rewrite HF, !KW. tauto.
    - intros f v w Nf _ _. rewrite SM by assumption. apply ES.
    - intros f v w Nf Ev Ew. rewrite <- wants_dget in Ev, Ew. assert (If : In f fs) by (apply HF; split; eauto).
      destruct (HC f If) as (v' & w' & Wv & Ww & [(_ & C)|(In' & _)]); [|contradiction]. rewrite (wants_fun Wv Ev), (wants_fun Ww Ew) in C.
      destruct C as [[-> ->]|[Q ->]]; [rewrite eqb_refl; reflexivity|]. destruct (eqb v w) eqn:Y; [apply eqb_eq in Y; contradiction|reflexivity].
    - intros f Inum If. destruct (HC f If) as (v & w & Wv & Ww & [(Nn & _)|(_ & row & Ir & St)]); [contradiction|]. rewrite wants_dget in Wv, Ww.
      assert (Dm : dget f m = Some row) by (apply dget_nodup; assumption). rewrite Dm, Wv, Ww. cbn [ret_opt bind]. destruct (PM _ _ Ir) as [_ NR]. apply (literal_steps NR St). }
  rewrite X. cbn [bind]. apply (f_equal (@Ok _)).
  assert (L : forall (a b : rule string) only, NoDup only -> (forall f, In f only <-> (exists v, wants a f v) /\ forall v, ~ wants b f v) ->
     List.length (filter (fun f => negb (dmem f (ant_dict b))) (dkeys (ant_dict a))) = List.length only).
  { clear - KW. intros a b only N H. apply Permutation_length, NoDup_Permutation; [apply NoDup_filter, dict_of_nodup_keys|assumption|]. intro f. rewrite filter_In, negb_true_iff, H, KW. unfold dmem. rewrite memb_not_In, KW. split.
    - intros [A B]. split; [assumption|]. intros v W. apply B. eauto.
    - intros [A B]. split; [assumption|]. intros [v W]. apply (B v W). }
  rewrite (L r cf only_r N1 H1), (L cf r only_cf N2 H2). reflexivity.
Qed.
Print Assumptions C58_distance_of_rules.
Example C58_instance : cf_dist_instance kx_same kx_r2 kx_m ["x"] = Ok (qz 2) /\ cf_dist_instance kx_same kx_r3 kx_m ["x"] = Ok (qc 3 8) /\
  cf_dist_rule kx_same kx_r2 kx_r1 kx_m ["x"] (qc 1 2) = Ok 1.
Proof. repeat split; qex. Qed.
(** with names that are equal but distinct objects a categorical feature costs 1 although it agrees *)
Theorem C58_equal_names_distinct_objects_refuted : exists same r m, proper m /\
  (forall f row v, In (f, row) m -> wants r f v -> strongest row v) /\ cf_dist_instance same r m [] = Ok 1.
Proof.
  exists (fun _ _ _ => false), (mkR [("z", "a")] 0%Z 1), [("z", [("a", 1); ("b", 0)])]. split; [|split].
  - split; [repeat constructor; cbn; tauto|]. intros f row [H|[]]. injection H as <- <-. split; [discriminate|repeat constructor; cbn; intuition congruence].
  - intros f row v [H|[]] W. injection H as <- <-. rewrite wants_dget in W. cbn in W. injection W as <-. apply strongest_iff. vm_compute. reflexivity.
  - vm_compute. reflexivity.
Qed.
Print Assumptions C58_equal_names_distinct_objects_refuted.
