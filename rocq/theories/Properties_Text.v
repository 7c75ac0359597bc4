(** * Properties C113-C116: printed rules and trees *)
From Verif Require Import Prelude M_Fuzzy M_Discretize M_Rule M_FDT M_FBDT M_ID3 M_Text S_Rule S_FDT S_FBDT S_FBDT2 S_ID3 S_Text P_Entropy P_Rule P_FDT P_FDT2 P_FDT3 P_FDT4 P_FBDT P_FBDT2 P_ID3b P_ID3c P_Text P_Text2 P_Text3 Properties_FDT Properties_FBDT Properties_ID3b.
From Coq Require Import Reals Lra.
Local Notation eqb := Prelude.eqb.
Open Scope string_scope.
Open Scope list_scope.
Open Scope Qc_scope.

(** ** C113: rules that print alike are the same rule *)
Theorem C113_same_text_same_rule : forall (sc : Z -> string) (sw : Qc -> string) (r r' : rule string),
  (forall c d, sc c = sc d -> c = d) -> (forall c, ~ has 32 (sc c)) -> (forall v w, sw v = sw w -> v = w) ->
  (forall f v, In (f, v) (r_ant r ++ r_ant r') -> ~ has 32 f /\ ~ has 58 f /\ f <> "" /\ ~ has 32 v) ->
  rule_text (fun v => v) sc sw r = rule_text (fun v => v) sc sw r' -> r = r'.
Proof.
  intros sc sw [l c w] [l' c' w'] I1 I2 I3 N E. cbn [r_ant] in N. unfold rule_text in E. cbn [r_ant r_cons r_weight] in E.
  destruct (@rule_text_inj string (fun v => v) sc sw (fun v => ~ has 32 v)) with (l := l) (l' := l') (c := c) (w := w) (c' := c') (w' := w') as (-> & -> & ->); auto.
  intros v u r s V U H. exact (@cut 32 v u r s V U H).
Qed.
Print Assumptions C113_same_text_same_rule.

Theorem C113_same_text_same_binary_rule : forall (sc : Z -> string) (sw : Qc -> string) (r r' : rule (list string)),
  (forall c d, sc c = sc d -> c = d) -> (forall c, ~ has 32 (sc c)) -> (forall v w, sw v = sw w -> v = w) ->
  (forall f l, In (f, l) (r_ant r ++ r_ant r') -> ~ has 32 f /\ ~ has 58 f /\ f <> "" /\ forall s, In s l -> ~ has 39 s) ->
  rule_text list_text sc sw r = rule_text list_text sc sw r' -> r = r'.
Proof.
  intros sc sw [l c w] [l' c' w'] I1 I2 I3 N E. cbn [r_ant] in N. unfold rule_text in E. cbn [r_ant r_cons r_weight] in E.
  destruct (@rule_text_inj (list string) list_text sc sw (fun v => forall s, In s v -> ~ has 39 s)) with (l := l) (l' := l') (c := c) (w := w) (c' := c') (w' := w') as (-> & -> & ->); auto.
  intros v u r s V U H. unfold list_text in H. cbn [append] in H. injection H as H. rewrite !sapp_assoc in H. cbn [append] in H.
  assert (NN : forall x, In x (v ++ u) -> ~ has 39 x) by (intros x Hx; apply in_app_or in Hx; destruct Hx; auto).
  destruct (@names_inj v u _ _ NN H) as [-> E']. injection E' as ->. auto.
Qed.
Print Assumptions C113_same_text_same_binary_rule.

(** names with blanks can make different rules print alike *)
Theorem C113_blanks_refuted : exists r r' : rule string, r <> r' /\ forall sc sw, rule_text (fun v => v) sc sw r = rule_text (fun v => v) sc sw r'.
Proof.
  exists (mkR [("age", "low AND job: clerk")] 1%Z 1), (mkR [("age", "low"); ("job", "clerk")] 1%Z 1). split; [discriminate|]. intros. reflexivity.
Qed.
Print Assumptions C113_blanks_refuted.

Example C113_instance : rule_text (fun v => v) show_z show_q (mkR [("age", "low"); ("job", "clerk")] 1%Z 1) = "age: low AND job: clerk => p1/ (Weight: p1/1/)" /\
  rule_text list_text show_z show_q (mkR [("age", ["low"; "mid"])] 0%Z (qc 1 2)) = "age: ['low', 'mid'] => z (Weight: p1/01/)" /\
  (forall c d, show_z c = show_z d -> c = d) /\ (forall c, ~ has 32 (show_z c)) /\ (forall v w, show_q v = show_q w -> v = w) /\ ~ has 32 "age" /\ ~ has 58 "age".
Proof.
  split; [reflexivity|]. split; [reflexivity|]. split; [exact show_z_inj|]. split; [intro; apply show_z_free; unfold gap; auto|]. split; [exact show_q_inj|].
  split; intro H; cbn in H; repeat (destruct H as [H|H]; [discriminate|]); exact H.
Qed.

(** ** C114: a printed FDT *)
Definition printable (sd : dict Z Qc -> string) (vars : list fvar) : Prop :=
  (forall d, ~ has 10 (sd d)) /\ forall v, In v vars -> ~ has 10 (fv_name v) /\ forall s, In s (fv_sets v) -> ~ has 10 (fs_name s).
Lemma trained_root cfg ord X y t : trained cfg ord X y t -> t_value t = None /\ t_var t = None /\ t_level t = 0%Z /\ levelled 0 t.
Proof.
  intro T. destruct (trained_fitted T) as (HL & _ & _ & F). destruct T as (Ho & Hn & Hth & _).
  destruct (@fitted_value cfg ord X y Ho Hn Hth _ _ _ F) as (A & B & _ & D).
  split; [exact A|]. split; [exact B|]. split; [exact D|]. exact (@fitted_levelled cfg ord X y Ho Hn HL Hth _ _ _ F).
Qed.
Theorem C114_lines : forall cfg ord X y t sd, trained cfg ord X y t -> (forall v, In v (f_vars cfg) -> fv_sets v <> []) -> printable sd (f_vars cfg) ->
  printed (tree_text sd t) = flat_map (node_lines (f_vars cfg) sd) (outline 0 t).
Proof.
  intros cfg ord X y t sd T Hs [P1 P2]. destruct (trained_wf T Hs) as [W _]. destruct (@trained_root cfg ord X y t T) as (V & R & _ & L).
  rewrite <- (sapp_nil (tree_text sd t)). rewrite (@text_lines sd P1 (f_vars cfg)) with (classes := zunique y) (d := 0%nat); try assumption.
  - change (printed "") with (@nil (nat * string)). apply app_nil_r.
  - intros v Hv. apply (P2 v Hv).
  - intros v s Hv Hsv. apply (P2 v Hv). exact Hsv.
  - intros _. exact R.
Qed.
Print Assumptions C114_lines.

Theorem C114_same_text_same_tree : forall cfg cfg' ord ord' X X' y y' t t' sd, trained cfg ord X y t -> trained cfg' ord' X' y' t' ->
  f_vars cfg = f_vars cfg' -> (forall v, In v (f_vars cfg) -> fv_sets v <> []) -> printable sd (f_vars cfg) -> (forall d e, sd d = sd e -> d = e) ->
  (forall v, In v (f_vars cfg) -> ~ has 32 (fv_name v)) ->
  tree_text sd t = tree_text sd t' ->
  (forall th, tree_rules t th = tree_rules t' th) /\ forall c Z, predict c t Z = predict c t' Z.
Proof.
  intros cfg cfg' ord ord' X X' y y' t t' sd T T' EV Hs [P1 P2] I B E.
  destruct (trained_wf T Hs) as [W _]. destruct (@trained_root cfg ord X y t T) as (V & R & L & _).
  assert (Hs' : forall v, In v (f_vars cfg') -> fv_sets v <> []) by (rewrite <- EV; exact Hs).
  destruct (trained_wf T' Hs') as [W' _]. destruct (@trained_root cfg' ord' X' y' t' T') as (V' & R' & L' & _). rewrite <- EV in W'.
  assert (Bare : bare t = bare t').
  { apply (@root_text_inj sd P1 I (f_vars cfg)) with (classes := zunique y) (classes' := zunique y'); try assumption.
    - destruct T as (_ & N & _). exact N.
    - intros v Hv. split; [exact (B v Hv)|apply (P2 v Hv)].
    - intros v s Hv Hsv. apply (P2 v Hv). exact Hsv. }
  split.
  - intro th. unfold tree_rules. rewrite <- (bare_rules th t), <- (bare_rules th t'), Bare. reflexivity.
  - intros c Z. unfold predict. rewrite <- (bare_predict _ _ t), <- (bare_predict _ _ t'), Bare. reflexivity.
Qed.
Print Assumptions C114_same_text_same_tree.

Example C114_instance : trained (ex_cfg AggVote) same_order ex_X ex_y (one_tree (ex_cfg AggVote) ex_X ex_y (ex_v "x")) /\ printable show_d [ex_v "x"] /\
  (forall d e, show_d d = show_d e -> d = e) /\ ~ has 32 "x" /\
  printed (tree_text show_d (one_tree (ex_cfg AggVote) ex_X ex_y (ex_v "x"))) =
    [(0%nat, "Root "); (1%nat, "Feature x low"); (1%nat, append "Class value: " (show_d [(0%Z, 0); (1%Z, 1)]));
     (1%nat, "Feature x high"); (1%nat, append "Class value: " (show_d [(0%Z, 1); (1%Z, 0)]))].
Proof.
  split; [apply ex_fit; auto|]. split; [split|].
  - intro d. apply show_d_free. unfold gap. auto.
  - intros v [<-|[]]. split; [intro H; cbn in H; destruct H as [H|[]]; discriminate|]. intros s [<-|[<-|[]]] H; cbn in H; repeat (destruct H as [H|H]; [discriminate|]); exact H.
  - split; [exact show_d_inj|]. split; [intro H; cbn in H; destruct H as [H|[]]; discriminate|]. vm_compute. reflexivity.
Qed.

(** ** C115: a printed FBDT shows the features and the class weights, not the sets *)
Theorem C115_lines : forall cfg psort X y t sd, btrained cfg psort X y t -> (forall d, ~ has 10 (sd d)) -> (forall v, In v (f_vars cfg) -> ~ has 10 (fv_name v)) ->
  printed (btree_text sd t) = flat_map (bnode_lines (f_vars cfg) sd) (boutline t).
Proof.
  intros cfg psort X y t sd T P1 P2. destruct (btrained_wf _ _ _ _ _ T) as [W _]. destruct (btrained_fitted T) as (cats & HC & _ & _ & F).
  destruct (@bfitted_value _ _ _ _ _ HC _ _ _ F) as (_ & R).
  rewrite <- (sapp_nil (btree_text sd t)). rewrite (@btext_lines sd P1 (f_vars cfg)) with (classes := zunique y); try assumption.
  - change (printed "") with (@nil (nat * string)). apply app_nil_r.
  - intros _. exact R.
Qed.
Print Assumptions C115_lines.

(** two trees over the same variable and the same rows that print alike and disagree everywhere *)
Definition cat_v : fvar := mkV "x" [FD "a" (CStr "a"); FD "b" (CStr "b")].
Definition cat_cfg : fdt_cfg := mkFDT [cat_v] (1 / 10000)%R 10 1 qmin AggVote.
Definition cat_X : list (list cell) := [[CStr "a"]; [CStr "b"]].
Definition share_le (p q : string * option Qc) : bool := match snd p, snd q with Some a, Some b => qleb a b | None, _ => true | _, None => false end.
Definition by_share : list (string * option Qc) -> list (string * option Qc) := sort_by share_le.
Definition cat_tree (l r : nat) (lmu rmu : list Qc) : btree :=
  BTree false [BTree true [] (Some [(0%Z, 0); (1%Z, 1)]) 1 (Some (0%nat, [l])) (Some cat_v) lmu [("x", 0%nat)];
               BTree true [] (Some [(0%Z, 1); (1%Z, 0)]) 1 (Some (0%nat, [r])) (Some cat_v) rmu [("x", 1%nat)]]
        None 0 None None [1; 1] [].
Lemma cat_trained (y : list Z) l r ln rn lmu rmu :
  y = [1; 0]%Z /\ (l, r, ln, rn, lmu, rmu) = (0%nat, 1%nat, "a", "b", [1; 0], [0; 1]) \/ y = [0; 1]%Z /\ (l, r, ln, rn, lmu, rmu) = (1%nat, 0%nat, "b", "a", [0; 1], [1; 0]) ->
  btrained cat_cfg by_share cat_X y (cat_tree l r lmu rmu).
Proof.
  intro H. assert (N : NoDup (map fs_name (fv_sets cat_v))) by (repeat constructor; cbn; [intros [Q|[]]; discriminate|intros []]).
  assert (DN : distinct_names (f_vars cat_cfg)) by (split; [repeat constructor; intros []|intros v [<-|[]]; assumption]).
  split; [intro q; apply Permutation_sym, sort_by_perm|]. split; [assumption|]. exists [[0; 0]; [0; 0]].
  assert (Ly : List.length y = 2%nat) by (destruct H as [[-> _]|[-> _]]; reflexivity).
  unfold bt_fit. assert (C : categorical_features (f_vars cat_cfg) = Ok ["x"]) by reflexivity. rewrite C. cbn [bind]. rewrite Ly.
  change (negb (Nat.eqb (List.length cat_X) 2) || Nat.eqb 2 0) with false.
  assert (D : dataset_membership cat_X (f_vars cat_cfg) = Ok [("x", [("a", [1; 0]); ("b", [0; 1])])]) by qex. cbv iota. rewrite D. cbn [bind].
  change (fuel_for (initial_sets (f_vars cat_cfg))) with 3%nat.
  change (initial_sets (f_vars cat_cfg)) with [("x", ["a"; "b"])].
  change (repeat 1 2) with [1; 1]. cbn [fresh_broot b_leaf b_children b_class b_level b_value b_var b_ignored].
  remember [("x", [("a", [1; 0]); ("b", [0; 1])])] as XM.
  assert (M1 : max_split by_share ["x"] [] [1; 1] [] [("x", ["a"; "b"])] XM y = Ok ([[0; 0]; [0; 0]], Some (mkSplit "x" 1%R lmu rmu [ln] [rn] 0 1))).
  { unfold max_split. assert (B : binary_partitions by_share ["x"] [("x", ["a"; "b"])] XM y = Ok [("x", [ln], [rn])]).
    { subst XM. destruct H as [[-> Q]|[-> Q]]; injection Q as -> -> -> -> -> ->; vm_compute; reflexivity. }
    rewrite B. cbn [bind foldM]. unfold score_partition at 1. cbn [fst snd]. rewrite Ly.
    assert (S1 : score_side [] [1; 1] [] XM 2 "x" [ln] = Ok ([[0; 0]], lmu, 0%nat)) by (subst XM; destruct H as [[-> Q]|[-> Q]]; injection Q as -> -> -> -> -> ->; qex).
    rewrite S1. cbn [bind].
    assert (S2 : score_side [[0; 0]] [1; 1] [] XM 2 "x" [rn] = Ok ([[0; 0]; [0; 0]], rmu, 1%nat)) by (subst XM; destruct H as [[-> Q]|[-> Q]]; injection Q as -> -> -> -> -> ->; qex).
    rewrite S2. cbn [bind]. unfold split_gain. assert (Q : qeqb (qsum [1; 1]) 0 = false) by reflexivity. rewrite Q. cbn [bind].
    assert (G : (fuzzy_entropy [1; 1]%Qc y - (qr (qsum lmu) * fuzzy_entropy lmu y + qr (qsum rmu) * fuzzy_entropy rmu y) / qr (qsum [1; 1]%Qc))%R = 1%R).
    { destruct H as [[-> E]|[-> E]]; injection E as -> -> -> -> -> ->; rewrite entropy_two by discriminate; rewrite !entropy_pure by (auto; qlra); unfold Rdiv; ring. }
    rewrite G. cbn [best_gain snd]. assert (L : Rltb 0 1 = true) by (apply Rltb_lt; lra). rewrite L. reflexivity. }
  assert (P : forall mu lv v, max_split by_share ["x"] [[0; 0]; [0; 0]] mu lv [("x", [v])] XM y = Ok ([[0; 0]; [0; 0]], None) \/ ~ (v = "a" \/ v = "b")).
  { intros mu lv v. destruct (string_dec v "a") as [->|A]; [left|]. { subst XM. destruct H as [[-> _]|[-> _]]; reflexivity. }
    destruct (string_dec v "b") as [->|B]; [left|right; tauto]. subst XM. destruct H as [[-> _]|[-> _]]; reflexivity. }
  assert (Pl : forall mu lv, max_split by_share ["x"] [[0; 0]; [0; 0]] mu lv [("x", [ln])] XM y = Ok ([[0; 0]; [0; 0]], None)).
  { intros mu lv. destruct (P mu lv ln) as [E|E]; [exact E|]. exfalso. apply E. destruct H as [[_ Q]|[_ Q]]; injection Q as -> -> -> -> -> ->; auto. }
  assert (Pr : forall mu lv, max_split by_share ["x"] [[0; 0]; [0; 0]] mu lv [("x", [rn])] XM y = Ok ([[0; 0]; [0; 0]], None)).
  { intros mu lv. destruct (P mu lv rn) as [E|E]; [exact E|]. exfalso. apply E. destruct H as [[_ Q]|[_ Q]]; injection Q as -> -> -> -> -> ->; auto. }
  assert (ST : stop_met cat_cfg 1%R (masked [1; 1] y) 0 = false).
  { unfold stop_met. assert (L : Rltb 1 (f_threshold cat_cfg) = false) by (apply Rltb_ge; cbn; lra). rewrite L. destruct H as [[-> _]|[-> _]]; reflexivity. }
  assert (G0 : get_class_value lmu y = Ok [(0%Z, 0); (1%Z, 1)]) by (destruct H as [[-> Q]|[-> Q]]; injection Q as -> -> -> -> -> ->; qex).
  assert (G1 : get_class_value rmu y = Ok [(0%Z, 1); (1%Z, 0)]) by (destruct H as [[-> Q]|[-> Q]]; injection Q as -> -> -> -> -> ->; qex).
  assert (T0 : stop_met cat_cfg (best_gain None) (masked lmu y) 1 = true) by (destruct H as [[-> Q]|[-> Q]]; injection Q as -> -> -> -> -> ->; reflexivity).
  assert (T1 : stop_met cat_cfg (best_gain None) (masked rmu y) 1 = true) by (destruct H as [[-> Q]|[-> Q]]; injection Q as -> -> -> -> -> ->; reflexivity).
  assert (IL : mapM (fun n => ret_opt KeyError (dget n [("a", 0%nat); ("b", 1%nat)])) [ln] = Ok [l]) by (destruct H as [[-> Q]|[-> Q]]; injection Q as -> -> -> -> -> ->; reflexivity).
  assert (IR : mapM (fun n => ret_opt KeyError (dget n [("a", 0%nat); ("b", 1%nat)])) [rn] = Ok [r]) by (destruct H as [[-> Q]|[-> Q]]; injection Q as -> -> -> -> -> ->; reflexivity).
  assert (QL : qltb 0 (qsum lmu) = true) by (destruct H as [[-> Q]|[-> Q]]; injection Q as -> -> -> -> -> ->; reflexivity).
  assert (QR : qltb 0 (qsum rmu) = true) by (destruct H as [[-> Q]|[-> Q]]; injection Q as -> -> -> -> -> ->; reflexivity).
  assert (DL : dset "x" (filter (fun x => memb x [ln]) ["a"; "b"]) [("x", ["a"; "b"])] = [("x", [ln])]) by (destruct H as [[-> Q]|[-> Q]]; injection Q as -> -> -> -> -> ->; reflexivity).
  assert (DR : dset "x" (filter (fun x => memb x [rn]) ["a"; "b"]) [("x", ["a"; "b"])] = [("x", [rn])]) by (destruct H as [[-> Q]|[-> Q]]; injection Q as -> -> -> -> -> ->; reflexivity).
  clear H P. cbn [bfit b_mu b_ignored]. rewrite M1. cbn [bind]. change (best_gain (Some (mkSplit "x" 1%R lmu rmu [ln] [rn] 0 1))) with 1%R. rewrite ST.
  cbn [s_att s_left s_right s_lmu s_rmu s_lign s_rign].
  change (dget "x" (f_positions (f_vars cat_cfg))) with (Some 0%nat). cbn [ret_opt bind].
  change (nth_error (f_vars cat_cfg) 0) with (Some cat_v). cbn [ret_opt bind]. cbv zeta.
  change (dict_of (map (fun js => (fs_name (snd js), fst js)) (enumerate (fv_sets cat_v)))) with [("a", 0%nat); ("b", 1%nat)].
  rewrite IL, IR. cbn [bind].
  change (update_ignored [[0; 0]; [0; 0]] [] "x" 0) with ([[0; 0]; [0; 0]], [("x", 0%nat)]). cbv iota.
  change (dget "x" [("x", ["a"; "b"])]) with (Some ["a"; "b"]). cbn [ret_opt bind]. rewrite QL, DL.
  change (0 + 1)%Z with 1%Z. rewrite Pl. cbn [bind]. rewrite T0, G0. cbn [bind fst snd].
  change (update_ignored [[0; 0]; [0; 0]] [] "x" 1) with ([[0; 0]; [0; 0]], [("x", 1%nat)]). cbv iota. rewrite QR, DR.
  rewrite Pr. cbn [bind]. rewrite T1, G1. cbn [bind fst snd app b_children b_class b_value b_var]. reflexivity.
Qed.
Theorem C115_same_text_refuted : exists cfg psort X y y' t t', btrained cfg psort X y t /\ btrained cfg psort X y' t' /\
  (forall sd, btree_text sd t = btree_text sd t') /\ bpredict cfg t X = Ok y /\ bpredict cfg t' X = Ok y' /\
  (forall i c c', nth_error y i = Some c -> nth_error y' i = Some c' -> c <> c') /\ btree_rules t 0 true <> btree_rules t' 0 true.
Proof.
  exists cat_cfg, by_share, cat_X, [1; 0]%Z, [0; 1]%Z, (cat_tree 0 1 [1; 0] [0; 1]), (cat_tree 1 0 [0; 1] [1; 0]).
  split; [apply (@cat_trained _ 0%nat 1%nat "a" "b"); auto|]. split; [apply (@cat_trained _ 1%nat 0%nat "b" "a"); auto|].
  split; [intro; reflexivity|]. split; [reflexivity|]. split; [reflexivity|]. split.
  - intros [|[|[|i]]] c c' H H'; cbn in H, H'; try discriminate; congruence.
  - vm_compute. discriminate.
Qed.
Print Assumptions C115_same_text_refuted.

Example C115_instance : btrained (ex_cfg AggVote) no_sort ex_X ex_y ex_btree /\
  printed (btree_text show_d ex_btree) =
    [(0%nat, "Root "); (1%nat, "Feature x Root "); (1%nat, append "Class value: " (show_d [(0%Z, 0); (1%Z, 1)]));
     (1%nat, "Feature x Root "); (1%nat, append "Class value: " (show_d [(0%Z, 1); (1%Z, 0)]))].
Proof. split; [apply ex_btrained|]. vm_compute. reflexivity. Qed.

(** ** C116: a printed ID3 tree *)
Theorem C116_same_text_same_tree : forall cfg cfg' cls cls' fts fts' root root' X X' y y' t t' sc sx sn s,
  id3_trained cfg cls fts root X y t -> id3_trained cfg' cls' fts' root' X' y' t' -> i_features cfg = i_features cfg' ->
  (forall f, In f (i_features cfg) -> f <> "" /\ ~ has 9 f /\ ~ has 10 f /\ ~ has 32 f) ->
  (forall c d, sc c = sc d -> c = d) -> (forall c, ~ has 9 (sc c)) -> (forall k, ~ has 10 (sn k)) ->
  (forall i j a b, occurs X i a \/ occurs X' i a -> occurs X j b \/ occurs X' j b -> sx a = sx b -> a = b) ->
  (forall i a, occurs X i a \/ occurs X' i a -> ~ has 10 (sx a)) ->
  itree_text (i_features cfg) sc sx sn t = Ok s -> itree_text (i_features cfg') sc sx sn t' = Ok s ->
  (forall conds, id3_get_rules (i_features cfg) t conds = id3_get_rules (i_features cfg') t' conds) /\ forall x, id3_tree_predict t x = id3_tree_predict t' x.
Proof.
  intros cfg cfg' cls cls' fts fts' root root' X X' y y' t t' sc sx sn s T T' EF FN S1 S2 N1 X1 X2 E E'.
  pose (okx := fun v : cell => exists i, occurs X i v \/ occurs X' i v).
  assert (W : iwf (i_features cfg) okx t) by (apply (trained_iwf okx T); intros i v O; exists i; auto).
  assert (W' : iwf (i_features cfg) okx t') by (rewrite EF; apply (trained_iwf okx T'); intros i v O; exists i; auto).
  rewrite <- EF in E'. rewrite (@itext_ok (i_features cfg) sc sx sn okx t W) in E. rewrite (@itext_ok (i_features cfg) sc sx sn okx t' W') in E'.
  assert (E2 : itext (i_features cfg) sc sx sn t = itext (i_features cfg) sc sx sn t') by congruence.
  assert (B : ibare t = ibare t').
  { destruct (@itext_inj (i_features cfg) sc sx sn okx) with (t := t) (t' := t') (r := "") (r' := "") as [B _]; auto.
    - intros a b [i Oa] [j Ob]. exact (X1 i j a b Oa Ob).
    - intros a [i Oa]. exact (X2 i a Oa).
    - left. reflexivity.
    - left. reflexivity.
    - rewrite E2. reflexivity. }
  split.
  - intro conds. rewrite <- EF, <- (ibare_rules _ t), <- (ibare_rules _ t'), B. reflexivity.
  - intro x. rewrite <- (ibare_predict x t), <- (ibare_predict x t'), B. reflexivity.
Qed.
Print Assumptions C116_same_text_same_tree.

(** every trained tree can be printed *)
Theorem C116_prints : forall cfg cls fts root X y t sc sx sn, id3_trained cfg cls fts root X y t -> exists s, itree_text (i_features cfg) sc sx sn t = Ok s.
Proof.
  intros cfg cls fts root X y t sc sx sn T. assert (W : iwf (i_features cfg) (fun _ => True) t) by (apply (trained_iwf _ T); auto).
  eexists. exact (@itext_ok (i_features cfg) sc sx sn _ t W).
Qed.
Print Assumptions C116_prints.

Definition show_cell (c : cell) : string := match c with CNum q => append "n" (show_q q) | CStr s => append "s" s end.
Definition show_count (k : option (nat * nat)) : string := match k with Some (a, b) => append "[" (append (nat_text a) (append ", " (append (nat_text b) "]"))) | None => "0" end.
Example C116_instance : id3_trained (ex_id3 (1 / qz 10) 5 true) ex_cls ex_fts new_itree (xa [0; 0; 1; 2]%Z) [0; 0; 1; 1]%Z ex_tree /\
  (forall a b, show_cell a = show_cell b -> a = b) /\ (forall k, ~ has 10 (show_count k)) /\
  exists s, itree_text ["a"] show_z show_cell show_count ex_tree = Ok s /\ map indented (lines s) =
    [(0%nat, "Feature 0"); (0%nat, "a = nz1/"); (1%nat, append "Class value: z" (append tab "Counts: [2, 2]"));
     (0%nat, "a = np1/1/"); (1%nat, append "Class value: p1/" (append tab "Counts: [1, 1]"));
     (0%nat, "a = np01/1/"); (1%nat, append "Class value: p1/" (append tab "Counts: [1, 1]")); (0%nat, "")].
Proof.
  split; [exact ex_trained|]. split; [|split].
  - intros [a|a] [b|b] E; try discriminate; injection E as E; [apply show_q_inj in E; congruence|congruence].
  - intros [[a b]|]; cbn [show_count]; rewrite ?has_app; intro H.
    + destruct H as [H|[H|[H|[H|H]]]]; [cbn in H; destruct H as [H|[]]; discriminate|revert H; apply nat_text_free; auto|cbn in H; destruct H as [H|[H|[]]]; discriminate|revert H; apply nat_text_free; auto|cbn in H; destruct H as [H|[]]; discriminate].
    + cbn in H. destruct H as [H|[]]; discriminate.
  - eexists. split; [vm_compute; reflexivity|]. vm_compute. reflexivity.
Qed.
