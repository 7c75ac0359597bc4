(** * Trained binary fuzzy trees: prediction and rules *)
From Verif Require Import Prelude M_Fuzzy M_Discretize M_Rule M_FDT M_FBDT S_Rule S_FDT S_FBDT P_FuzzySet P_FuzzyVar P_Entropy P_Rule P_FDT P_FDT2 P_FDT3 P_FDT4 P_FBDT P_FBDT2.
From Coq Require Import Reals Lra.
Set Implicit Arguments.
Open Scope Qc_scope.

Definition bextend (c : btree) (pl : list glit * btree) : list glit * btree := (bown c ++ fst pl, snd pl).
Lemma bleaves_inner cs cv lv va vr mu ig : bleaves (BTree false cs cv lv va vr mu ig) = List.concat (map (fun c => map (bextend c) (bleaves c)) cs).
Proof. reflexivity. Qed.
Lemma bwf_leaves vars classes t : bwf vars classes t -> forall p n, In (p, n) (bleaves t) -> (exists d, b_class n = Some d /\ cv_ok classes d) /\ b_leaf n = true.
Proof.
  induction t as [lf cs cv lv va vr mu ig IH] using btree_ind'. cbn [bwf]. intros [O W] p n H. destruct lf.
  - cbn in H. destruct H as [E|[]]. injection E as <- <-. split; [exact W|reflexivity].
  - destruct W as [_ W]. rewrite bleaves_inner in H. apply in_concat in H. destruct H as [L [HL Hin]].
    apply in_map_iff in HL. destruct HL as [c [<- Hc]]. apply in_map_iff in Hin. destruct Hin as [[q m] [E Hin]]. injection E as <- <-.
    rewrite (@fold_and _ (fun c => b_value c <> None /\ bwf vars classes c)) in W. rewrite Forall_forall in IH, W.
    destruct (W c Hc) as [Vc Wc]. exact (IH c Hc Wc q m Hin).
Qed.
Lemma bwf_leaves_nonempty vars classes t : bwf vars classes t -> bleaves t <> [].
Proof.
  induction t as [lf cs cv lv va vr mu ig IH] using btree_ind'. cbn [bwf]. intros [O W]. destruct lf; [discriminate|].
  destruct W as [N W]. rewrite bleaves_inner. destruct cs as [|c cs]; [congruence|]. cbn [map List.concat].
  inversion IH as [|? ? I1 I2]; subst. destruct W as [[_ Wc] _]. specialize (I1 Wc). destruct (bleaves c); [congruence|discriminate].
Qed.
Lemma bleaves_node_at vars classes t : bwf vars classes t -> forall p n, In (p, n) (bleaves t) <-> bnode_at t p n /\ b_leaf n = true.
Proof.
  induction t as [lf cs cv lv va vr mu ig IH] using btree_ind'. cbn [bwf]. intros [O W] p n. destruct lf.
  - cbn. split.
    + intros [E|[]]. injection E as <- <-. split; [constructor|reflexivity].
    + intros [H L]. inversion H as [|? ? ? ? ? Hl]; subst; [auto|discriminate].
  - destruct W as [_ W]. rewrite (@fold_and _ (fun c => b_value c <> None /\ bwf vars classes c)) in W. rewrite Forall_forall in IH, W.
    rewrite bleaves_inner, in_concat. split.
    + intros [L [HL Hin]]. apply in_map_iff in HL. destruct HL as [c [<- Hc]]. apply in_map_iff in Hin. destruct Hin as [[q m] [E Hin]]. injection E as <- <-.
      destruct (W c Hc) as [Vc Wc]. apply (IH c Hc Wc) in Hin. destruct Hin as [A B]. split; [|assumption].
      cbn [fst snd]. unfold bown. destruct (b_value c) as [l|] eqn:V; [|congruence]. econstructor; [reflexivity|exact Hc|exact V|exact A].
    + intros [H L]. inversion H as [|? c l q ? Hl Hc V Hn]; subst; [discriminate|]. cbn in Hc.
      exists (map (bextend c) (bleaves c)). split; [apply in_map_iff; eauto|]. apply in_map_iff. exists (q, n). split; [unfold bextend, bown; rewrite V; reflexivity|].
      apply (IH c Hc); [apply W; assumption|auto].
Qed.

(** ** prediction *)
Lemma mapM_pointwise A B (f : A -> res B) (g : A -> B) l : (forall x, In x l -> f x = Ok (g x)) -> mapM f l = Ok (map g l).
Proof.
  induction l as [|x l IH]; intro H; [reflexivity|]. cbn [mapM map]. rewrite (H x (or_introl eq_refl)). cbn [bind]. rewrite IH by (intros; apply H; right; assumption). reflexivity.
Qed.
Definition bact_from (tn : Qc -> Qc -> Qc) (vars : list fvar) (row : list cell) (m : Qc) (p : list glit) : Qc :=
  fold_left (fun acc l => tn acc (side_degree vars row l)) p m.
Lemma bact_from_app tn vars row m p q : bact_from tn vars row m (p ++ q) = bact_from tn vars row (bact_from tn vars row m p) q.
Proof. apply fold_left_app. Qed.
Lemma fold_cols vars X a g : forall (f : list cell -> Qc), fold_left (map2 Qcplus) (map (fun i => map (fun row => lit_degree vars row (a, i)) X) g) (map f X)
   = map (fun row => f row + side_degree vars row (a, g)) X.
Proof.
  unfold side_degree. cbn [fst snd]. induction g as [|i g IH]; intro f; cbn [map fold_left].
  - apply map_ext. intro row. rewrite qsum_nil. ring.
  - rewrite map2_map_r, map2_map_l, map2_diag. rewrite (IH (fun row => f row + lit_degree vars row (a, i))). apply map_ext. intro row. rewrite qsum_cons. ring.
Qed.
Lemma zero_col (X : list (list cell)) : repeat 0 (List.length X) = map (fun _ => 0) X.
Proof. induction X as [|r X IH]; [reflexivity|]. cbn. rewrite IH. reflexivity. Qed.
Lemma partial_bpredict_spec tn vars classes X t : readable vars X -> bwf vars classes t -> forall mu, List.length mu = List.length X ->
  partial_bpredict tn X mu t =
  Ok (map (fun pl => (b_class (snd pl), map2 (fun m row => bact_from tn vars row m (bown t ++ fst pl)) mu X)) (bleaves t)).
Proof.
  intro R. induction t as [lf cs cv lv va vr mu0 ig IH] using btree_ind'. cbn [bwf]. intros [O W] mu L. cbn [partial_bpredict].
  assert (E : (match va with Some (att, vals) => do v <- ret_opt AttributeError vr;
                 do cols <- mapM (fun i => do s <- ret_opt IndexError (nth_error (fv_sets v) i); do col <- column X att; membership_col s col) vals;
                 Ok (map2 tn mu (fold_left (map2 Qcplus) cols (repeat 0 (List.length X)))) | None => Ok mu end)
              = Ok (map2 (fun m row => bact_from tn vars row m (bown (BTree lf cs cv lv va vr mu0 ig))) mu X)).
  { unfold bown. cbn [b_value]. destruct va as [[a g]|].
    - destruct O as (v & -> & Hv & Hs). cbn [ret_opt bind].
      assert (M : mapM (fun i => do s <- ret_opt IndexError (nth_error (fv_sets v) i); do col <- column X a; membership_col s col) g = Ok (map (fun i => map (fun row => lit_degree vars row (a, i)) X) g)).
      { apply mapM_pointwise. intros i Hi. destruct (Hs i Hi) as [s Es]. rewrite Es. cbn [ret_opt bind].
        destruct (@readable_membership vars X a v i s R Hv Es) as [col [-> C]]. cbn [bind]. exact C. }
      rewrite M. cbn [bind]. rewrite zero_col, fold_cols, map2_map_r. apply (f_equal (@Ok _)). apply map2_ext. intros m row. unfold bact_from. cbn [fold_left]. f_equal. ring.
    - unfold bact_from. cbn [fold_left]. rewrite map2_const by assumption. reflexivity. }
  rewrite E. cbn [bind]. destruct lf.
  - cbn [bleaves map fst snd b_class]. rewrite app_nil_r. reflexivity.
  - destruct W as [N W]. destruct cs as [|c0 cs0]; [congruence|]. remember (c0 :: cs0) as cs. clear Heqcs c0 cs0.
    rewrite (@fold_and _ (fun c => b_value c <> None /\ bwf vars classes c)) in W.
    remember (bown (BTree false cs cv lv va vr mu0 ig)) as o.
    assert (M : mapM (partial_bpredict tn X (map2 (fun m row => bact_from tn vars row m o) mu X)) cs
      = Ok (map (fun c => map (fun pl => (b_class (snd pl), map2 (fun m row => bact_from tn vars row m (o ++ (bown c ++ fst pl))) mu X)) (bleaves c)) cs)).
    { clear - IH W L. induction cs as [|c cs IHcs]; [reflexivity|]. inversion IH as [|? ? I1 I2]; inversion W as [|? ? W1 W2]; subst.
      cbn [mapM map]. rewrite (I1 (proj2 W1)).
      - cbn [bind]. rewrite (IHcs I2 W2). cbn [bind]. match goal with |- Ok (?u :: ?l) = Ok (?w :: ?l) => assert (EQ : u = w); [|rewrite EQ; reflexivity] end. apply map_ext. intros [q n]. cbn [fst snd]. f_equal.
        rewrite map2_map2. apply map2_ext. intros m row. symmetry. apply bact_from_app.
      - rewrite map2_length, L. apply Nat.min_id. }
    rewrite M. cbn [bind]. apply (f_equal (@Ok _)). rewrite bleaves_inner. rewrite concat_map. rewrite map_map. f_equal.
    apply map_ext. intro c. rewrite map_map. reflexivity.
Qed.
Lemma bmap2_repeat_one tn vars p (X : list (list cell)) :
  map2 (fun m row => bact_from tn vars row m p) (repeat 1 (List.length X)) X = map (fun row => bactivation tn vars row p) X.
Proof. induction X as [|r X IH]; [reflexivity|]. cbn [List.length repeat map2 map]. rewrite IH. reflexivity. Qed.
Definition bleaf_vote (cfg : fdt_cfg) (X : list (list cell)) (classes : list Z) (pl : list glit * btree) : option (dict Z Qc) * list Qc :=
  (Some (entries classes (bleaf_weight (snd pl))), map (fun row => bactivation (f_tnorm cfg) (f_vars cfg) row (fst pl)) X).
Lemma bpredict_leaves cfg t classes X : bwf (f_vars cfg) classes t -> b_value t = None -> NoDup classes -> readable (f_vars cfg) X ->
  partial_bpredict (f_tnorm cfg) X (repeat 1 (List.length X)) t = Ok (map (bleaf_vote cfg X classes) (bleaves t)).
Proof.
  intros W V N R. rewrite (@partial_bpredict_spec (f_tnorm cfg) (f_vars cfg) classes X t R W) by apply repeat_length.
  apply (f_equal (@Ok _)). apply map_ext_in. intros [p n] Hin. destruct (@bwf_leaves _ _ _ W _ _ Hin) as [[d [Ed [K _]]] _].
  unfold bleaf_vote. cbn [fst snd]. unfold bown. rewrite V. cbn [app]. rewrite bmap2_repeat_one. rewrite Ed. f_equal.
  rewrite (@entries_weight classes d N K) at 1. f_equal. unfold entries. apply map_ext. intro c. unfold bleaf_weight. rewrite Ed. reflexivity.
Qed.
Lemma bvote_spec cfg t classes X : bwf (f_vars cfg) classes t -> NoDup classes ->
  vote (f_voting cfg) (map (bleaf_vote cfg X classes) (bleaves t)) = Ok (entries classes (fun c => map (fun row => brow_support cfg t row c) X)).
Proof.
  intros W N. assert (NE := @bwf_leaves_nonempty _ _ _ W). unfold vote, brow_support, bleaf_vote. destruct (f_voting cfg).
  - apply (@agg_votes X classes N _ (fun pl => bleaf_weight (snd pl)) (fun pl row => bactivation (f_tnorm cfg) (f_vars cfg) row (fst pl))). assumption.
  - apply (@max_votes X classes N _ (fun pl => bleaf_weight (snd pl)) (fun pl row => bactivation (f_tnorm cfg) (f_vars cfg) row (fst pl))). assumption.
Qed.
Lemma argmax_rows classes (X : list (list cell)) (sup : list cell -> Z -> Qc) : StronglySorted Z.lt classes -> classes <> [] ->
  exists ps, mapM (fun j => dict_argmax (row_votes (entries classes (fun c => map (fun row => sup row c) X)) j)) (seq 0 (List.length X)) = Ok ps /\
    Forall2 (fun row c => best_class classes (sup row) c) X ps.
Proof.
  intros S Ne.
  assert (G : forall X2 X1, X = X1 ++ X2 -> exists ps, mapM (fun j => dict_argmax (row_votes (entries classes (fun c => map (fun row => sup row c) X)) j))
      (seq (List.length X1) (List.length X2)) = Ok ps /\ Forall2 (fun row c => best_class classes (sup row) c) X2 ps).
  { induction X2 as [|row X2 IH]; intros X1 E; [exists []; split; [reflexivity|constructor]|].
    destruct (IH (X1 ++ [row])) as [ps [A B]]; [rewrite <- app_assoc; exact E|]. rewrite app_length, Nat.add_1_r in A.
    destruct (argmax_entries (sup row) S Ne) as [c [C D]].
    exists (c :: ps). cbn [List.length seq mapM]. rewrite (@row_votes_entries classes X sup (List.length X1) row).
    - rewrite C. cbn [bind]. rewrite A. cbn [bind]. split; [reflexivity|constructor; assumption].
    - rewrite E, nth_error_app2, Nat.sub_diag by lia. reflexivity. }
  apply (G X []). reflexivity.
Qed.
Lemma bpredict_spec cfg t classes X : bwf (f_vars cfg) classes t -> b_value t = None -> StronglySorted Z.lt classes -> NoDup classes -> classes <> [] ->
  readable (f_vars cfg) X ->
  exists ps, bpredict cfg t X = Ok ps /\ Forall2 (fun row c => best_class classes (brow_support cfg t row) c) X ps.
Proof.
  intros W V S N Ne R. unfold bpredict. rewrite (@bpredict_leaves cfg t classes X W V N R). cbn [bind]. rewrite (@bvote_spec cfg t classes X W N). cbn [bind].
  apply argmax_rows; assumption.
Qed.
Lemma bpredict_length cfg t X ps : bpredict cfg t X = Ok ps -> List.length ps = List.length X.
Proof.
  unfold bpredict. destruct (partial_bpredict _ _ _ _); cbn [bind]; [|discriminate]. destruct (vote _ _); cbn [bind]; [|discriminate].
  intro H. apply mapM_length in H. rewrite seq_length in H. assumption.
Qed.

(** ** rules *)
Definition bleaf_rules (vars : list fvar) (prefix : list (string * list string)) (th : Qc) (pl : list glit * btree) : list (rule (list string)) :=
  map (fun kw => mkR (prefix ++ map (glit_name vars) (fst pl)) (fst kw) (snd kw))
      (filter (fun kw => qltb th (snd kw)) (match b_class (snd pl) with Some d => d | None => [] end)).
Lemma get_brules_spec vars classes th t : bwf vars classes t -> forall prefix,
  get_brules t prefix th = Ok (List.concat (map (bleaf_rules vars (prefix ++ map (glit_name vars) (bown t)) th) (bleaves t))).
Proof.
  induction t as [lf cs cv lv va vr mu0 ig IH] using btree_ind'. cbn [bwf]. intros [O W] prefix. cbn [get_brules].
  assert (E : (match va with Some (_, vals) => do v <- ret_opt AttributeError vr;
                 do names <- mapM (fun i => do s <- ret_opt IndexError (nth_error (fv_sets v) i); Ok (fs_name s)) vals;
                 Ok (prefix ++ [(fv_name v, names)]) | None => Ok prefix end)
              = Ok (prefix ++ map (glit_name vars) (bown (BTree lf cs cv lv va vr mu0 ig)))).
  { unfold bown. cbn [b_value]. destruct va as [[a g]|].
    - destruct O as (v & -> & Hv & Hs). cbn [ret_opt bind].
      assert (M : mapM (fun i => do s <- ret_opt IndexError (nth_error (fv_sets v) i); Ok (fs_name s)) g = Ok (map (set_name v) g)).
      { clear - Hs. induction g as [|i g IH]; [reflexivity|]. cbn [mapM map]. unfold set_name at 1. destruct (Hs i (or_introl eq_refl)) as [s ->]. cbn [ret_opt bind].
        rewrite IH by (intros; apply Hs; right; assumption). reflexivity. }
      rewrite M. cbn [bind map]. unfold glit_name. cbn [fst snd]. rewrite Hv. reflexivity.
    - cbn [map]. rewrite app_nil_r. reflexivity. }
  rewrite E. cbn [bind]. remember (prefix ++ map (glit_name vars) (bown (BTree lf cs cv lv va vr mu0 ig))) as pre. destruct lf.
  - destruct W as [d [-> _]]. cbn [ret_opt bind bleaves map List.concat]. unfold bleaf_rules. cbn [fst snd b_class map]. rewrite !app_nil_r. reflexivity.
  - destruct W as [_ W]. rewrite (@fold_and _ (fun c => b_value c <> None /\ bwf vars classes c)) in W.
    assert (M : mapM (fun c => get_brules c pre th) cs = Ok (map (fun c => List.concat (map (bleaf_rules vars (pre ++ map (glit_name vars) (bown c)) th) (bleaves c))) cs)).
    { clear - IH W. induction cs as [|c cs IHcs]; [reflexivity|]. inversion IH as [|? ? I1 I2]; inversion W as [|? ? W1 W2]; subst.
      cbn [mapM map]. rewrite (I1 (proj2 W1) pre). cbn [bind]. rewrite (IHcs I2 W2). reflexivity. }
    rewrite M. cbn [bind]. apply (f_equal (@Ok _)). rewrite bleaves_inner. clear. induction cs as [|c cs IH]; [reflexivity|].
    cbn [map List.concat]. rewrite map_app, concat_app, <- IH. f_equal. rewrite map_map. f_equal. apply map_ext. intros [q n].
    unfold bextend, bleaf_rules. cbn [fst snd]. rewrite map_app, app_assoc. reflexivity.
Qed.
Lemma btree_rules_spec vars classes th simp t : bwf vars classes t -> b_value t = None ->
  btree_rules t th simp = Ok (map (fun r => if simp then simplify (@List.length string) r else r) (List.concat (map (bleaf_rules vars [] th) (bleaves t)))).
Proof.
  intros W V. unfold btree_rules. rewrite (@get_brules_spec _ _ th _ W). unfold bown. rewrite V. cbn [map bind app]. destruct simp; [reflexivity|]. rewrite map_id. reflexivity.
Qed.

(** matching of a path rule = activation *)
Lemma group_side vars row m a v g : row_membership vars row m -> nth_error vars a = Some v -> (forall i, In i g -> exists s, nth_error (fv_sets v) i = Some s) ->
  group_degree m (fv_name v) (map (set_name v) g) (side_degree vars row (a, g)).
Proof.
  intros R Hv. unfold side_degree. cbn [fst snd]. induction g as [|i g IH]; intro H; [constructor|]. cbn [map]. rewrite qsum_cons. constructor.
  - destruct (H i (or_introl eq_refl)) as [s Hs]. unfold set_name. rewrite Hs. exact (R a v i s Hv Hs).
  - apply IH. intros; apply H; right; assumption.
Qed.
Definition glits_ok (vars : list fvar) (p : list glit) : Prop :=
  forall a g, In (a, g) p -> exists v, nth_error vars a = Some v /\ NoDup g /\ g <> [] /\ forall i, In i g -> exists s, nth_error (fv_sets v) i = Some s.
Lemma matching_bactivation vars row m p c w : row_membership vars row m -> p <> [] -> glits_ok vars p -> (exists l, In l p /\ side_degree vars row l <= 1) ->
  matching_multi m (mkR (map (glit_name vars) p) c w) = Ok (bactivation qmin vars row p).
Proof.
  intros R N H L1. unfold matching_multi, matching_multi_tn. cbn [r_ant].
  assert (M : mapM (fun fv => sum_degrees m (fst fv) (snd fv)) (map (glit_name vars) p) = Ok (map (side_degree vars row) p)).
  { clear N L1. induction p as [|[a g] p IH]; [reflexivity|]. cbn [map mapM]. destruct (H a g (or_introl eq_refl)) as (v & Hv & _ & _ & Hs).
    unfold glit_name at 1 2. cbn [fst snd]. rewrite Hv. cbn [fst snd].
    rewrite (proj2 (sum_degrees_iff m (fv_name v) (map (set_name v) g) _) (@group_side vars row m a v g R Hv Hs)). cbn [bind].
    rewrite IH by (intros a' g' I; apply H; right; assumption). reflexivity. }
  rewrite M. cbn [bind]. destruct (@qminimum_ok (map (side_degree vars row) p)) as [x E]; [destruct p; [congruence|discriminate]|].
  rewrite E. cbn. apply (f_equal (@Ok _)). symmetry. unfold bactivation.
  assert (FF : fold_left (fun acc l => qmin acc (side_degree vars row l)) p 1 = fold_left qmin (map (side_degree vars row) p) 1).
  { generalize 1 as z. clear. induction p as [|l p IH]; intro z; [reflexivity|]. cbn. apply IH. }
  rewrite FF.
  assert (G : forall l z, fold_left qmin l z <= z /\ (forall d, In d l -> fold_left qmin l z <= d) /\ (In (fold_left qmin l z) l \/ fold_left qmin l z = z)).
  { clear. induction l as [|d l IH]; intro z; cbn [fold_left]; [split; [apply Qcle_refl|split; [intros ? []|right; reflexivity]]|].
    destruct (IH (qmin z d)) as (A & B & C). split; [eapply Qcle_trans; [exact A|apply qmin_l]|]. split.
    - intros d' [<-|Hd]; [eapply Qcle_trans; [exact A|apply qmin_r]|auto].
    - destruct C as [C|C]; [left; right; assumption|]. rewrite C. unfold qmin. destruct (qltb d z); [left; left; reflexivity|right; reflexivity]. }
  destruct (G (map (side_degree vars row) p) 1) as (A & B & C). apply qminimum_spec in E. destruct E as [E1 E2]. apply Qcle_antisym; [apply B; assumption|].
  destruct C as [C|C]; [apply E2; assumption|]. rewrite C. destruct L1 as [l [I1 I2]]. eapply Qcle_trans; [|exact I2]. apply E2. apply in_map. assumption.
Qed.
(** simplification does not change the matching of a nested path *)
Definition nested (p : list glit) : Prop := forall a g g', In (a, g) p -> In (a, g') p -> incl g g' \/ incl g' g.
Lemma simplified_matching vars row m p c w : NoDup (map fv_name vars) -> (forall v, In v vars -> NoDup (map fs_name (fv_sets v))) ->
  row_membership vars row m -> (forall f v d, knows m f v d -> 0 <= d) -> glits_ok vars p -> nested p ->
  matching_multi m (simplify (@List.length string) (mkR (map (glit_name vars) p) c w)) = matching_multi m (mkR (map (glit_name vars) p) c w).
Proof.
  intros N1 N2 R K H NS. apply C18_matching; [assumption| |].
  - cbn [r_ant]. intros f vs I. apply in_map_iff in I. destruct I as [[a g] [E I]]. destruct (H a g I) as (v & Hv & Ng & _ & Hs).
    unfold glit_name in E. cbn [fst snd] in E. rewrite Hv in E. injection E as <- <-. split.
    + assert (Nv := N2 v (nth_error_In _ _ Hv)). clear - Ng Hs Nv. induction g as [|i g IH]; [constructor|]. inversion Ng as [|? ? A B]; subst. cbn [map]. constructor.
      * intro I. apply in_map_iff in I. destruct I as [j [E I]]. apply A.
        destruct (Hs i (or_introl eq_refl)) as [s Es]. destruct (Hs j (or_intror I)) as [s' Es']. rewrite (@set_name_inj v i j s s' Nv Es Es' (eq_sym E)). assumption.
      * apply IH; [assumption|]. intros; apply Hs; right; assumption.
    + intros x Hx. apply in_map_iff in Hx. destruct Hx as [i [<- Hi]]. destruct (Hs i Hi) as [s Es]. unfold set_name. rewrite Es. eexists. exact (R a v i s Hv Es).
  - cbn [r_ant]. intros f vs ws I J. apply in_map_iff in I, J. destruct I as [[a g] [E I]], J as [[b k] [E' J]].
    destruct (H a g I) as (v & Hv & _). destruct (H b k J) as (v' & Hv' & _). unfold glit_name in E, E'. cbn [fst snd] in E, E'. rewrite Hv in E. rewrite Hv' in E'.
    injection E as Ef Ev. injection E' as Ef' Ev'.
    assert (a = b).
    { apply (proj1 (NoDup_nth_error _) N1); [rewrite map_length; apply nth_error_Some; congruence|]. rewrite !nth_error_map, Hv, Hv'. cbn. congruence. }
    subst b. rewrite Hv in Hv'. injection Hv' as <-. subst vs ws. destruct (NS a g k I J) as [S|S]; [left|right]; apply incl_map; assumption.
Qed.

Lemma bsupport_app r1 m1 r2 m2 c : List.length r1 = List.length m1 -> bsupport (r1 ++ r2) (m1 ++ m2) c = bsupport r1 m1 c + bsupport r2 m2 c.
Proof.
  unfold bsupport. revert m1. induction r1 as [|r r1 IH]; intros [|x m1] L; try discriminate; cbn [app map2].
  - rewrite qsum_nil. ring.
  - rewrite !qsum_cons, IH by (cbn in L; congruence). ring.
Qed.
Lemma bleaf_rules_support vars classes pl m z (S : rule (list string) -> rule (list string)) : NoDup classes -> (exists d, b_class (snd pl) = Some d /\ cv_ok classes d) ->
  (forall r, r_cons (S r) = r_cons r /\ r_weight (S r) = r_weight r) ->
  (forall c w, matching_multi m (S (mkR (map (glit_name vars) (fst pl)) c w)) = Ok z) ->
  Forall2 (fun r x => matching_multi m r = Ok x) (map S (bleaf_rules vars [] 0 pl)) (map (fun _ => z) (bleaf_rules vars [] 0 pl)) /\
  forall c, bsupport (map S (bleaf_rules vars [] 0 pl)) (map (fun _ => z) (bleaf_rules vars [] 0 pl)) c = bleaf_weight (snd pl) c * z.
Proof.
  intros N [d [Ed [K [W01 _]]]] HS M. unfold bleaf_rules, bleaf_weight. rewrite Ed. cbn [app]. split.
  - generalize (filter (fun kw => qltb 0 (snd kw)) d) as l. induction l as [|kw l IH]; cbn [map]; constructor; [apply M|assumption].
  - intro c. assert (ND : NoDup (dkeys d)) by (unfold dkeys; rewrite K; assumption). clear K Ed M. revert ND W01. induction d as [|[k w] d IH]; intros ND W01.
    + cbn [filter map dget]. unfold bsupport. cbn [map2]. rewrite qsum_nil. ring.
    + inversion ND as [|? ? N1 N2]; subst. cbn [filter snd dget]. destruct (W01 k w (or_introl eq_refl)) as [W0 _].
      assert (IH' := IH N2 (fun c w H => W01 c w (or_intror H))). clear IH.
      assert (SS : bsupport (map S (map (fun kw => mkR (map (glit_name vars) (fst pl)) (fst kw) (snd kw)) (if qltb 0 w then (k, w) :: filter (fun kw => qltb 0 (snd kw)) d else filter (fun kw => qltb 0 (snd kw)) d)))
         (map (fun _ => z) (map (fun kw => mkR (map (glit_name vars) (fst pl)) (fst kw) (snd kw)) (if qltb 0 w then (k, w) :: filter (fun kw => qltb 0 (snd kw)) d else filter (fun kw => qltb 0 (snd kw)) d))) c
         = (if Z.eqb k c then z * w else 0) + (match dget c d with Some w => w | None => 0 end) * z).
      { rewrite <- IH'. destruct (qltb 0 w) eqn:B.
        - cbn [map]. unfold bsupport. cbn [map2]. rewrite qsum_cons. destruct (HS (mkR (map (glit_name vars) (fst pl)) (fst (k, w)) (snd (k, w)))) as [-> ->]. reflexivity.
        - rewrite qltb_ge in B. assert (w = 0) by (apply Qcle_antisym; assumption). subst w. destruct (Z.eqb k c); ring. }
      rewrite SS. unfold eqb. destruct (eq_dec c k) as [->|Nk].
      * rewrite Z.eqb_refl. assert (D : dget k d = None) by (apply dget_None; assumption). rewrite D. ring.
      * assert (E : Z.eqb k c = false) by (apply Z.eqb_neq; congruence). rewrite E. ring.
Qed.
Lemma brules_support_gen vars classes row m (S : rule (list string) -> rule (list string)) : NoDup classes ->
  (forall r, r_cons (S r) = r_cons r /\ r_weight (S r) = r_weight r) -> forall L,
  (forall pl, In pl L -> (exists d, b_class (snd pl) = Some d /\ cv_ok classes d) /\
     forall c w, matching_multi m (S (mkR (map (glit_name vars) (fst pl)) c w)) = Ok (bactivation qmin vars row (fst pl))) ->
  exists ms, Forall2 (fun r x => matching_multi m r = Ok x) (map S (List.concat (map (bleaf_rules vars [] 0) L))) ms /\
    forall c, bsupport (map S (List.concat (map (bleaf_rules vars [] 0) L))) ms c = qsum (map (fun pl => bleaf_weight (snd pl) c * bactivation qmin vars row (fst pl)) L).
Proof.
  intros N HS. induction L as [|pl L IH]; intro H; [exists []; split; [constructor|reflexivity]|].
  destruct IH as [ms [A B]]; [intros; apply H; right; assumption|].
  destruct (H pl (or_introl eq_refl)) as (H1 & H2).
  destruct (@bleaf_rules_support vars classes pl m _ S N H1 HS H2) as [C D].
  exists (map (fun _ => bactivation qmin vars row (fst pl)) (bleaf_rules vars [] 0 pl) ++ ms). cbn [map List.concat]. rewrite map_app. split.
  - apply Forall2_app; assumption.
  - intro c. rewrite bsupport_app by (rewrite !map_length; reflexivity). rewrite D, B. cbn [map]. rewrite qsum_cons. reflexivity.
Qed.

(** ** votes of multi-value rules *)
Lemma vote_multi_gen m rules : forall ms d, Forall2 (fun r x => matching_multi m r = Ok x) rules ms ->
  foldM (fun d r => do x <- matching_multi m r; Ok (dadd (r_cons r) (x * r_weight r) d)) d rules
  = Ok (fold_left (fun d p => dadd (fst p) (snd p) d) (map2 (fun r x => (r_cons r, x * r_weight r)) rules ms) d).
Proof.
  induction rules as [|r rules IH]; intros ms d F; inversion F as [|? x ? ms' H1 H2]; subst; [reflexivity|].
  cbn [foldM map2 fold_left fst snd]. rewrite H1. cbn [bind]. apply IH. assumption.
Qed.
Lemma bstrict_winner rules ms m f c : Forall2 (fun r x => matching_multi m r = Ok x) rules ms -> 
  (forall c, bsupport rules ms c = f c) -> (forall c, 0 <= f c) ->
  In c (map (@r_cons (list string)) rules) -> (forall r, In r rules -> r_cons r <> c -> f (r_cons r) < f c) -> weighted_vote_multi rules m = Ok c.
Proof.
  intros F S P Hc W. unfold weighted_vote_multi, vote_dict_multi. rewrite (@vote_multi_gen m rules ms [] F). cbn [bind].
  change (dict_argmax (accum (map2 (fun r x => (r_cons r, x * r_weight r)) rules ms)) = Ok c).
  assert (L := Forall2_len F).
  assert (K : map fst (map2 (fun r x => (r_cons r, x * r_weight r)) rules ms) = map (@r_cons (list string)) rules).
  { clear - L. revert ms L. induction rules as [|r rules IH]; intros [|x ms] L; try discriminate; [reflexivity|]. cbn [map2 map fst]. rewrite IH by (cbn in L; congruence). reflexivity. }
  assert (T : forall k, total (map2 (fun r x => (r_cons r, x * r_weight r)) rules ms) k = bsupport rules ms k).
  { intro k. unfold bsupport. clear. revert ms. induction rules as [|r rules IH]; intros [|x ms]; try reflexivity. cbn [map2]. rewrite total_cons, IH, qsum_cons. reflexivity. }
  apply dict_argmax_unique; rewrite K; [assumption|]. intros k Hk Nk. rewrite !T, !S. apply in_map_iff in Hk. destruct Hk as [r [<- Hr]]. apply W; assumption.
Qed.
