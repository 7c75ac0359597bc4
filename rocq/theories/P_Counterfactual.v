(** * Proofs about the counterfactual functions *)
From Verif Require Import Prelude M_Fuzzy M_Rule S_Rule P_Rule M_Metrics P_Metrics P_Factual M_Counterfactual S_Counterfactual.
Set Implicit Arguments.
Open Scope Qc_scope.

Ltac splits := repeat match goal with |- _ /\ _ => split end.
Lemma wants_dget r f v : wants r f v <-> dget f (ant_dict r) = Some v.
Proof.
  unfold ant_dict, wants. rewrite dict_of_get. split.
  - intros (l1 & l2 & -> & N). rewrite rev_app_distr. cbn. rewrite <- app_assoc, dget_app.
    destruct (dget f (rev l2)) eqn:E.
    + exfalso. apply N. apply dget_Some_key in E. unfold dkeys in E. rewrite map_rev in E. apply in_rev in E. assumption.
    + cbn. rewrite eqb_refl. reflexivity.
  - intro H. assert (G : forall l : list (string * string), dget f l = Some v -> exists l1 l2, l = l1 ++ (f, v) :: l2 /\ ~ In f (map fst l1)).
    { clear. induction l as [|[g w] l IH]; cbn; [discriminate|]. destruct (eqb f g) eqn:E.
      - intro Q. injection Q as ->. apply eqb_eq in E. subst. exists [], l. auto.
      - intro Q. destruct (IH Q) as (l1 & l2 & -> & N). exists ((g, w) :: l1), l2. split; [reflexivity|]. cbn. apply eqb_neq in E. intros [?|?]; [congruence|contradiction]. }
    destruct (G _ H) as (l1 & l2 & E & N). exists (rev l2), (rev l1). split.
    + rewrite <- (rev_involutive (r_ant r)), E, rev_app_distr. cbn. rewrite <- app_assoc. reflexivity.
    + rewrite map_rev. intro I. apply in_rev in I. contradiction.
Qed.
Lemma wants_fun r f v w : wants r f v -> wants r f w -> v = w.
Proof. rewrite !wants_dget. congruence. Qed.
Lemma wants_dec r f : (exists v, wants r f v) \/ forall v, ~ wants r f v.
Proof. destruct (dget f (ant_dict r)) as [v|] eqn:E; [left; exists v; apply wants_dget; assumption|right]. intros v W. apply wants_dget in W. congruence. Qed.

Lemma strongest_iff row s : strongest_set row = Ok s <-> strongest row s.
Proof.
  unfold strongest_set, strongest. split.
  - destruct (max_by _ row) as [[s' d]|] eqn:E; cbn; [|discriminate]. intro Q. injection Q as ->.
    apply (max_by_spec snd) in E. destruct E as (_ & G & l1 & l2 & E & F). cbn in *. exists l1, d, l2. split; [assumption|]. split.
    + rewrite Forall_forall in F. assumption.
    + intros x Hx. apply G. rewrite E. apply in_or_app. right. right. assumption.
  - intros (l1 & d & l2 & -> & A & B).
    rewrite (@max_by_unique _ snd l1 (s, d) l2); [reflexivity|apply Forall_forall; assumption|apply Forall_forall; assumption].
Qed.
Lemma strongest_fun row s t : strongest row s -> strongest row t -> s = t.
Proof. rewrite <- !strongest_iff. congruence. Qed.
Lemma strongest_ex row : row <> [] -> exists s, strongest row s.
Proof.
  intro N. destruct (strongest_set row) as [s|] eqn:E; [exists s; apply strongest_iff; assumption|]. exfalso. unfold strongest_set in E.
  destruct (max_by _ row) eqn:M; cbn in E; [discriminate|]. apply max_by_None in M. contradiction.
Qed.

Lemma crisp_row_eq v row : map (fun sd : string * Qc => (fst sd, if eqb (fst sd) v then 1 else 0)) row = crisp_row v row.
Proof. apply map_ext. intros [s d]. cbn [fst]. apply (f_equal (pair s)). destruct (eqb s v) eqn:E, (string_dec s v) as [Q|Q]; try reflexivity; exfalso; [apply eqb_eq in E|apply eqb_neq in E]; contradiction. Qed.

Lemma apply_feature_spec r f row : row <> [] ->
  exists row' ch, apply_feature (ant_dict r) f row = Ok (row', ch) /\ row_applied r f row row' /\
    (forall g v, In (g, v) ch <-> g = f /\ wants r f v /\ ~ strongest row v) /\ NoDup ch.
Proof.
  intro N. unfold apply_feature. destruct (strongest_ex N) as [s S]. pose proof S as S'. rewrite <- strongest_iff in S'. rewrite S'. cbn [bind].
  destruct (dget f (ant_dict r)) as [v|] eqn:E.
  - apply wants_dget in E. destruct (eqb s v) eqn:Q.
    + apply eqb_eq in Q. subst s. exists row, []. split; [reflexivity|]. split; [left; split; [reflexivity|right; exists v; auto]|].
      split; [|constructor]. intros g w. split; [intros []|]. intros (-> & W & NS). exfalso. rewrite (wants_fun W E) in NS. contradiction.
    + apply eqb_neq in Q. rewrite crisp_row_eq. exists (crisp_row v row), [(f, v)]. split; [reflexivity|].
      assert (NS : ~ strongest row v) by (intro S2; apply Q; apply (strongest_fun S S2)).
      split; [right; exists v; auto|]. split; [|constructor; [intros []|constructor]].
      intros g w. split.
      * intros [X|[]]. injection X as <- <-. auto.
      * intros (-> & W & _). rewrite (wants_fun W E). left. reflexivity.
  - exists row, []. split; [reflexivity|]. split; [left; split; [reflexivity|left; intros v W; apply wants_dget in W; congruence]|].
    split; [|constructor]. intros g w. split; [intros []|]. intros (-> & W & _). apply wants_dget in W. congruence.
Qed.

Lemma NoDup_app_intro A (l l' : list A) : NoDup l -> NoDup l' -> (forall x, In x l -> In x l' -> False) -> NoDup (l ++ l').
Proof.
  intros N N' D. induction l as [|x l IH]; [assumption|]. inversion N as [|? ? Nx Nl]; subst. cbn. constructor.
  - rewrite in_app_iff. intros [?|?]; [contradiction|]. apply (D x); [left; reflexivity|assumption].
  - apply IH; [assumption|]. intros y Hy. apply D. right. assumption.
Qed.
Lemma apply_gen r m : (forall f row, In (f, row) m -> row <> []) -> NoDup (map fst m) ->
  exists m' ch, apply_changes r m = Ok (m', ch) /\ applied r m m' /\ changes r m ch.
Proof.
  induction m as [|[f row] m IH]; intros H ND.
  - exists [], []. split; [reflexivity|]. split; [constructor|]. split; [constructor|]. intros f v. split; [intros []|]. intros (_ & row & [] & _).
  - destruct IH as (m' & ch & E & A & C); [intros; eapply H; right; eauto|inversion ND; assumption|].
    destruct (@apply_feature_spec r f row) as (row' & c0 & E0 & A0 & C0 & N0); [eapply H; left; reflexivity|].
    unfold apply_changes in *. cbn [mapM fst snd]. rewrite E0. cbn [bind].
    match type of E with context [mapM ?g m] => destruct (mapM g m) as [fs|] eqn:M end; cbn [bind] in *; [|discriminate]. injection E as <- <-.
    eexists; eexists. split; [reflexivity|]. cbn [map fst snd List.concat]. split; [constructor; [cbn; auto|assumption]|].
    destruct C as [C1 C2]. inversion ND as [|? ? Nf ND']; subst. split.
    + apply NoDup_app_intro; try assumption. intros [g v] I1 I2. apply C0 in I1. destruct I1 as (-> & _). apply C2 in I2. destruct I2 as (_ & row2 & I2 & _). apply Nf. apply (in_map fst) in I2. exact I2.
    + intros g v. rewrite in_app_iff, C0, C2. split.
      * intros [(-> & W & S)|(W & row2 & I & S)]; [split; [assumption|exists row; split; [left; reflexivity|assumption]]|split; [assumption|exists row2; split; [right; assumption|assumption]]].
      * intros (W & row2 & [I|I] & S); [injection I as <- <-; left; auto|right; split; [assumption|exists row2; auto]].
Qed.

Lemma row_applied_fun r f row a b : row_applied r f row a -> row_applied r f row b -> a = b.
Proof.
  intros [[-> A]|(v & W & S & ->)] [[-> B]|(w & W' & S' & ->)]; try reflexivity.
  - exfalso. destruct A as [A|(v & W & S)]; [apply (A _ W')|]. rewrite (wants_fun W W') in S. contradiction.
  - exfalso. destruct B as [B|(w & W' & S')]; [apply (B _ W)|]. rewrite (wants_fun W' W) in S'. contradiction.
  - rewrite (wants_fun W W'). reflexivity.
Qed.
Lemma applied_fun r m a b : applied r m a -> applied r m b -> a = b.
Proof.
  intro A. revert b. induction A as [|[f row] [f1 row1] m a [E R] A IH]; intros b B; inversion B as [|? [f2 row2] ? b' [E' R'] B']; subst; [reflexivity|].
  cbn in *. subst. rewrite (row_applied_fun R R'), (IH _ B'). reflexivity.
Qed.
Lemma applied_no_change r m m' : applied r m m' -> changes r m [] -> m' = m.
Proof.
  intros A [_ C]. assert (G : forall f v row, wants r f v -> In (f, row) m -> strongest row v \/ ~ strongest row v -> strongest row v).
  { intros f v row W I [S|S]; [assumption|]. exfalso. apply (C f v). split; [assumption|]. exists row. auto. }
  clear C. induction A as [|[f row] [f1 row1] m a [E R] A IH]; [reflexivity|]. cbn in *. subst. f_equal.
  - f_equal. destruct R as [[-> _]|(v & W & S & _)]; [reflexivity|]. exfalso. apply S. apply (G f v row W); [left; reflexivity|right; assumption].
  - apply IH. intros g v row2 W I. apply G with g; auto.
Qed.

Lemma max_class rules m k : weighted_vote rules m = Ok k -> In k (map (@r_cons string) rules).
Proof.
  unfold weighted_vote. destruct (vote_dict rules m) as [d|] eqn:E; cbn; [|discriminate]. intro H.
  assert (K : In k (dkeys d)). { unfold dict_argmax in H. destruct (max_by _ d) as [kv|] eqn:M; cbn in H; [|discriminate]. injection H as <-. apply (max_by_spec snd) in M. destruct M as (I & _). apply in_map. assumption. }
  clear H. unfold vote_dict in E.
  assert (G : forall (rules : list (rule string)) d0 d, foldM (fun d r => do x <- matching m r; Ok (dadd (r_cons r) (x * r_weight r) d)) d0 rules = Ok d -> forall k, In k (dkeys d) -> In k (dkeys d0) \/ In k (map (@r_cons string) rules)).
  { clear. induction rules as [|r rules IH]; intros d0 d E k I; cbn in E; [injection E as <-; auto|].
    destruct (matching m r) as [x|]; cbn in E; [|discriminate]. destruct (IH _ _ E k I) as [Q|Q]; [|right; right; assumption].
    unfold dadd in Q. apply dset_keys_In in Q. destruct Q as [->|Q]; [right; left; reflexivity|auto]. }
  destruct (G _ _ _ E _ K) as [[]|]. assumption.
Qed.
Lemma matching_total m (r : rule string) : r_ant r <> [] -> exists x, matching m r = Ok x.
Proof.
  intro N. unfold matching, matching_tn. destruct (mapM _ (r_ant r)) as [ds|e] eqn:E; cbn [bind].
  - destruct (@qminimum_ok ds) as [x Q]; [|rewrite Q; cbn; eauto]. intro Z. subst. apply mapM_length in E. destruct (r_ant r); [congruence|discriminate].
  - apply mapM_err in E. destruct E as ([f v] & _ & E). apply degree_err in E. subst. cbn. eauto.
Qed.
Lemma vote_total rules m : rules <> [] -> (forall r, In r rules -> r_ant r <> []) -> exists k, weighted_vote rules m = Ok k.
Proof.
  intros N A. assert (exists ms, Forall2 (fun r x => matching m r = Ok x) rules ms).
  { clear N. induction rules as [|r rules IH]; [exists []; constructor|]. destruct (@matching_total m r) as [x E]; [apply A; left; reflexivity|]. destruct IH as [ms F]; [intros; apply A; right; assumption|]. exists (x :: ms). constructor; assumption. }
  destruct H as [ms F]. destruct (@C19_vote m rules ms F N) as (k & E & _). eauto.
Qed.

(** ** The search loops *)
Section SearchProofs.
  Variables (m : imem) (c : Z) (vote : imem -> res Z).
  Hypothesis PM : proper m.
  Hypothesis VT : forall m', exists k, vote m' = Ok k.
  Lemma step_spec r : exists m' ch k, apply_changes r m = Ok (m', ch) /\ vote m' = Ok k /\ applied r m m' /\ changes r m ch /\ leads_to vote r m k /\ (forall k', leads_to vote r m k' -> k' = k).
  Proof using PM VT.
    destruct PM as [ND H]. destruct (@apply_gen r m) as (m' & ch & E & A & C); [intros; apply (H _ _ H0)|assumption|].
    destruct (VT m') as [k V]. exists m', ch, k. splits; try assumption; [exists m'; auto|].
    intros k' (m2 & A2 & V2). rewrite (applied_fun A2 A), V in V2. congruence.
  Qed.
  (** the first element (in the given order) that satisfies [ok], if any *)
  Lemma first_such A (P : A -> Prop) (l : list A) : (forall x, P x \/ ~ P x) -> (forall x, In x l -> ~ P x) \/ exists l1 x l2, l = l1 ++ x :: l2 /\ P x /\ forall y, In y l1 -> ~ P y.
  Proof using.
    clear. intro D. induction l as [|x l IH]; [left; intros x []|]. destruct (D x) as [Px|Px]; [right; exists [], x, l; repeat split; auto|].
    destruct IH as [N|(l1 & y & l2 & -> & Py & F)]; [left; intros y [->|I]; auto|]. right. exists (x :: l1), y, l2. repeat split; auto. intros z [->|I]; auto.
  Qed.
  Lemma search_spec l :
    (search m c vote l = Ok None /\ forall rd k, In rd l -> leads_to vote (fst rd) m k -> k = c) \/
    (exists l1 rd l2 ch k, search m c vote l = Ok (Some ch) /\ l = l1 ++ rd :: l2 /\ changes (fst rd) m ch /\ leads_to vote (fst rd) m k /\ k <> c /\
       forall rd' k', In rd' l1 -> leads_to vote (fst rd') m k' -> k' = c).
  Proof using PM VT.
    induction l as [|rd l IH]; [left; split; [reflexivity|intros ? ? []]|]. destruct (step_spec (fst rd)) as (m' & ch & k & E & V & A & C & L & U). cbn [search]. rewrite E. cbn [bind fst snd]. rewrite V. cbn [bind].
    destruct (Z.eqb_spec k c) as [->|N].
    - destruct IH as [[E1 F]|(l1 & rd' & l2 & ch' & k' & E1 & -> & R)].
      + left. split; [assumption|]. intros x k [<-|I] L'; [apply U; assumption|eapply F; eauto].
      + right. exists (rd :: l1), rd', l2, ch', k'. split; [assumption|]. split; [reflexivity|]. destruct R as (R1 & R2 & R3 & R4). splits; try assumption. intros x k'' [<-|I] L'; [apply U; assumption|eapply R4; eauto].
    - right. exists [], rd, l, ch, k. splits; try assumption; try reflexivity. intros ? ? [].
  Qed.
End SearchProofs.

(** from the order of the sorted list to the order of the candidates *)
Lemma split_filter A (p : A -> bool) l m1 x m2 : filter p l = m1 ++ x :: m2 -> exists l1 l2, l = l1 ++ x :: l2 /\ filter p l1 = m1.
Proof.
  revert m1. induction l as [|y l IH]; intros m1 E; [destruct m1; discriminate|]. cbn in E. destruct (p y) eqn:Q.
  - destruct m1 as [|z m1]; injection E as E1 E2; [exists [], l; subst; auto|]. destruct (IH _ E2) as (a & b & -> & <-). exists (y :: a), b. subst. cbn. rewrite Q. auto.
  - destruct (IH _ E) as (a & b & -> & <-). exists (y :: a), b. cbn. rewrite Q. auto.
Qed.
Lemma sorted_first (dist : rule string -> Qc) (cands : list (rule string)) (l1 : list (rule string * Qc)) rd l2 :
  sort_asc snd (map (fun r => (r, dist r)) cands) = l1 ++ rd :: l2 ->
  exists p1 p2, cands = p1 ++ fst rd :: p2 /\ snd rd = dist (fst rd) /\
    (forall r', In r' cands -> dist r' < dist (fst rd) -> In (r', dist r') l1) /\
    (forall r', In r' p1 -> dist r' = dist (fst rd) -> In (r', dist r') l1).
Proof.
  intro E. set (l := map (fun r => (r, dist r)) cands) in *.
  assert (IN : forall x, In x (l1 ++ rd :: l2) <-> In x l) by (intro x; rewrite <- E; apply sort_by_In).
  assert (D : snd rd = dist (fst rd)). { assert (I : In rd l) by (apply IN, in_or_app; right; left; reflexivity). apply in_map_iff in I. destruct I as (r & <- & _). reflexivity. }
  pose proof (sort_asc_stable snd l (snd rd)) as ST. pose proof (sort_asc_sorted snd l) as SO. rewrite E in ST, SO.
  rewrite filter_app in ST. cbn [filter] in ST. rewrite qeqb_refl in ST. symmetry in ST. apply split_filter in ST. destruct ST as (q1 & q2 & Q & F).
  assert (X : exists p1 p2, cands = p1 ++ fst rd :: p2 /\ map (fun r => (r, dist r)) p1 = q1).
  { clear - Q. unfold l in Q. clear l. revert q1 Q. induction cands as [|x m IH]; intros q1 S; [destruct q1; discriminate|]. cbn in S. destruct q1 as [|p q1]; injection S as S1 S2.
    - exists [], m. subst. auto.
    - destruct (IH _ S2) as (m1 & m2 & -> & <-). exists (x :: m1), m2. subst. auto. }
  destruct X as (p1 & p2 & X & <-). exists p1, p2. split; [assumption|]. split; [assumption|]. split.
  - intros r' I L. assert (I' : In (r', dist r') (l1 ++ rd :: l2)) by (apply IN; apply in_map_iff; exists r'; auto).
    apply in_app_or in I'. destruct I' as [I'|[I'|I']]; [assumption|subst rd; cbn in L; exfalso; qlra|]. exfalso.
    assert (G : snd rd <= dist r').
    { clear - SO I'. induction l1 as [|y l1 IH]; cbn in SO; inversion SO as [|? ? S F]; subst; [rewrite Forall_forall in F; apply (F _ I')|apply IH; assumption]. }
    rewrite D in G. qlra.
  - intros r' I L. assert (I' : In (r', dist r') (filter (fun x => qeqb (snd x) (snd rd)) (map (fun r => (r, dist r)) p1))).
    { apply filter_In. split; [apply in_map_iff; exists r'; auto|]. cbn. rewrite D. apply qeqb_eq. assumption. }
    rewrite F in I'. apply filter_In in I'. tauto.
Qed.

(** the common shape of i_, f_ and d_counterfactual *)
Lemma counterfactual_gen m c rules cands dist :
  proper m -> rules <> [] -> (forall r, In r rules -> r_ant r <> []) ->
  let vote := weighted_vote rules in
  let result := search_counterfactual m c rules (map (fun r => (r, dist r)) cands) in
  (result = Ok None /\ forall r k, In r cands -> leads_to vote r m k -> k = c) \/
  (exists ch, result = Ok (Some ch) /\ closest_flip vote m c cands dist (fun k => k <> c) ch /\ (vote m = Ok c -> ch <> [])).
Proof.
  intros PM N A vote result. assert (VT : forall m', exists k, vote m' = Ok k) by (intro; apply vote_total; assumption).
  unfold result, search_counterfactual. destruct (search_spec c vote PM VT (sort_asc snd (map (fun r => (r, dist r)) cands))) as [[E F]|(l1 & rd & l2 & ch & k & E & S & C & L & K & F)].
  - left. split; [exact E|]. intros r k I. apply (F (r, dist r)). apply sort_by_In. apply in_map_iff. exists r. auto.
  - right. exists ch. split; [exact E|]. apply sorted_first in S. destruct S as (p1 & p2 & S & D & X & Y). split.
    + exists p1, (fst rd), p2, k. splits; try assumption.
      * intros r' k' I Lt L' Nk. apply Nk. apply (F (r', dist r') k'); [apply X; assumption|assumption].
      * intros r' k' I Lt L' Nk. apply Nk. apply (F (r', dist r') k'); [apply Y; assumption|assumption].
    + intros V ->. destruct L as (m' & Am & V'). rewrite (applied_no_change Am C), V in V'. congruence.
Qed.

(** ** multiclass *)
Section Multi.
  Variables (m : imem) (c : Z) (vote : imem -> res Z) (classes : list Z).
  Hypothesis PM : proper m.
  Hypothesis VT : forall m', exists k, vote m' = Ok k.
  Hypothesis NC : NoDup classes.
  Hypothesis VC : forall m' k, vote m' = Ok k -> k <> c -> In k classes.
  Definition minv (p : list (rule string * Qc)) (found : dict Z (list (string * string))) : Prop :=
    NoDup (dkeys found) /\
    (forall k, dget k found = None -> k <> c -> forall rd, In rd p -> ~ leads_to vote (fst rd) m k) /\
    (forall k ch, dget k found = Some ch -> k <> c /\
       exists p1 rd p2, p = p1 ++ rd :: p2 /\ changes (fst rd) m ch /\ leads_to vote (fst rd) m k /\ forall x, In x p1 -> ~ leads_to vote (fst x) m k).
  Lemma minv_keys p found : minv p found -> incl (dkeys found) classes.
  Proof using VC.
    intros (_ & _ & S) k I. apply dget_ex in I. destruct I as [ch E]. destruct (S _ _ E) as (K & _ & rd & _ & _ & _ & (m' & _ & V) & _). eapply VC; eauto.
  Qed.
  Lemma minv_more p l found : minv p found -> (forall k, dget k found = None -> k <> c -> forall rd, In rd l -> ~ leads_to vote (fst rd) m k) -> minv (p ++ l) found.
  Proof using.
    intros (A & B & C) H. split; [assumption|]. split.
    - intros k E K rd I. apply in_app_or in I. destruct I; eauto.
    - intros k ch E. destruct (C _ _ E) as (K & p1 & rd & p2 & -> & R). split; [assumption|]. exists p1, rd, (p2 ++ l). split; [rewrite <- app_assoc; reflexivity|assumption].
  Qed.
  Lemma search_multi_spec l : forall p found, minv p found ->
    exists f, search_multi m c vote (List.length classes) l found = Ok f /\ minv (p ++ l) f.
  Proof using PM VT NC VC.
    induction l as [|rd l IH]; intros p found I; cbn [search_multi]; [exists found; rewrite app_nil_r; auto|].
    destruct (step_spec vote PM VT (fst rd)) as (m' & ch & k & E & V & A & C & L & U). rewrite E. cbn [bind fst snd]. rewrite V. cbn [bind].
    replace (p ++ rd :: l) with ((p ++ [rd]) ++ l) by (rewrite <- app_assoc; reflexivity).
    destruct (Z.eqb_spec k c) as [->|N]; cbn [orb].
    - apply IH. apply minv_more; [assumption|]. intros k _ K x [<-|[]] L'. apply K. apply U. assumption.
    - destruct (dmem k found) eqn:M.
      + apply IH. apply minv_more; [assumption|]. intros k' Ek K x [<-|[]] L'. apply U in L'. subst k'. apply dget_None in Ek. unfold dmem in M. rewrite memb_In in M. contradiction.
      + assert (Nk : dget k found = None) by (apply dget_None; unfold dmem in M; rewrite memb_not_In in M; assumption).
        assert (I' : minv (p ++ [rd]) (dset k ch found)).
        { destruct I as (A1 & B1 & C1). split; [apply dset_nodup; assumption|]. split.
          - intros k' Ek K x Ix L'. rewrite dset_get in Ek. destruct (eqb k' k) eqn:Q; [discriminate|]. apply eqb_neq in Q.
            apply in_app_or in Ix. destruct Ix as [Ix|[<-|[]]]; [eapply B1; eauto|]. apply Q, U. assumption.
          - intros k' ch' Ek. rewrite dset_get in Ek. destruct (eqb k' k) eqn:Q.
            + injection Ek as <-. apply eqb_eq in Q. subst k'. split; [assumption|]. exists p, rd, []. split; [reflexivity|]. split; [assumption|]. split; [assumption|]. intros x Ix. eapply B1; eauto.
            + destruct (C1 _ _ Ek) as (K & p1 & x & p2 & -> & R). split; [assumption|]. exists p1, x, (p2 ++ [rd]). split; [rewrite <- app_assoc; reflexivity|assumption]. }
        destruct (Nat.eqb_spec (List.length (dset k ch found)) (List.length classes)) as [Q|Q]; [|apply IH; assumption].
        exists (dset k ch found). split; [reflexivity|]. apply minv_more; [assumption|].
        intros k' Ek K x Ix (m2 & A2 & V2). apply dget_None in Ek. apply Ek.
        assert (IC : incl classes (dkeys (dset k ch found))).
        { apply NoDup_length_incl; [apply I'| |apply (minv_keys I')]. unfold dkeys. rewrite map_length. lia. }
        apply IC. eapply VC; eauto.
  Qed.
End Multi.

Lemma counterfactual_multi_gen m c rules cands dist :
  proper m -> rules <> [] -> (forall r, In r rules -> r_ant r <> []) -> (forall r, In r cands <-> In r rules /\ r_cons r <> c) ->
  let vote := weighted_vote rules in
  exists f, search_counterfactual_multi m c rules (map (fun r => (r, dist r)) cands) = Ok f /\ NoDup (map fst f) /\
    (forall k, In k (map fst f) <-> k <> c /\ exists r, In r cands /\ leads_to vote r m k) /\
    (forall k ch, In (k, ch) f -> closest_flip vote m c cands dist (fun k' => k' = k) ch).
Proof.
  intros PM N A CD vote. assert (VT : forall m', exists k, vote m' = Ok k) by (intro; apply vote_total; assumption).
  unfold search_counterfactual_multi. set (l := sort_asc snd (map (fun r => (r, dist r)) cands)). set (classes := zunique _).
  destruct (@search_multi_spec m c vote classes PM VT) with (l := l) (p := @nil (rule string * Qc)) (found := @nil (Z * list (string * string))) as (f & E & I).
  - apply zunique_NoDup.
  - intros m' k V K. apply zunique_In. apply max_class in V. apply in_map_iff in V. destruct V as (r & Q & I). apply in_map_iff. exists (r, dist r). split; [exact Q|].
    apply in_map_iff. exists r. split; [reflexivity|]. apply CD. subst k. auto.
  - split; [constructor|]. split; [intros ? ? ? ? []|intros ? ? Q; discriminate].
  - exists f. split; [exact E|]. destruct I as (I1 & I2 & I3). cbn [app] in *. split; [assumption|]. split.
    + intro k. split.
      * intro Ik. apply dget_ex in Ik. destruct Ik as [ch Ek]. destruct (I3 _ _ Ek) as (K & p1 & rd & p2 & S & _ & L & _). split; [assumption|]. exists (fst rd). split; [|assumption].
        assert (Ir : In rd l) by (rewrite S; apply in_or_app; right; left; reflexivity). unfold l in Ir. apply sort_by_In in Ir. apply in_map_iff in Ir. destruct Ir as (r & <- & Ir). assumption.
      * intros (K & r & Ir & L). destruct (dget k f) as [ch|] eqn:Ek; [apply dget_Some_key in Ek; assumption|]. exfalso. apply (I2 k Ek K (r, dist r)); [|assumption]. apply sort_by_In. apply in_map_iff. exists r. auto.
    + intros k ch Ik. apply dget_nodup in Ik; [|assumption]. destruct (I3 _ _ Ik) as (K & p1 & rd & p2 & S & C & L & F). apply sorted_first in S. destruct S as (q1 & q2 & S & D & X & Y).
      exists q1, (fst rd), q2, k. splits; try assumption; try reflexivity.
      * intros r' k' Ir Lt L' ->. apply (F (r', dist r')); [apply X; assumption|assumption].
      * intros r' k' Ir Lt L' ->. apply (F (r', dist r')); [apply Y; assumption|assumption].
Qed.

(** ** FID3 *)
Lemma differ_sym a b f : differ a b f <-> differ b a f.
Proof. split; intros (v & [H|H]); exists v; tauto. Qed.
Lemma compare_spec a b : n_differ a b (compare_rules_FID3 a b).
Proof.
  unfold compare_rules_FID3. cbv zeta. set (p := fun f => negb _). eexists. split; [apply NoDup_nodup|]. split; [|reflexivity].
  intro f. rewrite nodup_In, in_app_iff, !filter_In.
  assert (Q : p f = true <-> ~ (exists v, wants a f v /\ wants b f v)).
  { unfold p. destruct (dget f (ant_dict a)) as [v|] eqn:Ea.
    - destruct (dget f (ant_dict b)) as [w|] eqn:Eb.
      + rewrite negb_true_iff, eqb_neq. split.
        * intros N (u & U1 & U2). rewrite wants_dget in U1, U2. congruence.
        * intros N ->. apply N. exists w. rewrite !wants_dget. auto.
      + split; [|reflexivity]. intros _ (u & U1 & U2). rewrite wants_dget in U2. congruence.
    - split; [|reflexivity]. intros _ (u & U1 & U2). rewrite wants_dget in U1. congruence. }
  assert (K : forall r, In f (dkeys (ant_dict r)) <-> exists v, wants r f v).
  { intro r. split; [intro I; apply dget_ex in I; destruct I as [v E]; exists v; apply wants_dget; assumption|]. intros [v W]. rewrite wants_dget in W. apply dget_Some_key in W. assumption. }
  rewrite !K, Q. split.
  - intros [[[v W] N]|[[v W] N]].
    + exists v. left. split; [assumption|]. intro W'. apply N. eauto.
    + exists v. right. split; [assumption|]. intro W'. apply N. eauto.
  - intros (v & [[W N]|[W N]]).
    + left. split; [eauto|]. intros (u & U1 & U2). apply N. rewrite (wants_fun W U1). assumption.
    + right. split; [eauto|]. intros (u & U1 & U2). apply N. rewrite (wants_fun W U2). assumption.
Qed.
Lemma n_differ_fun a b n k : n_differ a b n -> n_differ a b k -> n = k.
Proof.
  intros (fs & N & I & ->) (gs & N' & I' & ->). apply Permutation_length, NoDup_Permutation; try assumption. intro f. rewrite I, I'. tauto.
Qed.
Lemma fid3_gen factual counter_rules :
  let D := compare_rules_FID3 factual in
  (counter_rules = [] /\ FID3_counterfactual factual counter_rules = ([], None)) \/
  (exists mn, FID3_counterfactual factual counter_rules = (filter (fun r => Nat.eqb (D r) mn) counter_rules, Some mn) /\
     (exists r, In r counter_rules /\ D r = mn) /\ forall r, In r counter_rules -> (mn <= D r)%nat).
Proof.
  intro D. destruct counter_rules as [|r0 rest]; [left; auto|right]. unfold FID3_counterfactual. cbn [fold_left snd fst].
  fold D. change (compare_rules_FID3 factual r0) with (D r0).
  match goal with |- context [fold_left ?g rest _] => set (step := g) end.
  assert (G : forall l p mn, (exists r, In r p /\ D r = mn) -> (forall r, In r p -> (mn <= D r)%nat) ->
     exists mn', fold_left step l (filter (fun r => Nat.eqb (D r) mn) p, Some mn) = (filter (fun r => Nat.eqb (D r) mn') (p ++ l), Some mn') /\
       (exists r, In r (p ++ l) /\ D r = mn') /\ forall r, In r (p ++ l) -> (mn' <= D r)%nat).
  { induction l as [|r l IH]; intros p mn X Y; [exists mn; rewrite app_nil_r; auto|]. cbn [fold_left]. unfold step at 2. cbn [snd fst]. change (compare_rules_FID3 factual r) with (D r).
    replace (p ++ r :: l) with ((p ++ [r]) ++ l) by (rewrite <- app_assoc; reflexivity).
    destruct (Nat.ltb_spec (D r) mn) as [Lt|Ge].
    - assert (Q : filter (fun x => Nat.eqb (D x) (D r)) (p ++ [r]) = [r]).
      { rewrite filter_app. cbn [filter]. rewrite Nat.eqb_refl. replace (filter (fun x => Nat.eqb (D x) (D r)) p) with (@nil (rule string)); [reflexivity|]. symmetry. clear - Y Lt. induction p as [|x p IH]; [reflexivity|]. cbn. pose proof (Y x (or_introl eq_refl)). destruct (Nat.eqb_spec (D x) (D r)); [lia|]. apply IH. intros; apply Y; right; assumption. }
      specialize (IH (p ++ [r]) (D r)). rewrite Q in IH. apply IH; [exists r; split; [apply in_or_app; right; left; reflexivity|reflexivity]|]. intros x Hx. apply in_app_or in Hx. destruct Hx as [Hx|[<-|[]]]; [specialize (Y _ Hx); lia|lia].
    - specialize (IH (p ++ [r]) mn). rewrite filter_app in IH. cbn [filter] in IH. destruct (Nat.eqb_spec (D r) mn) as [E|E]; [|rewrite app_nil_r in IH];
      (apply IH; [destruct X as (x & I & Q); exists x; split; [apply in_or_app; auto|assumption]|]; intros x Hx; apply in_app_or in Hx; destruct Hx as [Hx|[<-|[]]]; [auto|lia]). }
  destruct (G rest [r0] (D r0)) as (mn & E & X & Y).
  - exists r0. split; [left; reflexivity|reflexivity].
  - intros r [<-|[]]. lia.
  - cbn [filter] in E. rewrite Nat.eqb_refl in E. exists mn. split; [exact E|]. split; assumption.
Qed.

(** ** Distances *)
Lemma index_of_spec x l i : NoDup l -> nth_error l i = Some x -> index_of x l = Ok i.
Proof.
  revert i. induction l as [|y l IH]; intros i N E; [destruct i; discriminate|]. inversion N as [|? ? Ny Nl]; subst. cbn. destruct i as [|i]; cbn in E.
  - injection E as ->. rewrite eqb_refl. reflexivity.
  - destruct (eqb x y) eqn:Q; [apply eqb_eq in Q; subst; exfalso; apply Ny; eapply nth_error_In; eauto|]. rewrite (IH i Nl E). reflexivity.
Qed.
Lemma literal_steps row v w x : NoDup (map fst row) -> steps row v w x -> literal_distance row v w = Ok x.
Proof.
  intros N (i & j & Ei & Ej & L & ->). unfold literal_distance, dkeys. rewrite (index_of_spec _ N Ei), (index_of_spec _ N Ej). cbn [bind]. unfold pdiv.
  destruct (qeqb_spec (qn (List.length row) - 1) 0) as [Z|Z]; [|reflexivity]. exfalso.
  assert (qn 2 <= qn (List.length row)) by (apply qn_le; assumption). change (qn 2) with (qz 2) in *. change (qz 2) with (1 + 1) in *. qlra.
Qed.
Lemma steps_01 row v w x : NoDup (map fst row) -> steps row v w x -> 0 <= x /\ x <= 1 /\ (x = 0 <-> v = w).
Proof.
  intros N (i & j & Ei & Ej & L & ->). assert (L2 : qn 2 <= qn (List.length row)) by (apply qn_le; assumption). change (qn 2) with (1 + 1) in L2.
  assert (Li : (i < List.length row)%nat) by (rewrite <- (map_length fst); apply nth_error_Some; congruence).
  assert (Lj : (j < List.length row)%nat) by (rewrite <- (map_length fst); apply nth_error_Some; congruence).
  assert (Qi : qn i + 1 <= qn (List.length row)) by (rewrite Qcplus_comm, <- qn_S; apply qn_le; lia).
  assert (Qj : qn j + 1 <= qn (List.length row)) by (rewrite Qcplus_comm, <- qn_S; apply qn_le; lia).
  pose proof (qn_nonneg i) as Pi. pose proof (qn_nonneg j) as Pj.
  assert (B : qabs (qn i - qn j) <= qn (List.length row) - 1) by (apply qabs_le; split; qlra).
  destruct (Qcdiv_01 (qabs_nonneg (qn i - qn j)) B) as [C1 C2]; [qlra|]. split; [assumption|]. split; [assumption|].
  rewrite Qcdiv_eq by (intro Z; qlra). rewrite Qcmult_0_l, qabs_zero. split.
  - intro Z. assert (Q : qn i = qn j) by qlra. apply qn_inj in Q. subst j. congruence.
  - intros ->. assert (i = j); [|subst; qlra]. apply (proj1 (NoDup_nth_error _) N); [rewrite map_length; assumption|congruence].
Qed.
Lemma foldM_cost (g : string -> res Qc) cost : forall l acc,
  (forall f, In f l -> g f = Ok (cost f)) -> foldM (fun acc f => do d <- g f; Ok (acc + d)) acc l = Ok (acc + qsum (map cost l)).
Proof.
  induction l as [|f l IH]; intros acc H; cbn [foldM map]; [rewrite qsum_nil, Qcplus_0_r; reflexivity|]. rewrite H by (left; reflexivity). cbn [bind]. rewrite IH by (intros; apply H; right; assumption).
  rewrite qsum_cons, Qcplus_assoc. reflexivity.
Qed.
Lemma foldM_ext_in S A (f g : S -> A -> res S) l : (forall s x, In x l -> f s x = g s x) -> forall s, foldM f s l = foldM g s l.
Proof.
  induction l as [|x l IH]; intros H s; [reflexivity|]. cbn. rewrite H by (left; reflexivity). destruct (g s x); cbn; [|reflexivity]. apply IH. intros; apply H; right; assumption.
Qed.
Lemma qn_countb A (p : A -> bool) l : qn (countb p l) = qsum (map (fun x => if p x then 1 else 0) l).
Proof.
  unfold countb. induction l as [|x l IH]; [reflexivity|]. cbn [filter map]. rewrite qsum_cons. destruct (p x); cbn [List.length]; [rewrite qn_S|rewrite Qcplus_0_l]; rewrite IH; reflexivity.
Qed.
Lemma fuzzified_spec m : (forall f row, In (f, row) m -> row <> []) -> exists fz, fuzzified m = Ok fz /\ Forall2 (fun fr fs => fst fs = fst fr /\ strongest (snd fr) (snd fs)) m fz.
Proof.
  unfold fuzzified. induction m as [|[f row] m IH]; intro H; [exists []; split; [reflexivity|constructor]|].
  destruct IH as (fz & E & F); [intros; eapply H; right; eauto|]. destruct (@strongest_ex row) as [s S]; [eapply H; left; reflexivity|].
  pose proof S as S'. rewrite <- strongest_iff in S'. cbn [mapM fst snd]. rewrite S'. cbn [bind]. rewrite E. cbn [bind]. exists ((f, s) :: fz). split; [reflexivity|]. constructor; [cbn; auto|assumption].
Qed.
Lemma Forall2_dget A B (R : A -> B -> Prop) (m : dict string A) fz f a : Forall2 (fun fr fs => fst fs = fst fr /\ R (snd fr) (snd fs)) m fz ->
  dget f m = Some a -> exists b, dget f fz = Some b /\ R a b.
Proof.
  intro F. induction F as [|[g x] [g' y] m fz [E P] F IH]; cbn; [discriminate|]. cbn in *. subst. destruct (eqb f g); [|assumption]. intro Q. injection Q as <-. exists y. auto.
Qed.
Lemma Forall2_keys A B (R : A -> B -> Prop) (m : dict string A) (fz : dict string B) : Forall2 (fun fr fs => fst fs = fst fr /\ R (snd fr) (snd fs)) m fz -> dkeys fz = dkeys m.
Proof. intro F. induction F as [|x y m fz [E P] F IH]; [reflexivity|]. cbn. f_equal; assumption. Qed.
Lemma nodup_nth_dget A (row : dict string A) v d : NoDup (map fst row) -> In (v, d) row -> dget v row = Some d.
Proof. intros. apply dget_nodup; assumption. Qed.

Section Dist.
  Variables (same : string -> string -> string -> bool) (num : list string).
  Hypothesis NN : NoDup num.
  (** both distances: categorical count over common features plus a sum over numerical ones *)
  Lemma dist_sum (elem cf : dict string string) (cost : string -> Qc) fs (g : string -> res Qc) :
    NoDup (dkeys elem) -> lists fs (fun f => In f (dkeys elem) /\ In f (dkeys cf)) ->
    (forall f v w, ~ In f num -> dget f elem = Some v -> dget f cf = Some w -> same f v w = eqb v w) ->
    (forall f v w, ~ In f num -> dget f elem = Some v -> dget f cf = Some w -> cost f = if eqb v w then 0 else 1) ->
    (forall f, In f num -> In f fs -> g f = Ok (cost f)) ->
    foldM (fun acc f => do d <- g f; Ok (acc + d)) (qn (categorical_distance same elem cf num)) (num_keys elem cf num) = Ok (qsum (map cost fs)).
  Proof using NN.
    intros ND [NF HF] SM CC CN. rewrite (@foldM_cost g cost).
    2:{ intros f I. unfold num_keys in I. apply filter_In in I. destruct I as [I J]. apply andb_true_iff in J. unfold dmem in J. rewrite !memb_In in J. apply CN; [assumption|]. apply HF. assumption. }
    apply (f_equal (@Ok _)). unfold categorical_distance. rewrite qn_countb.
    set (cats := filter (fun f => dmem f cf && negb (memb f num)) (dkeys elem)).
    assert (IC : forall f, In f cats <-> In f fs /\ ~ In f num).
    { intro f. unfold cats. rewrite filter_In, andb_true_iff, negb_true_iff, memb_not_In. unfold dmem. rewrite memb_In, HF. tauto. }
    assert (IK : forall f, In f (num_keys elem cf num) <-> In f fs /\ In f num).
    { intro f. unfold num_keys. rewrite filter_In, andb_true_iff. unfold dmem. rewrite !memb_In, HF. tauto. }
    replace (map _ cats) with (map cost cats).
    - rewrite <- qsum_app, <- map_app. apply qsum_perm, Permutation_map, NoDup_Permutation.
      + apply NoDup_app_intro; [unfold cats; apply NoDup_filter; assumption|unfold num_keys; apply NoDup_filter; assumption|]. intros f I J. apply IC in I. apply IK in J. tauto.
      + assumption.
      + intro f. rewrite in_app_iff, IC, IK. destruct (in_dec string_dec f num); tauto.
    - apply map_ext_in. intros f I. apply IC in I. destruct I as [I J]. apply HF in I. destruct I as [I1 I2]. apply dget_ex in I1. apply dget_ex in I2. destruct I1 as [v Ev], I2 as [w Ew].
      rewrite Ev, Ew, (SM f v w J Ev Ew), (CC f v w J Ev Ew). destruct (eqb v w); reflexivity.
  Qed.
End Dist.
