(** * Proofs about binary fuzzy decision trees: partitions, scoring and one step of training *)
From Verif Require Import Prelude M_Fuzzy M_Discretize M_Rule M_FDT M_FBDT S_Rule S_FDT S_FBDT P_FuzzySet P_FuzzyVar P_Entropy P_Rule P_FDT P_FDT2.
From Coq Require Import Reals Lra.
Set Implicit Arguments.
Open Scope Qc_scope.

(** ** available sets *)
Lemma available_nil vars a : available vars [] a = seq 0 (nsets vars a).
Proof. unfold available. cbn [forallb]. induction (seq 0 (nsets vars a)) as [|x l IH]; [reflexivity|]. cbn [filter]. rewrite IH. reflexivity. Qed.
Lemma filter_and A (f g : A -> bool) l : filter (fun x => f x && g x) l = filter g (filter f l).
Proof. induction l as [|x l IH]; [reflexivity|]. cbn [filter]. destruct (f x); cbn [andb filter]; [destruct (g x)|]; rewrite IH; reflexivity. Qed.
Lemma filter_all A (f : A -> bool) l : (forall x, In x l -> f x = true) -> filter f l = l.
Proof. induction l as [|x l IH]; intro H; [reflexivity|]. cbn [filter]. rewrite (H x (or_introl eq_refl)), IH; [reflexivity|]. intros; apply H; right; assumption. Qed.
Lemma available_snoc vars p a g b : available vars (p ++ [(a, g)]) b = if Nat.eqb a b then filter (fun i => memb i g) (available vars p b) else available vars p b.
Proof.
  unfold available. rewrite (filter_ext _ (fun i => forallb (fun l => negb (Nat.eqb (fst l) b) || memb i (snd l)) p && (negb (Nat.eqb a b) || memb i g))).
  - rewrite filter_and. destruct (Nat.eqb a b); cbn [negb orb]; [reflexivity|]. apply filter_all. reflexivity.
  - intro i. rewrite forallb_app. cbn [forallb fst snd]. rewrite andb_true_r. reflexivity.
Qed.
Lemma available_NoDup vars p a : NoDup (available vars p a).
Proof. apply NoDup_filter, seq_NoDup. Qed.
Lemma available_valid vars p a i v : nth_error vars a = Some v -> In i (available vars p a) -> exists s, nth_error (fv_sets v) i = Some s.
Proof.
  intros Hv H. apply filter_In in H. destruct H as [H _]. unfold nsets in H. rewrite Hv in H. apply in_seq in H.
  destruct (nth_error (fv_sets v) i) as [s|] eqn:E; [eauto|]. apply nth_error_None in E. lia.
Qed.
Lemma set_name_inj v i j s s' : NoDup (map fs_name (fv_sets v)) -> nth_error (fv_sets v) i = Some s -> nth_error (fv_sets v) j = Some s' ->
  set_name v i = set_name v j -> i = j.
Proof.
  intros N Hi Hj E. unfold set_name in E. rewrite Hi, Hj in E.
  apply (proj1 (NoDup_nth_error _) N); [rewrite map_length; apply nth_error_Some; congruence|].
  rewrite !nth_error_map, Hi, Hj. cbn. congruence.
Qed.
Lemma map_set_name v : map (set_name v) (seq 0 (List.length (fv_sets v))) = map fs_name (fv_sets v).
Proof.
  unfold set_name. remember (fv_sets v) as l eqn:E. clear E.
  assert (G : forall l2 l1, map (fun i => match nth_error (l1 ++ l2) i with Some s => fs_name s | None => ""%string end) (seq (List.length l1) (List.length l2)) = map fs_name l2).
  { induction l2 as [|s l2 IH]; intro l1; [reflexivity|]. cbn [List.length seq map]. rewrite nth_error_app2, Nat.sub_diag by lia. cbn [nth_error]. f_equal.
    specialize (IH (l1 ++ [s])). rewrite app_length, Nat.add_1_r in IH. rewrite <- app_assoc in IH. exact IH. }
  exact (G l []).
Qed.

(** ** heaps *)
Lemma hwrite_length h a v : List.length (hwrite h a v) = List.length h.
Proof. revert a. induction h as [|x h IH]; intros [|a]; try reflexivity. cbn. rewrite IH. reflexivity. Qed.
Lemma hwrite_same h a v : (a < List.length h)%nat -> hread (hwrite h a v) a = v.
Proof. unfold hread. revert a. induction h as [|x h IH]; intros [|a] H; cbn in *; try lia; [reflexivity|]. apply IH. lia. Qed.
Lemma hwrite_other h a b v : a <> b -> hread (hwrite h a v) b = hread h b.
Proof. unfold hread. revert a b. induction h as [|x h IH]; intros [|a] [|b] H; cbn; try reflexivity; try congruence. apply IH. congruence. Qed.
Lemma hread_app h v a : (a < List.length h)%nat -> hread (h ++ [v]) a = hread h a.
Proof. intro H. unfold hread. apply app_nth1. assumption. Qed.
Lemma hread_new h v : hread (h ++ [v]) (List.length h) = v.
Proof. unfold hread. rewrite app_nth2, Nat.sub_diag by lia. reflexivity. Qed.
Lemma hwrite_id h a : hwrite h a (hread h a) = h.
Proof. unfold hread. revert a. induction h as [|x h IH]; intros [|a]; cbn; try reflexivity. f_equal. apply IH. Qed.

Section FBDT.
  Variable cfg : fdt_cfg.
  Variable psort : list (string * option Qc) -> list (string * option Qc).
  Variable X : list (list cell).
  Variable y : list Z.
  Variable cats : list string.
  Hypothesis Hsort : forall l, Permutation (psort l) l.
  Hypothesis Hnames : distinct_names (f_vars cfg).
  Hypothesis Hlen : List.length X = List.length y.
  Hypothesis Hy : y <> [].
  Let vars := f_vars cfg.
  Let XM := exact_mem vars X.
  Let ND : NoDup (map fv_name vars) := proj1 Hnames.
  Let n := List.length y.
  Hypothesis Hcats : forall v, In v vars -> (In (fv_name v) cats <-> ~ continuous v).

  (** the dictionary of available set names at path [p] *)
  Definition fd_of (p : list glit) : dict string (list string) :=
    map (fun iv => (fv_name (snd iv), map (set_name (snd iv)) (available vars p (fst iv)))) (enumerate vars).
  Lemma fd_keys p : dkeys (fd_of p) = map fv_name vars.
  Proof. unfold fd_of, dkeys. rewrite map_map. cbn [fst]. apply map_enumerate. Qed.
  Lemma fd_get p a v : nth_error vars a = Some v -> dget (fv_name v) (fd_of p) = Some (map (set_name v) (available vars p a)).
  Proof.
    intro Hv. apply dget_nodup; [rewrite fd_keys; assumption|]. apply in_map_iff. exists (a, v). split; [reflexivity|]. apply enumerate_In. assumption.
  Qed.
  Lemma fd_initial : initial_sets vars = fd_of [].
  Proof.
    unfold initial_sets. rewrite dict_of_nodup by (rewrite map_map; exact ND). unfold fd_of. rewrite <- (map_enumerate (fun v => (fv_name v, map fs_name (fv_sets v)))).
    apply map_ext_in. intros [a v] H. cbn [fst snd]. apply enumerate_In in H. rewrite available_nil. unfold nsets. rewrite H, map_set_name. reflexivity.
  Qed.
  Lemma vsets a v : nth_error vars a = Some v -> NoDup (map fs_name (fv_sets v)).
  Proof. intro Hv. apply (proj2 Hnames). eapply nth_error_In; eassumption. Qed.
  Lemma dset_map_nodup (l : list (string * list string)) k v : NoDup (map fst l) -> In k (map fst l) ->
    dset k v l = map (fun kv => (fst kv, if eqb (fst kv) k then v else snd kv)) l.
  Proof.
    clear. induction l as [|[k0 v0] l IH]; intros N I; [destruct I|]. cbn [dset map fst snd]. inversion N as [|? ? N1 N2]; subst.
    unfold eqb. destruct (eq_dec k k0) as [->|Ne].
    - destruct (eq_dec k0 k0) as [_|]; [|congruence]. f_equal. clear - N1. induction l as [|[k1 v1] l IH]; [reflexivity|]. cbn [map fst snd].
      destruct (eq_dec k1 k0) as [->|]; [exfalso; apply N1; left; reflexivity|]. f_equal. apply IH. intro; apply N1; right; assumption.
    - destruct (eq_dec k0 k) as [->|]; [congruence|]. f_equal. destruct I as [E|I]; [cbn in E; congruence|]. apply IH; assumption.
  Qed.
  Lemma fd_child p a v g : nth_error vars a = Some v -> incl g (available vars p a) ->
    dset (fv_name v) (filter (fun x => memb x (map (set_name v) g)) (map (set_name v) (available vars p a))) (fd_of p) = fd_of (p ++ [(a, g)]).
  Proof.
    intros Hv Hg. rewrite dset_map_nodup.
    - unfold fd_of at 1. rewrite map_map. unfold fd_of. apply map_ext_in. intros [b w] Hb. apply enumerate_In in Hb. cbn [fst snd]. f_equal.
      rewrite available_snoc. destruct (Nat.eqb_spec a b) as [->|Ne].
      + rewrite Hb in Hv. injection Hv as ->. rewrite eqb_refl.
        assert (H : forall l, incl l (available vars p b) -> filter (fun x => memb x (map (set_name v) g)) (map (set_name v) l) = map (set_name v) (filter (fun i => memb i g) l)).
        { induction l as [|i l IH]; intro Hl; [reflexivity|]. cbn [map filter].
          assert (E : memb (set_name v i) (map (set_name v) g) = memb i g).
          { apply eq_true_iff_eq. rewrite !memb_In. split; intro I; [|apply in_map; assumption]. apply in_map_iff in I. destruct I as [j [E I]].
            destruct (@available_valid vars p b i v Hb (Hl i (or_introl eq_refl))) as [s Hs]. destruct (@available_valid vars p b j v Hb (Hg j I)) as [s' Hs'].
            rewrite <- (@set_name_inj v j i s' s (vsets b Hb) Hs' Hs E). assumption. }
          rewrite E. assert (Hl' : incl l (available vars p b)) by (intros x Hx; apply Hl; right; assumption).
          destruct (memb i g); cbn [map]; rewrite (IH Hl'); reflexivity. }
        apply H. intros x Hx. assumption.
      + unfold eqb. destruct (eq_dec (fv_name w) (fv_name v)) as [E|]; [|reflexivity]. exfalso. apply Ne.
        exact (@index_inj cfg Hnames a b v w Hv Hb (eq_sym E)).
    - change (NoDup (dkeys (fd_of p))). rewrite fd_keys. assumption.
    - change (In (fv_name v) (dkeys (fd_of p))). rewrite fd_keys. apply in_map. eapply nth_error_In; eassumption.
  Qed.

  (** ** candidate partitions *)
  Definition split_ok (p : list glit) (a : nat) (v : fvar) (g1 g2 : list nat) : Prop :=
    nth_error vars a = Some v /\ g1 <> [] /\ g2 <> [] /\ Permutation (g1 ++ g2) (available vars p a) /\
    (continuous v -> g1 ++ g2 = available vars p a).
  Definition part_ok (p : list glit) (q : partition) : Prop :=
    exists a v g1 g2, split_ok p a v g1 g2 /\ q = (fv_name v, map (set_name v) g1, map (set_name v) g2).
  Lemma cuts_In f splits q : In q (cuts f splits) -> exists l r, splits = l ++ r /\ l <> [] /\ r <> [] /\ q = (f, l, r).
  Proof.
    clear. unfold cuts. intro H. apply in_map_iff in H. destruct H as [i [<- H]]. apply in_seq in H.
    exists (firstn (S i) splits), (skipn (S i) splits). split; [symmetry; apply firstn_skipn|]. split; [|split; [|reflexivity]].
    - destruct splits; [cbn in H; lia|discriminate].
    - intro E. assert (L := skipn_length (S i) splits). rewrite E in L. cbn [List.length] in L. lia.
  Qed.
  Lemma cuts_ok p a v splits g : nth_error vars a = Some v -> splits = map (set_name v) g -> Permutation g (available vars p a) ->
    (continuous v -> g = available vars p a) -> forall q, In q (cuts (fv_name v) splits) -> part_ok p q.
  Proof.
    intros Hv -> Hg Hc q Hq. apply cuts_In in Hq. destruct Hq as (l & r & E & L & R & ->).
    apply map_eq_app in E. destruct E as (g1 & g2 & -> & <- & <-). exists a, v, g1, g2. split; [|reflexivity].
    split; [assumption|]. split; [intros ->; apply L; reflexivity|]. split; [intros ->; apply R; reflexivity|]. split; assumption.
  Qed.
  Lemma set_column_ok a v i s : nth_error vars a = Some v -> nth_error (fv_sets v) i = Some s ->
    set_column XM (fv_name v) (set_name v i) = Ok (map (fun row => lit_degree vars row (a, i)) X).
  Proof.
    intros Hv Hs. unfold set_column, XM. rewrite (@exact_mem_get vars X a v ND Hv). cbn [ret_opt bind]. unfold set_name. rewrite Hs.
    unfold exact_sets. rewrite (@dget_nodup _ _ _ _ (map (fun row => lit_degree vars row (a, i)) X)); [reflexivity| |].
    - unfold dkeys. rewrite map_map. cbn [fst]. rewrite (map_enumerate fs_name). eapply vsets; eassumption.
    - apply in_map_iff. exists (i, s). split; [reflexivity|]. apply enumerate_In. assumption.
  Qed.
  Lemma partitions_ok p : exists ps, binary_partitions psort cats (fd_of p) XM y = Ok ps /\ forall q, In q ps -> part_ok p q.
  Proof.
    unfold binary_partitions.
    assert (F : exists f, nth_error (zunique y) 0 = Some f).
    { destruct (zunique y) as [|f l] eqn:E; [|exists f; reflexivity]. exfalso. destruct y as [|c y']; [congruence|].
      assert (I : In c (zunique (c :: y'))) by (apply zunique_In; left; reflexivity). rewrite E in I. destruct I. }
    destruct F as [f ->]. cbn [ret_opt bind].
    assert (G : forall l, incl l (enumerate vars) -> exists pss, mapM (fun fs =>
       if memb (fst fs) cats then
        do keyed <- mapM (fun val => do col <- set_column XM (fst fs) val; Ok (val, positive_share col y f)) (snd fs);
        Ok (cuts (fst fs) (map fst (psort keyed)))
      else Ok (cuts (fst fs) (snd fs))) (map (fun iv => (fv_name (snd iv), map (set_name (snd iv)) (available vars p (fst iv)))) l) = Ok pss /\
      forall q, In q (List.concat pss) -> part_ok p q).
    { induction l as [|[a v] l IH]; intro Hl; [exists []; split; [reflexivity|intros q []]|].
      assert (Hv : nth_error vars a = Some v) by (apply enumerate_In, Hl; left; reflexivity).
      destruct IH as [pss [E P]]; [intros x Hx; apply Hl; right; assumption|].
      cbn [map mapM fst snd].
      assert (Q : exists ps, (if memb (fv_name v) cats then
        do keyed <- mapM (fun val => do col <- set_column XM (fv_name v) val; Ok (val, positive_share col y f)) (map (set_name v) (available vars p a));
        Ok (cuts (fv_name v) (map fst (psort keyed))) else Ok (cuts (fv_name v) (map (set_name v) (available vars p a)))) = Ok ps /\
        forall q, In q ps -> part_ok p q).
      { assert (Hc := Hcats v (nth_error_In _ _ Hv)). destruct (memb (fv_name v) cats) eqn:B.
        - rewrite memb_In in B.
          assert (K : forall l', incl l' (available vars p a) -> mapM (fun val => do col <- set_column XM (fv_name v) val; Ok (val, positive_share col y f)) (map (set_name v) l')
             = Ok (map (fun i => (set_name v i, positive_share (map (fun row => lit_degree vars row (a, i)) X) y f)) l')).
          { induction l' as [|i l' IH]; intro Hi; [reflexivity|]. cbn [map mapM].
            destruct (@available_valid vars p a i v Hv (Hi i (or_introl eq_refl))) as [s Hs]. rewrite (@set_column_ok a v i s Hv Hs). cbn [bind].
            rewrite IH by (intros x Hx; apply Hi; right; assumption). reflexivity. }
          rewrite K by (intros x Hx; assumption). cbn [bind].
          remember (map (fun i => (set_name v i, positive_share (map (fun row => lit_degree vars row (a, i)) X) y f)) (available vars p a)) as keyed.
          assert (PM := Permutation_map fst (Hsort keyed)). rewrite Heqkeyed in PM at 2. rewrite map_map in PM. cbn [fst] in PM.
          apply Permutation_map_inv in PM. destruct PM as [g [E1 E2]]. eexists. split; [reflexivity|].
          apply (@cuts_ok p a v _ g Hv E1 (Permutation_sym E2)). intro C. exfalso. apply Hc; assumption.
        - eexists. split; [reflexivity|]. apply (@cuts_ok p a v _ (available vars p a) Hv eq_refl (Permutation_refl _)). reflexivity. }
      destruct Q as [ps [-> Q]]. cbn [bind]. rewrite E. cbn [bind]. eexists. split; [reflexivity|].
      cbn [List.concat]. intros q Hq. apply in_app_or in Hq. destruct Hq; auto. }
    destruct (G (enumerate vars)) as [pss [E P]]; [intros x Hx; assumption|].
    unfold fd_of. rewrite E. cbn [bind]. eauto.
  Qed.

  (** ** scoring *)
  Definition mu_ok (mu : list Qc) : Prop := List.length mu = n /\ Forall (fun x => 0 <= x) mu.
  Definition heap_ok (h : heap) : Prop := forall a, (a < List.length h)%nat -> List.length (hread h a) = n.
  Lemma heap_ok_write h a v : heap_ok h -> List.length v = n -> heap_ok (hwrite h a v).
  Proof.
    intros H L b Hb. rewrite hwrite_length in Hb. destruct (Nat.eq_dec a b) as [->|N]; [rewrite hwrite_same by assumption; assumption|].
    rewrite hwrite_other by assumption. apply H. assumption.
  Qed.
  Lemma heap_ok_alloc h v : heap_ok h -> List.length v = n -> heap_ok (h ++ [v]).
  Proof.
    intros H L b Hb. rewrite app_length in Hb. cbn in Hb. destruct (Nat.eq_dec b (List.length h)) as [->|N]; [rewrite hread_new; assumption|].
    rewrite hread_app by lia. apply H. lia.
  Qed.
  Lemma map2_len A B C (f : A -> B -> C) l l' : List.length l = n -> List.length l' = n -> List.length (map2 f l l') = n.
  Proof. intros A1 A2. rewrite map2_length, A1, A2. apply Nat.min_id. Qed.
  Definition side_sum (a : nat) (g : list nat) : list Qc := map (fun row => side_degree vars row (a, g)) X.
  Lemma side_degree_nonneg row l : 0 <= side_degree vars row l.
  Proof. apply qsum_nonneg. apply Forall_forall. intros x Hx. apply in_map_iff in Hx. destruct Hx as [i [<- _]]. apply lit_degree_01. Qed.
  Lemma sum_sets_ok p a v g : nth_error vars a = Some v -> incl g (available vars p a) ->
    sum_sets XM n (fv_name v) (map (set_name v) g) = Ok (side_sum a g).
  Proof.
    intros Hv Hg. unfold sum_sets.
    assert (E : mapM (set_column XM (fv_name v)) (map (set_name v) g) = Ok (map (fun i => map (fun row => lit_degree vars row (a, i)) X) g)).
    { revert Hg. induction g as [|i g IH]; intro Hg; [reflexivity|]. cbn [map mapM].
      destruct (@available_valid vars p a i v Hv (Hg i (or_introl eq_refl))) as [s Hs]. rewrite (@set_column_ok a v i s Hv Hs). cbn [bind].
      rewrite IH by (intros x Hx; apply Hg; right; assumption). reflexivity. }
    rewrite E. cbn [bind]. apply (f_equal (@Ok _)).
    assert (G : forall (f : list cell -> Qc), fold_left (map2 Qcplus) (map (fun i => map (fun row => lit_degree vars row (a, i)) X) g) (map f X)
       = map (fun row => f row + qsum (map (fun i => lit_degree vars row (a, i)) g)) X).
    { clear. induction g as [|i g IH]; intro f; cbn [map fold_left].
      - apply map_ext. intro row. rewrite qsum_nil. ring.
      - assert (E : map2 Qcplus (map f X) (map (fun row => lit_degree vars row (a, i)) X) = map (fun row => f row + lit_degree vars row (a, i)) X).
        { clear. induction X as [|r X' IH]; [reflexivity|]. cbn [map map2]. rewrite IH. reflexivity. }
        rewrite E, IH. apply map_ext. intro row. rewrite qsum_cons. ring. }
    replace (repeat 0 n) with (map (fun _ : list cell => 0) X).
    - rewrite G. apply map_ext. intro row. unfold side_degree. cbn [fst snd]. ring.
    - unfold n. rewrite <- Hlen. clear. induction X as [|r X' IH]; [reflexivity|]. cbn. rewrite IH. reflexivity.
  Qed.
  Lemma side_sum_ok a g : mu_ok (side_sum a g).
  Proof.
    split; [unfold side_sum; rewrite map_length; assumption|]. apply Forall_forall. intros x Hx. apply in_map_iff in Hx. destruct Hx as [row [<- _]]. apply side_degree_nonneg.
  Qed.
  Lemma map2_nonneg (f : Qc -> Qc -> Qc) l l' : (forall a b, 0 <= a -> 0 <= b -> 0 <= f a b) -> Forall (fun x => 0 <= x) l -> Forall (fun x => 0 <= x) l' ->
    Forall (fun x => 0 <= x) (map2 f l l').
  Proof. clear. intros H F. revert l'. induction F as [|x l Hx F IH]; intros l' F'; [constructor|]. destruct F' as [|z l' Hz F']; cbn; constructor; auto. Qed.
  Definition ign_ok (h : heap) (ign : dict string nat) : Prop := forall f a, dget f ign = Some a -> (a < List.length h)%nat.
  Lemma map2_qmax_nonneg l l' : Forall (fun x => 0 <= x) l -> Forall (fun x => 0 <= x) (map2 qmax l l').
  Proof.
    clear. intro F. revert l'. induction F as [|x l Hx F IH]; intros [|z l']; cbn; constructor; auto. eapply Qcle_trans; [exact Hx|apply qmax_l].
  Qed.
  Lemma score_side_ok p h mu ign a v g : heap_ok h -> mu_ok mu -> ign_ok h ign -> nth_error vars a = Some v -> incl g (available vars p a) ->
    exists h' mu' ad, score_side h mu ign XM n (fv_name v) (map (set_name v) g) = Ok (h', mu', ad) /\
      heap_ok h' /\ (List.length h <= List.length h')%nat /\ mu_ok mu' /\ (ad < List.length h')%nat.
  Proof.
    intros HH [ML MN] HI Hv Hg. unfold score_side. rewrite (@sum_sets_ok p a v g Hv Hg). cbn [bind].
    destruct (side_sum_ok a g) as [SL SN]. destruct (dget (fv_name v) ign) as [ad|] eqn:E.
    - assert (Had := HI _ _ E). do 3 eexists. split; [reflexivity|].
      split; [apply heap_ok_write; [assumption|]; apply map2_len; [apply map2_len|]; auto|].
      split; [rewrite hwrite_length; lia|]. split; [|rewrite hwrite_length; assumption].
      split; [apply map2_len; [assumption|apply map2_len; auto]|].
      apply map2_nonneg; [intros; apply qmin_glb; assumption|assumption|apply map2_qmax_nonneg; assumption].
    - unfold halloc. do 3 eexists. split; [reflexivity|].
      assert (HA : heap_ok (h ++ [repeat 0 n])) by (apply heap_ok_alloc; [assumption|apply repeat_length]).
      split; [apply heap_ok_write; [assumption|]; apply map2_len; [assumption|rewrite hread_new; apply repeat_length]|].
      split; [rewrite hwrite_length, app_length; lia|]. split; [|rewrite hwrite_length, app_length; cbn; lia].
      split; [apply map2_len; assumption|]. apply map2_nonneg; [intros; apply qmin_glb; assumption|assumption|assumption].
  Qed.
  Definition best_ok (p : list glit) (h : heap) (b : option bsplit) : Prop :=
    match b with
    | None => True
    | Some s => (0 < s_gain s)%R /\ part_ok p (s_att s, s_left s, s_right s) /\ mu_ok (s_lmu s) /\ mu_ok (s_rmu s) /\
                (s_lign s < List.length h)%nat /\ (s_rign s < List.length h)%nat
    end.
  Lemma ign_ok_le h h' ign : ign_ok h ign -> (List.length h <= List.length h')%nat -> ign_ok h' ign.
  Proof. intros H L f a E. specialize (H f a E). lia. Qed.
  Lemma max_split_ok p h mu ign : heap_ok h -> mu_ok mu -> ign_ok h ign -> qsum mu <> 0 ->
    exists h1 best, max_split psort cats h mu ign (fd_of p) XM y = Ok (h1, best) /\ heap_ok h1 /\ (List.length h <= List.length h1)%nat /\ best_ok p h1 best.
  Proof.
    intros HH HM HI Hs. unfold max_split. destruct (partitions_ok p) as [ps [-> Hps]]. cbn [bind].
    assert (G : forall ps h best, (forall q, In q ps -> part_ok p q) -> heap_ok h -> ign_ok h ign -> best_ok p h best ->
      exists h1 best1, foldM (score_partition XM y mu ign) (h, best) ps = Ok (h1, best1) /\ heap_ok h1 /\ (List.length h <= List.length h1)%nat /\ best_ok p h1 best1).
    { clear ps h HH HI Hps. induction ps as [|q ps IH]; intros h best Hq HH HI HB; [exists h, best; split; [reflexivity|split; [assumption|split; [lia|assumption]]]|].
      destruct (Hq q (or_introl eq_refl)) as (a & v & g1 & g2 & (Hv & N1 & N2 & Pm & C) & ->).
      assert (I1 : incl g1 (available vars p a)) by (intros x Hx; apply (Permutation_in _ Pm); apply in_or_app; left; assumption).
      assert (I2 : incl g2 (available vars p a)) by (intros x Hx; apply (Permutation_in _ Pm); apply in_or_app; right; assumption).
      cbn [foldM]. unfold score_partition at 1. cbn [fst snd].
      destruct (@score_side_ok p h mu ign a v g1 HH HM HI Hv I1) as (h1 & m1 & a1 & E1 & H1 & L1 & M1 & A1). fold n. rewrite E1. cbn [bind].
      destruct (@score_side_ok p h1 mu ign a v g2 H1 HM (@ign_ok_le h h1 ign HI L1) Hv I2) as (h2 & m2 & a2 & E2 & H2 & L2 & M2 & A2). rewrite E2. cbn [bind].
      unfold split_gain. rewrite (proj2 (qeqb_neq _ _) Hs). cbn [bind].
      match goal with |- context [foldM _ (h2, ?b) ps] => destruct (IH h2 b) as (h3 & b3 & E3 & H3 & L3 & B3) end.
      - intros q Hin. apply Hq. right. assumption.
      - assumption.
      - apply (@ign_ok_le h h2 ign); [assumption|lia].
      - match goal with |- context [Rltb ?x ?z] => destruct (Rltb x z) eqn:B end.
        + rewrite Rltb_lt in B. unfold best_ok. cbn [s_gain s_att s_left s_right s_lmu s_rmu s_lign s_rign]. split.
          { eapply Rle_lt_trans; [|exact B]. unfold best_gain. destruct best as [s|]; [apply Rlt_le, HB|lra]. }
          split; [exists a, v, g1, g2; split; [repeat split; assumption|reflexivity]|]. split; [assumption|]. split; [assumption|]. lia.
        + destruct best as [s|]; [|exact I]. destruct HB as (B1 & B2 & B3 & B4 & B5 & B6). cbn. repeat (split; [assumption|]). lia.
      - exists h3, b3. split; [exact E3|]. split; [assumption|]. split; [lia|assumption]. }
    apply G; try assumption. exact I.
  Qed.

  (** ** one step of training *)
  Definition bplen (p : list glit) : Z := Z.of_nat (List.length p).
  Definition dist_of (mu : list Qc) : dict Z Qc := map (fun c => (c, class_card mu y c / qsum mu)) (zunique y).
  Definition node_inv (h : heap) (node : btree) : Prop :=
    heap_ok h /\ ign_ok h (b_ignored node) /\ mu_ok (b_mu node) /\ 0 < qsum (b_mu node).
  Definition rec_call := heap -> btree -> list glit -> res (heap * btree).
  Definition bfit_at (fuel : nat) : rec_call := fun h node p => bfit fuel cfg psort cats XM y h node (fd_of p) (bplen p).
  Definition blank_child (l : glit) (v : fvar) (mu : list Qc) (ign : dict string nat) : btree :=
    BTree true [] None (-1) (Some l) (Some v) mu ign.
  Definition zero_child (mu : list Qc) (l : glit) (v : fvar) (cmu : list Qc) (ign : dict string nat) : btree :=
    BTree true [] (Some (dist_of mu)) (-1) (Some l) (Some v) cmu ign.
  Definition grow_res (rec : rec_call) (p : list glit) (mu : list Qc) (h : heap) (l : glit) (v : fvar) (r : res (heap * btree)) : Prop :=
    exists h2 cign cmu, heap_ok h2 /\ (List.length h <= List.length h2)%nat /\ ign_ok h2 cign /\ mu_ok cmu /\
      ((0 < qsum cmu /\ r = rec h2 (blank_child l v cmu cign) (p ++ [l])) \/ (qsum cmu = 0 /\ r = Ok (h2, zero_child mu l v cmu cign))).
  Lemma class_value_ok mu : qsum mu <> 0 -> get_class_value mu y = Ok (dist_of mu).
  Proof. intro H. unfold get_class_value. rewrite (proj2 (qeqb_neq _ _) H). reflexivity. Qed.
  Lemma set_index a v i s : nth_error vars a = Some v -> nth_error (fv_sets v) i = Some s ->
    dget (set_name v i) (dict_of (map (fun js => (fs_name (snd js), fst js)) (enumerate (fv_sets v)))) = Some i.
  Proof.
    intros Hv Hs. unfold set_name. rewrite Hs. apply dict_of_get_nodup.
    - rewrite map_map. cbn [fst]. rewrite (map_enumerate fs_name). eapply vsets; eassumption.
    - apply in_map_iff. exists (i, s). split; [reflexivity|]. apply enumerate_In. assumption.
  Qed.
  Lemma set_indices p a v g : nth_error vars a = Some v -> incl g (available vars p a) ->
    mapM (fun x => ret_opt KeyError (dget x (dict_of (map (fun js => (fs_name (snd js), fst js)) (enumerate (fv_sets v)))))) (map (set_name v) g) = Ok g.
  Proof.
    intros Hv. induction g as [|i g IH]; intro Hg; [reflexivity|]. cbn [map mapM].
    destruct (@available_valid vars p a i v Hv (Hg i (or_introl eq_refl))) as [s Hs]. rewrite (@set_index a v i s Hv Hs). cbn [ret_opt bind].
    rewrite IH by (intros x Hx; apply Hg; right; assumption). reflexivity.
  Qed.
  Lemma update_ignored_ok h ign f ad h2 cign : heap_ok h -> ign_ok h ign -> (ad < List.length h)%nat -> update_ignored h ign f ad = (h2, cign) ->
    heap_ok h2 /\ (List.length h <= List.length h2)%nat /\ ign_ok h2 cign.
  Proof.
    intros HH HI HA E. unfold update_ignored in E. destruct (dget f ign) as [b|] eqn:Eb.
    - unfold halloc in E. injection E as <- <-. assert (Hb := HI _ _ Eb).
      split; [apply heap_ok_alloc; [assumption|apply map2_len; auto]|]. rewrite app_length. split; [lia|].
      intros g a Ea. rewrite app_length. cbn [List.length]. rewrite dset_get in Ea. destruct (eqb g f); [injection Ea as <-; lia|]. specialize (HI g a Ea). lia.
    - injection E as <- <-. split; [assumption|]. split; [lia|]. intros g a Ea. rewrite dset_get in Ea. destruct (eqb g f); [injection Ea as <-; assumption|]. exact (HI g a Ea).
  Qed.
  Definition grow_at (fuel : nat) (p : list glit) (node : btree) (a : nat) (v : fvar) (g : list nat) (cmu : list Qc) (ad : nat) (h : heap) : res (heap * btree) :=
     (do idx <- mapM (fun x => ret_opt KeyError (dget x (dict_of (map (fun js => (fs_name (snd js), fst js)) (enumerate (fv_sets v)))))) (map (set_name v) g);
      let '(h2, cign) := update_ignored h (b_ignored node) (fv_name v) ad in
      do avail <- ret_opt KeyError (dget (fv_name v) (fd_of p));
      let cfd := dset (fv_name v) (filter (fun x => memb x (map (set_name v) g)) avail) (fd_of p) in
      if qltb 0 (qsum cmu) then
        bfit fuel cfg psort cats XM y h2 (BTree true [] None (-1) (Some (a, idx)) (Some v) cmu cign) cfd (bplen p + 1)
      else
        do cv <- get_class_value (b_mu node) y;
        Ok (h2, BTree true [] (Some cv) (-1) (Some (a, idx)) (Some v) cmu cign)).
  Lemma grow_ok fuel p node h a v g cmu ad : node_inv h node -> nth_error vars a = Some v -> incl g (available vars p a) -> mu_ok cmu -> (ad < List.length h)%nat ->
    grow_res (bfit_at fuel) p (b_mu node) h (a, g) v (grow_at fuel p node a v g cmu ad h).
  Proof.
    intros (HH & HI & HM & HP) Hv Hg Hc Ha. unfold grow_at. rewrite (@set_indices p a v g Hv Hg). cbn [bind].
    destruct (update_ignored h (b_ignored node) (fv_name v) ad) as [h2 cign] eqn:E.
    destruct (@update_ignored_ok _ _ _ _ _ _ HH HI Ha E) as (A & B & C).
    rewrite (@fd_get p a v Hv). cbn [ret_opt bind]. cbv zeta. rewrite (@fd_child p a v g Hv Hg).
    exists h2, cign, cmu. split; [assumption|]. split; [assumption|]. split; [assumption|]. split; [assumption|].
    destruct (qltb 0 (qsum cmu)) eqn:Q.
    - left. rewrite qltb_lt in Q. split; [assumption|]. unfold bfit_at, blank_child. f_equal. unfold bplen. rewrite app_length. cbn [List.length]. lia.
    - right. rewrite qltb_ge in Q. split; [apply Qcle_antisym; [assumption|apply qsum_nonneg, Hc]|].
      rewrite class_value_ok by (intro Z; rewrite Z in HP; qlra). reflexivity.
  Qed.
  Definition bleaf_result (node : btree) (p : list glit) : btree :=
    BTree true (b_children node) (Some (dist_of (b_mu node))) (bplen p) (b_value node) (b_var node) (b_mu node) (b_ignored node).
  Definition bsplit_result (node : btree) (p : list glit) (c1 c2 : btree) : btree :=
    BTree false (b_children node ++ [c1; c2]) (b_class node) (bplen p) (b_value node) (b_var node) (b_mu node) (b_ignored node).
  Lemma bfit_step fuel h node p : node_inv h node ->
    exists h1, heap_ok h1 /\ (List.length h <= List.length h1)%nat /\
    (bfit_at (S fuel) h node p = Ok (h1, bleaf_result node p) \/
     ((f_threshold cfg <= 0)%R /\ (bfit_at (S fuel) h node p = Err KeyError \/ bfit_at (S fuel) h node p = Err IndexError)) \/
     exists a v g1 g2 G1 G2, split_ok p a v g1 g2 /\ (bplen p < f_max_depth cfg)%Z /\
       (forall h', heap_ok h' -> (List.length h1 <= List.length h')%nat -> grow_res (bfit_at fuel) p (b_mu node) h' (a, g1) v (G1 h')) /\
       (forall h', heap_ok h' -> (List.length h1 <= List.length h')%nat -> grow_res (bfit_at fuel) p (b_mu node) h' (a, g2) v (G2 h')) /\
       bfit_at (S fuel) h node p = do hl <- G1 h1; do hr <- G2 (fst hl); Ok (fst hr, bsplit_result node p (snd hl) (snd hr))).
  Proof.
    intros (HH & HI & HM & HP). assert (HP' : qsum (b_mu node) <> 0) by (intro Z; rewrite Z in HP; qlra).
    destruct (@max_split_ok p h (b_mu node) (b_ignored node) HH HM HI HP') as (h1 & best & E & H1 & L1 & B).
    exists h1. split; [assumption|]. split; [assumption|].
    unfold bfit_at at 1 2 3 6. cbn [bfit]. rewrite E. cbn [bind].
    destruct (stop_met cfg (best_gain best) (masked (b_mu node) y) (bplen p)) eqn:S.
    - left. rewrite class_value_ok by assumption. reflexivity.
    - right. unfold stop_met in S. rewrite !orb_false_iff in S. destruct S as [[[_ _] S1] S2]. rewrite Z.leb_gt in S1. rewrite Rltb_ge in S2.
      destruct best as [s|].
      + right. destruct B as (G0 & (a & v & g1 & g2 & SO & Eq) & M1 & M2 & A1 & A2). injection Eq as Ea El Er.
        assert (SO' := SO). destruct SO' as (Hv & N1 & N2 & Pm & C).
        assert (I1 : incl g1 (available vars p a)) by (intros x Hx; apply (Permutation_in _ Pm); apply in_or_app; left; assumption).
        assert (I2 : incl g2 (available vars p a)) by (intros x Hx; apply (Permutation_in _ Pm); apply in_or_app; right; assumption).
        assert (K : forall h', heap_ok h' -> (List.length h1 <= List.length h')%nat -> node_inv h' node).
        { intros h' Hh Hl. split; [assumption|]. split; [|split; assumption]. intros f ad Ef. specialize (HI f ad Ef). lia. }
        rewrite Ea, El, Er. fold vars. rewrite (positions_get vars _ ND Hv). cbn [ret_opt bind]. rewrite Hv. cbn [ret_opt bind]. cbv zeta.
        exists a, v, g1, g2, (grow_at fuel p node a v g1 (s_lmu s) (s_lign s)), (grow_at fuel p node a v g2 (s_rmu s) (s_rign s)). split; [assumption|]. split; [assumption|]. split; [|split; [|reflexivity]].
        * intros h' Hh Hl. apply grow_ok; try assumption; [apply K; assumption|lia].
        * intros h' Hh Hl. apply grow_ok; try assumption; [apply K; assumption|lia].
      + left. split; [exact S2|]. destruct (dget ""%string (f_positions (f_vars cfg))); auto.
  Qed.

  (** ** structure and termination *)
  Lemma child_inv h2 l v cmu cign : heap_ok h2 -> ign_ok h2 cign -> mu_ok cmu -> 0 < qsum cmu -> node_inv h2 (blank_child l v cmu cign).
  Proof. intros A B C D. split; [assumption|]. split; [assumption|]. split; assumption. Qed.
  Lemma bfit_heap fuel : forall h node p h' t, node_inv h node -> bfit_at fuel h node p = Ok (h', t) -> heap_ok h' /\ (List.length h <= List.length h')%nat.
  Proof.
    induction fuel as [|fuel IH]; intros h node p h' t HN H; [discriminate|].
    assert (R : forall p mu h l v r h' c, heap_ok h -> grow_res (bfit_at fuel) p mu h l v r -> r = Ok (h', c) -> heap_ok h' /\ (List.length h <= List.length h')%nat).
    { clear h node p h' t HN H. intros p mu h l v r h' c Hh (h2 & cign & cmu & A & B & C & D & [[E ->]|[E ->]]) Er.
      - destruct (IH _ _ _ _ _ (@child_inv h2 l v cmu cign A C D E) Er). split; [assumption|lia].
      - injection Er as <- _. auto. }
    destruct (@bfit_step fuel h node p HN) as (h1 & H1 & L1 & [E|[[_ [E|E]]|(a & v & g1 & g2 & G1 & G2 & SO & MD & R1 & R2 & E)]]); rewrite E in H.
    - injection H as <- _. auto.
    - discriminate.
    - discriminate.
    - destruct (G1 h1) as [[hl cl]|] eqn:EL; cbn [bind fst snd] in H; [|discriminate].
      destruct (R _ _ _ _ _ _ _ _ H1 (R1 h1 H1 (le_n _)) EL) as [A B].
      destruct (G2 hl) as [[hr cr]|] eqn:ER; cbn [bind fst snd] in H; [|discriminate]. injection H as <- _.
      destruct (R _ _ _ _ _ _ _ _ A (R2 hl A B) ER) as [C D]. split; [assumption|lia].
  Qed.
  Definition bfitted (p : list glit) (node t : btree) : Prop := exists h h' fuel, node_inv h node /\ bfit_at fuel h node p = Ok (h', t).
  Definition side (p : list glit) (mu : list Qc) (l : glit) (v : fvar) (c : btree) : Prop :=
    exists cmu cign, mu_ok cmu /\ ((0 < qsum cmu /\ bfitted (p ++ [l]) (blank_child l v cmu cign) c) \/ (qsum cmu = 0 /\ c = zero_child mu l v cmu cign)).
  Lemma bfitted_cases p node t : bfitted p node t -> mu_ok (b_mu node) /\ 0 < qsum (b_mu node) /\
    (t = bleaf_result node p \/
     exists a v g1 g2 c1 c2, split_ok p a v g1 g2 /\ (bplen p < f_max_depth cfg)%Z /\
       side p (b_mu node) (a, g1) v c1 /\ side p (b_mu node) (a, g2) v c2 /\ t = bsplit_result node p c1 c2).
  Proof.
    intros (h & h' & fuel & HN & H). split; [apply HN|]. split; [apply HN|]. destruct fuel as [|fuel]; [discriminate|].
    assert (R : forall p mu h l v r h' c, heap_ok h -> grow_res (bfit_at fuel) p mu h l v r -> r = Ok (h', c) -> heap_ok h' /\ (List.length h <= List.length h')%nat /\ side p mu l v c).
    { clear h node p h' t HN H. intros p mu h l v r h' c Hh (h2 & cign & cmu & A & B & C & D & [[E ->]|[E ->]]) Er.
      - assert (NI := @child_inv h2 l v cmu cign A C D E). destruct (@bfit_heap fuel _ _ _ _ _ NI Er). split; [assumption|]. split; [lia|].
        exists cmu, cign. split; [assumption|]. left. split; [assumption|]. exists h2, h', fuel. auto.
      - injection Er as <- <-. split; [assumption|]. split; [assumption|]. exists cmu, cign. auto. }
    destruct (@bfit_step fuel h node p HN) as (h1 & H1 & L1 & [E|[[_ [E|E]]|(a & v & g1 & g2 & G1 & G2 & SO & MD & R1 & R2 & E)]]); rewrite E in H.
    - injection H as _ <-. auto.
    - discriminate.
    - discriminate.
    - destruct (G1 h1) as [[hl cl]|] eqn:EL; cbn [bind fst snd] in H; [|discriminate].
      destruct (R _ _ _ _ _ _ _ _ H1 (R1 h1 H1 (le_n _)) EL) as (A & B & S1).
      destruct (G2 hl) as [[hr cr]|] eqn:ER; cbn [bind fst snd] in H; [|discriminate]. injection H as _ <-.
      destruct (R _ _ _ _ _ _ _ _ A (R2 hl A B) ER) as (C & D & S2). right. exists a, v, g1, g2, cl, cr. repeat (split; [assumption|]). reflexivity.
  Qed.
  Definition measure (p : list glit) : nat := list_sum (map (fun fs => List.length (snd fs)) (fd_of p)).
  Lemma list_sum_le A (f g : A -> nat) l : (forall x, In x l -> f x <= g x)%nat -> (list_sum (map f l) <= list_sum (map g l))%nat.
  Proof. clear. induction l as [|x l IH]; intro H; [apply le_n|]. cbn. assert (f x <= g x)%nat by (apply H; left; reflexivity). assert (list_sum (map f l) <= list_sum (map g l))%nat by (apply IH; intros; apply H; right; assumption). unfold list_sum in *. lia. Qed.
  Lemma list_sum_lt A (f g : A -> nat) l x : (forall x, In x l -> f x <= g x)%nat -> In x l -> (f x < g x)%nat -> (list_sum (map f l) < list_sum (map g l))%nat.
  Proof.
    clear. intros H I L. apply in_split in I. destruct I as [l1 [l2 ->]]. rewrite !map_app, !list_sum_app. cbn.
    assert (A1 := @list_sum_le _ f g l1 (fun x Hx => H x (in_or_app _ _ _ (or_introl Hx)))).
    assert (A2 : (list_sum (map f l2) <= list_sum (map g l2))%nat) by (apply list_sum_le; intros z Hz; apply H; apply in_or_app; right; right; assumption). unfold list_sum in *. lia.
  Qed.
  Lemma filter_perm_length (g1 g2 l : list nat) : NoDup l -> Permutation (g1 ++ g2) l -> Permutation (filter (fun i => memb i g1) l) g1.
  Proof.
    clear. intros N P. assert (N' := Permutation_NoDup (Permutation_sym P) N). assert (N1 : NoDup g1) by (clear - N'; induction g1 as [|x g1 IH]; [constructor|]; inversion N' as [|? ? A B]; subst; constructor; [intro; apply A; apply in_or_app; left; assumption|apply IH; assumption]).
    apply NoDup_Permutation; [apply NoDup_filter; assumption|assumption|]. intro x. rewrite filter_In, memb_In. split; [tauto|]. intro Hx. split; [|assumption].
    apply (Permutation_in _ P). apply in_or_app. left. assumption.
  Qed.
  Lemma split_sym p a v g1 g2 : nth_error vars a = Some v -> Permutation (g1 ++ g2) (available vars p a) -> Permutation (g2 ++ g1) (available vars p a).
  Proof. intros _ P. eapply Permutation_trans; [apply Permutation_app_comm|assumption]. Qed.
  Lemma measure_child p a v g1 g2 : nth_error vars a = Some v -> g2 <> [] -> Permutation (g1 ++ g2) (available vars p a) ->
    (measure (p ++ [(a, g1)]) < measure p)%nat.
  Proof.
    intros Hv N P. unfold measure, fd_of. rewrite !map_map. cbn [snd].
    apply (@list_sum_lt _ _ _ _ (a, v)); cbn [fst snd].
    - intros [b w] _. cbn [fst snd]. rewrite !map_length, available_snoc. destruct (Nat.eqb a b); [|apply le_n]. (assert (Q : forall (f : nat -> bool) l, (List.length (filter f l) <= List.length l)%nat) by (clear; induction l as [|x l IH]; [apply le_n|]; cbn; destruct (f x); cbn; lia)); apply Q.
    - apply enumerate_In. assumption.
    - rewrite !map_length, available_snoc, Nat.eqb_refl. rewrite (Permutation_length (@filter_perm_length g1 g2 _ (available_NoDup vars p a) P)).
      rewrite <- (Permutation_length P), app_length. destruct g2; [congruence|cbn; lia].
  Qed.
  Lemma bfit_total fuel : (0 < f_threshold cfg)%R -> forall h node p, node_inv h node -> (measure p < fuel)%nat -> exists h' t, bfit_at fuel h node p = Ok (h', t).
  Proof.
    intro Hth. induction fuel as [|fuel IH]; intros h node p HN HF; [lia|].
    assert (R : forall p mu h l v r, heap_ok h -> grow_res (bfit_at fuel) p mu h l v r -> (measure (p ++ [l]) < fuel)%nat ->
       exists h' c, r = Ok (h', c) /\ heap_ok h' /\ (List.length h <= List.length h')%nat).
    { clear h node p HN HF. intros p mu h l v r Hh (h2 & cign & cmu & A & B & C & D & [[E ->]|[E ->]]) M.
      - assert (NI := @child_inv h2 l v cmu cign A C D E). destruct (IH _ _ (p ++ [l]) NI M) as (h' & t & Et). exists h', t. split; [assumption|].
        destruct (@bfit_heap fuel _ _ _ _ _ NI Et). split; [assumption|lia].
      - do 2 eexists. split; [reflexivity|]. auto. }
    destruct (@bfit_step fuel h node p HN) as (h1 & H1 & L1 & [E|[[T _]|(a & v & g1 & g2 & G1 & G2 & (Hv & N1 & N2 & Pm & C) & MD & R1 & R2 & E)]]); [rewrite E; eauto|exfalso; exact (Rlt_not_le _ _ Hth T)|].
    rewrite E.
    assert (M1 := @measure_child p a v g1 g2 Hv N2 Pm). assert (M2 := @measure_child p a v g2 g1 Hv N1 (@split_sym p a v g1 g2 Hv Pm)).
    destruct (R _ _ _ _ _ _ H1 (R1 h1 H1 (le_n _))) as (hl & cl & -> & A & B); [exact (Nat.lt_le_trans _ _ _ M1 (le_S_n _ _ HF))|]. cbn [bind fst snd].
    destruct (R _ _ _ _ _ _ A (R2 hl A B)) as (hr & cr & -> & _); [exact (Nat.lt_le_trans _ _ _ M2 (le_S_n _ _ HF))|]. cbn [bind fst snd]. eauto.
  Qed.
  (** with any threshold the only failures are those of an empty selection *)
  Lemma bfit_fails fuel : forall h node p e, node_inv h node -> (measure p < fuel)%nat -> bfit_at fuel h node p = Err e ->
    (f_threshold cfg <= 0)%R /\ (e = KeyError \/ e = IndexError).
  Proof.
    induction fuel as [|fuel IH]; intros h node p e HN HF H; [lia|].
    assert (R : forall p mu h l v r e, heap_ok h -> grow_res (bfit_at fuel) p mu h l v r -> (measure (p ++ [l]) < fuel)%nat -> r = Err e -> (f_threshold cfg <= 0)%R /\ (e = KeyError \/ e = IndexError)).
    { clear h node p e HN HF H. intros p mu h l v r e Hh (h2 & cign & cmu & A & B & C & D & [[E ->]|[E ->]]) M Er; [|discriminate].
      exact (IH _ _ (p ++ [l]) _ (@child_inv h2 l v cmu cign A C D E) M Er). }
    assert (R' : forall p mu h l v r h' c, heap_ok h -> grow_res (bfit_at fuel) p mu h l v r -> r = Ok (h', c) -> heap_ok h' /\ (List.length h <= List.length h')%nat).
    { clear h node p e HN HF H. intros p mu h l v r h' c Hh (h2 & cign & cmu & A & B & C & D & [[E ->]|[E ->]]) Er.
      - destruct (@bfit_heap fuel _ _ _ _ _ (@child_inv h2 l v cmu cign A C D E) Er). split; [assumption|lia].
      - injection Er as <- _. auto. }
    destruct (@bfit_step fuel h node p HN) as (h1 & H1 & L1 & [E|[[T [E|E]]|(a & v & g1 & g2 & G1 & G2 & (Hv & N1 & N2 & Pm & C) & MD & R1 & R2 & E)]]); rewrite E in H.
    - discriminate.
    - injection H as <-. auto.
    - injection H as <-. auto.
    - assert (M1 := @measure_child p a v g1 g2 Hv N2 Pm). assert (M2 := @measure_child p a v g2 g1 Hv N1 (@split_sym p a v g1 g2 Hv Pm)).
      destruct (G1 h1) as [[hl cl]|e1] eqn:EL; cbn [bind fst snd] in H.
      + destruct (R' _ _ _ _ _ _ _ _ H1 (R1 h1 H1 (le_n _)) EL) as (A & B).
        destruct (G2 hl) as [[hr cr]|e2] eqn:ER; cbn [bind fst snd] in H; [discriminate|]. injection H as <-.
        apply (R _ _ _ _ _ _ _ A (R2 hl A B)); [exact (Nat.lt_le_trans _ _ _ M2 (le_S_n _ _ HF))|assumption].
      + injection H as <-. apply (R _ _ _ _ _ _ _ H1 (R1 h1 H1 (le_n _))); [exact (Nat.lt_le_trans _ _ _ M1 (le_S_n _ _ HF))|assumption].
  Qed.
  Definition broot : btree := BTree true [] None (-1) None None (repeat 1 n) [].
  Lemma broot_inv : node_inv [] broot.
  Proof.
    split; [intros a Ha; cbn in Ha; lia|]. split; [intros f a Ha; discriminate|]. cbn [b_mu broot].
    split; [split; [apply repeat_length|apply Forall_forall; intros x Hx; apply repeat_spec in Hx; subst; qlra]|].
    unfold n. clear - Hy. destruct y as [|c y']; [congruence|]. cbn [List.length repeat]. rewrite qsum_cons.
    assert (0 <= qsum (repeat 1 (List.length y'))); [|qlra]. apply qsum_nonneg. apply Forall_forall. intros x Hx. apply repeat_spec in Hx. subst. qlra.
  Qed.
End FBDT.
