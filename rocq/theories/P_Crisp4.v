(** * Proofs about rows without fuzziness in binary trees: accuracy on the training data *)
From Verif Require Import Prelude M_Fuzzy M_Discretize M_Rule M_FDT M_FBDT S_Rule S_FDT S_FBDT S_Crisp S_Crisp2 P_FuzzySet P_FDT P_FDT2 P_FDT3 P_FDT4 P_FBDT P_FBDT2 P_FBDT3 P_FBDT5 P_Crisp P_Crisp2 P_Crisp3 Properties_FDT Properties_FBDT.
Set Implicit Arguments.
Open Scope Qc_scope.

(** ** sums over the leaves, for any notion of leaf *)
Section Generic.
  Variable L : Type.
  Variable ins : list cell -> L -> bool.
  Variable wt : L -> Z -> Qc.
  Definition gonly (row : list cell) (Ls : list L) : Prop :=
    exists l1 l l2, Ls = l1 ++ l :: l2 /\ ins row l = true /\ forall l', In l' (l1 ++ l2) -> ins row l' = false.
  Definition gmembers (X : list (list cell)) (y : list Z) (l : L) : list Z := map snd (filter (fun rc => ins (fst rc) l) (combine X y)).
  Lemma gonly_sum row Ls (k : Qc) : gonly row Ls -> qsum (map (fun l => if ins row l then k else 0) Ls) = k.
  Proof.
    intros (l1 & l & l2 & -> & Ip & Iq). rewrite map_app. cbn [map]. rewrite qsum_app, qsum_cons, Ip.
    rewrite !qsum_map_zero; [ring| |]; intros q H; rewrite (Iq q); try reflexivity; apply in_or_app; auto.
  Qed.
  Lemma gpartition_sum Ls (f : list cell * Z -> Qc) D : (forall rc, In rc D -> gonly (fst rc) Ls) ->
    qsum (map f D) = qsum (map (fun l => qsum (map (fun rc => if ins (fst rc) l then f rc else 0) D)) Ls).
  Proof.
    induction D as [|rc D IH]; intro H.
    - cbn [map]. rewrite qsum_map_zero; [reflexivity|]. reflexivity.
    - cbn [map]. rewrite qsum_cons. rewrite IH by (intros; apply H; right; assumption).
      rewrite <- (gonly_sum (f rc) (H rc (or_introl eq_refl))) at 1. rewrite <- qsum_map_plus. reflexivity.
  Qed.
  Lemma gmembers_sum D l c : qsum (map (fun rc : list cell * Z => if ins (fst rc) l then (if Z.eqb (snd rc) c then 1 else 0) else 0) D)
    = frequency (map snd (filter (fun rc => ins (fst rc) l) D)) c.
  Proof.
    unfold frequency. induction D as [|[r k] D IH]; [reflexivity|]. cbn [map filter fst snd]. rewrite qsum_cons, IH. destruct (ins r l); cbn [map snd count_occ]; [|ring].
    destruct (Z.eqb_spec k c) as [->|Dk]; destruct (Z.eq_dec _ c) as [E|E]; try congruence; [rewrite qn_S; reflexivity|ring].
  Qed.
  Lemma gscore Ls X y (k : list cell -> Z) c : List.length X = List.length y ->
    (forall row, In row X -> exists l1 l l2, Ls = l1 ++ l :: l2 /\ ins row l = true /\ (forall l', In l' (l1 ++ l2) -> ins row l' = false) /\ best_class (zunique y) (wt l) (k row)) ->
    (forall l, In l Ls -> gmembers X y l <> [] -> forall c, In c (zunique y) -> wt l c = frequency (gmembers X y l) c / qn (List.length (gmembers X y l))) ->
    frequency y c <= qsum (map (fun rc => if Z.eqb (snd rc) (k (fst rc)) then 1 else 0) (combine X y)).
  Proof.
    intros HL K Wt. rewrite <- (@snd_combine _ _ X y HL) at 1. rewrite <- frequency_sum.
    assert (On : forall rc, In rc (combine X y) -> gonly (fst rc) Ls).
    { intros [r z] H. apply in_combine_l in H. destruct (K r H) as (l1 & l & l2 & A & B & C & _). exists l1, l, l2. auto. }
    rewrite !(@gpartition_sum Ls _ _ On). apply qsum_map_le. intros l Hl.
    rewrite gmembers_sum. fold (gmembers X y l). destruct (gmembers X y l) as [|m0 ms] eqn:Em.
    { apply qsum_nonneg. apply Forall_forall. intros x Hx. apply in_map_iff in Hx. destruct Hx as [[r z] [<- _]]. cbn [fst snd]. destruct (ins _ _); [destruct (Z.eqb _ _)|]; discriminate. }
    assert (Ex : exists r0, In r0 X /\ ins r0 l = true).
    { assert (H : In m0 (gmembers X y l)) by (rewrite Em; left; reflexivity). unfold gmembers in H. apply in_map_iff in H. destruct H as [[r z] [_ H]].
      apply filter_In in H. destruct H as [H I]. apply in_combine_l in H. exists r. auto. }
    destruct Ex as (r0 & Hr0 & I0).
    assert (Mq : gmembers X y l <> []) by (rewrite Em; discriminate).
    assert (Same : forall r, In r X -> ins r l = true -> best_class (zunique y) (wt l) (k r)).
    { intros r Hr Ir. destruct (K r Hr) as (l1 & l' & l2 & E & _ & D & F). rewrite E in Hl. apply in_app_or in Hl. destruct Hl as [Hp|[Hp|Hp]].
      - rewrite (D l) in Ir; [discriminate|]. apply in_or_app; auto.
      - subst l'. exact F.
      - rewrite (D l) in Ir; [discriminate|]. apply in_or_app; auto. }
    assert (E1 : map (fun rc => if ins (fst rc) l then (if Z.eqb (snd rc) (k (fst rc)) then 1 else 0) else 0) (combine X y)
               = map (fun rc => if ins (fst rc) l then (if Z.eqb (snd rc) (k r0) then 1 else 0) else 0) (combine X y)).
    { apply map_ext_in. intros [r z] H. cbn [fst snd]. destruct (ins r l) eqn:I; [|reflexivity]. apply in_combine_l in H.
      rewrite (@best_class_fun _ _ _ _ (Same r H I) (Same r0 Hr0 I0)). reflexivity. }
    rewrite E1, gmembers_sum. fold (gmembers X y l). rewrite <- Em.
    assert (B := @best_frequency _ _ _ _ Mq (Wt l Hl Mq) (Same r0 Hr0 I0)).
    destruct (in_dec Z.eq_dec c (zunique y)) as [Hc|Hc]; [apply B; assumption|].
    assert (Z0 : frequency (gmembers X y l) c = 0).
    { unfold frequency. rewrite (proj1 (count_occ_not_In Z.eq_dec _ c)); [reflexivity|]. intro H. apply Hc, zunique_In. unfold gmembers in H.
      apply in_map_iff in H. destruct H as [[r z] [<- H]]. apply filter_In in H. destruct H as [H _]. apply in_combine_r in H. exact H. }
    rewrite Z0. apply qn_nonneg.
  Qed.
End Generic.

Lemma brows_map cfg psort X y t X' ps (k : list cell -> Z) : btrained cfg psort X y t -> readable (f_vars cfg) X' ->
  bpredict cfg t X' = Ok ps -> (forall row, In row X' -> bpredict cfg t [row] = Ok [k row]) -> ps = map k X'.
Proof.
  intros T R E K. destruct (btrained_wf _ _ _ _ _ T) as [W V].
  destruct (@bpredict_spec cfg t (zunique y) X' W V (zunique_sorted y) (zunique_NoDup y) (btrained_y _ _ _ _ _ T) R) as [ps' [E' F]].
  rewrite E in E'. injection E' as <-. clear E. induction F as [|row c X'' ps' H F IH]; [reflexivity|]. cbn [map].
  assert (R1 : readable (f_vars cfg) [row]) by (intros r [<-|[]]; apply R; left; reflexivity).
  destruct (@bpredict_spec cfg t (zunique y) [row] W V (zunique_sorted y) (zunique_NoDup y) (btrained_y _ _ _ _ _ T) R1) as [ps1 [E1 F1]].
  rewrite (K row (or_introl eq_refl)) in E1. injection E1 as <-. inversion F1 as [|? ? ? ? B _]; subst. rewrite (@best_class_fun _ _ _ _ H B). f_equal.
  apply IH; [intros r Hr; apply R; right; assumption|intros; apply K; right; assumption].
Qed.

Lemma btraining_score cfg psort X y t c s : btrained cfg psort X y t -> crisp_norm (f_tnorm cfg) ->
  (forall row, In row X -> crisp (f_vars cfg) row) -> bt_score cfg t X y = Ok s -> frequency y c / qn (List.length y) <= s.
Proof.
  intros T N C HS. destruct (btrained_fitted T) as (cats & (_ & _ & HL & Hy & _) & R & _).
  assert (P : 0 < qn (List.length y)) by (apply qn_pos; destruct y; [congruence|cbn; lia]).
  set (k := fun row => match bpredict cfg t [row] with Ok (c :: _) => c | _ => 0%Z end).
  assert (K : forall row, In row X -> exists l1 p n l2, bleaves t = l1 ++ (p, n) :: l2 /\ binside (f_vars cfg) row p = true /\
    (forall q m, In (q, m) (l1 ++ l2) -> binside (f_vars cfg) row q = false) /\
    bpredict cfg t [row] = Ok [k row] /\ best_class (zunique y) (bleaf_weight n) (k row)).
  { intros row H. destruct (@bpredict_only cfg psort X y t row T N (C row H)) as (l1 & p & n & l2 & c' & A & B & D & E & F).
    - apply (@readable_sub _ X); [intros r [<-|[]]; assumption|assumption].
    - exists l1, p, n, l2. unfold k. rewrite E. repeat (split; [assumption|]). split; [reflexivity|assumption]. }
  unfold bt_score in HS. destruct (negb _ || _); [discriminate|]. destruct (bpredict cfg t X) as [ps|] eqn:Ep; [|discriminate]. cbn [bind] in HS. injection HS as <-.
  assert (Eps : ps = map k X).
  { apply (@brows_map cfg psort X y t X ps k T R Ep). intros row H. destruct (K row H) as (? & ? & ? & ? & _ & _ & _ & E & _). exact E. }
  subst ps. unfold score. change (zip (map k X) y) with (combine (map k X) y). rewrite (@correct_count k X y HL).
  apply (Qcdiv_le _ _ P). rewrite Qcdiv_mult; [|intro Z; rewrite Z in P; qlra].
  apply (@gscore _ (fun row pl => binside (f_vars cfg) row (fst pl)) (fun pl => bleaf_weight (snd pl)) (bleaves t) X y k c HL).
  - intros row H. destruct (K row H) as (l1 & p & n & l2 & A & B & D & _ & F). exists l1, (p, n), l2. split; [assumption|]. split; [assumption|]. split; [|assumption].
    intros [q m] Hq. exact (D q m Hq).
  - intros [p n] Hl Mp c' Hc'. cbn [snd]. change (gmembers (fun row (pl : list glit * btree) => binside (f_vars cfg) row (fst pl)) X y (p, n)) with (bmembers (f_vars cfg) X y p) in *.
    destruct (@bleaf_counts cfg psort X y t p n T C Hl) as (q & _ & Q & Wq). destruct Q as [->|[Q _]]; [|contradiction]. exact (Wq c' Hc').
Qed.
