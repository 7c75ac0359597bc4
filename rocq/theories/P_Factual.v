(** * Proofs about factual explanations *)
From Verif Require Import Prelude M_Fuzzy M_Rule M_Metrics M_Factual S_Factual P_Metrics.
Set Implicit Arguments.
Open Scope Qc_scope.

Lemma sort_by_map A B (f : A -> B) (le : B -> B -> bool) (l : list A) : sort_by le (map f l) = map f (sort_by (fun a b => le (f a) (f b)) l).
Proof.
  assert (I : forall x l, insert_by le (f x) (map f l) = map f (insert_by (fun a b => le (f a) (f b)) x l)).
  { intros x m. induction m as [|y m IH]; [reflexivity|]. cbn. destruct (le (f x) (f y)); cbn; [reflexivity|rewrite IH; reflexivity]. }
  unfold sort_by. induction l as [|x l IH]; [reflexivity|]. cbn. rewrite IH, I. reflexivity.
Qed.
Lemma mapM_Ok A B (f : A -> res B) (g : A -> B) (l : list A) : (forall x, In x l -> f x = Ok (g x)) -> mapM f l = Ok (map g l).
Proof.
  induction l as [|x l IH]; intro H; [reflexivity|]. cbn. rewrite H by (left; reflexivity). cbn. rewrite IH by (intros; apply H; right; assumption). reflexivity.
Qed.
Lemma filter_zip_map A B (g : A -> B) (p : B -> bool) (l : list A) : map fst (filter (fun am => p (snd am)) (zip l (map g l))) = filter (fun a => p (g a)) l.
Proof. unfold zip. induction l as [|x l IH]; [reflexivity|]. cbn. destruct (p (g x)); cbn; rewrite IH; reflexivity. Qed.

Section Factual.
  Context {V : Type} (mt : rule V -> res Qc) (deg : rule V -> Qc).
  Lemma fired_spec th rules : (forall r, In r rules -> mt r = Ok (deg r)) -> fired_rules mt th rules = Ok (filter (fun r => qltb th (deg r)) rules).
  Proof. intro H. unfold fired_rules. rewrite (@mapM_Ok _ _ mt deg) by assumption. cbn [bind]. rewrite (filter_zip_map deg (fun m => qltb th m)). reflexivity. Qed.
  Lemma sorted_class_spec c rules : (forall r, In r rules -> mt r = Ok (deg r)) ->
    sorted_class mt c rules = Ok (map (fun r => (ad deg r, r)) (sort_desc (ad deg) (class_fired deg c rules))).
  Proof.
    intro H. unfold sorted_class. rewrite fired_spec by assumption. cbn [bind]. unfold class_rules. rewrite filter_filter.
    rewrite (@mapM_Ok _ _ _ (fun r => (ad deg r, r))).
    - cbn [bind]. unfold sort_desc. rewrite sort_by_map. reflexivity.
    - intros r Hr. apply filter_In in Hr. unfold assoc. rewrite H by tauto. reflexivity.
  Qed.
  Lemma ranked_sort c rules : ranked deg c rules (sort_desc (ad deg) (class_fired deg c rules)).
  Proof.
    split; [apply Permutation_sym, sort_by_perm|]. split; [apply sort_desc_sorted|]. intro v. apply sort_desc_stable.
  Qed.
  Lemma fold_left_qsum (s : list (rule V)) : forall acc, fold_left (fun x (ar : Qc * rule V) => x + fst ar) (map (fun r => (ad deg r, r)) s) acc = acc + mass_of deg s.
  Proof.
    clear. induction s as [|r s IH]; intro acc; cbn [map fold_left]; [unfold mass_of; cbn; ring|]. rewrite IH. unfold mass_of. cbn [map fst]. rewrite qsum_cons. ring.
  Qed.
  Lemma map_snd_filter (p : Qc -> bool) (s : list (rule V)) : map snd (filter (fun ar => p (fst ar)) (map (fun r => (ad deg r, r)) s)) = filter (fun r => p (ad deg r)) s.
  Proof. clear. induction s as [|r s IH]; [reflexivity|]. cbn. destruct (p (ad deg r)); cbn; rewrite IH; reflexivity. Qed.
  Lemma mass_perm s s' : Permutation s s' -> mass_of deg s = mass_of deg s'.
  Proof. clear. intro P. apply qsum_perm, Permutation_map. assumption. Qed.
  Lemma mass_cons r s : mass_of deg (r :: s) = ad deg r + mass_of deg s. Proof. reflexivity. Qed.
  Lemma mass_app s s' : mass_of deg (s ++ s') = mass_of deg s + mass_of deg s'. Proof. unfold mass_of. rewrite map_app. apply qsum_app. Qed.

  Lemma filter_sorted A (R : A -> A -> Prop) (p : A -> bool) (s : list A) : StronglySorted R s -> StronglySorted R (filter p s).
  Proof.
    clear. induction 1 as [|x s H IH F]; [constructor|]. cbn. destruct (p x); [|assumption]. constructor; [assumption|].
    rewrite Forall_forall in *. intros y Hy. apply filter_In in Hy. apply F. tauto.
  Qed.
  Lemma filter_comm A (p q : A -> bool) (s : list A) : filter p (filter q s) = filter q (filter p s).
  Proof. clear. rewrite !filter_filter. apply filter_ext. intro. apply andb_comm. Qed.

  (** mr_factual's loop *)
  Lemma take_until_spec th : forall (s : list (rule V)) sum, exists k, (k <= List.length s)%nat /\
    map snd (take_until th sum (map (fun r => (ad deg r, r)) s)) = firstn k s /\
    (forall j, (j < k)%nat -> sum + mass_of deg (firstn j s) <= th) /\ ((k < List.length s)%nat -> th < sum + mass_of deg (firstn k s)).
  Proof.
    clear. induction s as [|r s IH]; intro sum; [exists 0%nat; repeat split; [cbn; lia|lia|cbn; lia]|]. cbn [map take_until fst].
    destruct (qltb_spec th sum) as [L|L].
    - exists 0%nat. repeat split; [lia|lia|]. intros _. cbn [firstn]. unfold mass_of. cbn. qlra.
    - destruct (IH (sum + ad deg r)) as (k & K & E & A & B). exists (S k). cbn [List.length map snd firstn]. rewrite E. repeat split; [lia| |].
      + intros [|j] Hj; [unfold mass_of; cbn; qlra|]. cbn [firstn]. rewrite mass_cons. specialize (A j). rewrite Qcplus_assoc. apply A. lia.
      + intro Hk. rewrite mass_cons, Qcplus_assoc. apply B. lia.
  Qed.
  Lemma top_k : forall (s sub rest : list (rule V)), StronglySorted (fun a b => ad deg b <= ad deg a) s -> Permutation (sub ++ rest) s ->
    mass_of deg sub <= mass_of deg (firstn (List.length sub) s).
  Proof.
    clear. induction s as [|x s IH]; intros sub rest S P.
    - apply Permutation_sym, Permutation_nil in P. apply app_eq_nil in P. destruct P as [-> _]. apply Qcle_refl.
    - inversion S as [|? ? S' F]; subst. assert (I : In x (sub ++ rest)) by (apply (Permutation_in _ (Permutation_sym P)); left; reflexivity).
      apply in_app_or in I. destruct I as [I|I].
      + apply in_split in I. destruct I as (l1 & l2 & ->). assert (P' : Permutation ((l1 ++ l2) ++ rest) s).
        { apply (Permutation_cons_inv (a := x)). rewrite <- P. rewrite <- !app_assoc. cbn. apply Permutation_middle. }
        specialize (IH _ _ S' P'). assert (E : mass_of deg (l1 ++ x :: l2) = ad deg x + mass_of deg (l1 ++ l2)) by (rewrite !mass_app, mass_cons; ring).
        rewrite E. replace (List.length (l1 ++ x :: l2)) with (Datatypes.S (List.length (l1 ++ l2))) by (rewrite !app_length; cbn; lia). cbn [firstn]. rewrite mass_cons. qlra.
      + destruct sub as [|y sub]; [apply Qcle_refl|]. apply in_split in I. destruct I as (l1 & l2 & ->).
        assert (P' : Permutation (sub ++ y :: l1 ++ l2) s).
        { apply (Permutation_cons_inv (a := x)). rewrite <- P. cbn [app]. rewrite <- (Permutation_middle sub (l1 ++ l2) y). rewrite perm_swap. constructor.
          rewrite !app_assoc. rewrite <- Permutation_middle. reflexivity. }
        specialize (IH _ _ S' P'). cbn [List.length firstn]. rewrite !mass_cons.
        assert (ad deg y <= ad deg x). { rewrite Forall_forall in F. apply F. apply (Permutation_in _ P'). apply in_or_app. right. left. reflexivity. }
        qlra.
  Qed.
  Lemma mass_le_perm sub rest l : (forall r, In r l -> 0 <= ad deg r) -> Permutation (sub ++ rest) l -> mass_of deg sub <= mass_of deg l.
  Proof.
    clear. intros N P. rewrite <- (mass_perm P), mass_app.
    assert (0 <= mass_of deg rest). { apply qsum_nonneg, Forall_forall. intros q Hq. apply in_map_iff in Hq. destruct Hq as [r [<- Hr]]. apply N. apply (Permutation_in _ P). apply in_or_app. auto. }
    qlra.
  Qed.

  (** robust threshold *)
  Lemma robust_spec rules c : (forall r, In r rules -> mt r = Ok (deg r)) ->
    robust_threshold mt rules c = qmaximum (map (class_total deg rules) (zunique (filter (fun k => negb (Z.eqb k c)) (map (@r_cons V) rules)))).
  Proof.
    intro H. unfold robust_threshold. rewrite (@mapM_Ok _ _ _ (class_total deg rules)); [reflexivity|]. intros cv _.
    assert (G : forall l acc, (forall r, In r l -> mt r = Ok (deg r)) ->
      foldM (fun th r => if Z.eqb (r_cons r) cv then do a <- assoc mt r; Ok (th + a) else Ok th) acc l = Ok (acc + class_total deg l cv)).
    { clear. induction l as [|r l IH]; intros acc H; [unfold class_total, mass_of; cbn; apply (f_equal (@Ok _)); ring|]. cbn [foldM]. unfold class_total. cbn [filter].
      destruct (Z.eqb (r_cons r) cv).
      - unfold assoc at 1. rewrite H by (left; reflexivity). cbn [bind]. rewrite IH by (intros; apply H; right; assumption). apply (f_equal (@Ok _)). rewrite mass_cons. unfold ad, class_total. ring.
      - cbn [bind]. rewrite IH by (intros; apply H; right; assumption). reflexivity. }
    rewrite G by assumption. apply (f_equal (@Ok _)). ring.
  Qed.
  Lemma other_classes_In rules c k : In k (zunique (filter (fun k => negb (Z.eqb k c)) (map (@r_cons V) rules))) <-> exists r, In r rules /\ r_cons r <> c /\ r_cons r = k.
  Proof.
    clear. rewrite zunique_In, filter_In, in_map_iff, negb_true_iff, Z.eqb_neq. split.
    - intros [(r & <- & Hr) N]. eauto.
    - intros (r & Hr & N & <-). eauto.
  Qed.

  (** c_factual's loop *)
  Lemma firstn_snoc A (s : list A) x rest k : s = firstn k s ++ x :: rest -> (k <= List.length s)%nat -> firstn (S k) s = firstn k s ++ [x].
  Proof.
    clear. revert s. induction k as [|k IH]; intros [|y s] E L; cbn in *; try lia; try discriminate; [injection E as -> _; reflexivity|].
    f_equal. apply IH; [|lia]. injection E as E. exact E.
  Qed.
  Lemma take_quotient_spec lam beta (s : list (rule V)) : (forall r, In r s -> ad deg r <> 0) ->
    forall rest i a, s = firstn (S i) s ++ rest -> nth_error s i = Some a ->
    exists k, (i <= k)%nat /\ (k < List.length s)%nat /\
      take_quotient lam beta (ad deg a) (mass_of deg (firstn (S i) s)) (map (fun r => (ad deg r, r)) rest) = Ok (map (fun r => (ad deg r, r)) (firstn (k - i) rest)) /\
      (forall j, (i <= j)%nat -> (j < k)%nat -> ~ jump deg lam beta s j) /\ ((S k < List.length s)%nat -> jump deg lam beta s k).
  Proof.
    clear. intro NZ. induction rest as [|r rest IH]; intros i a E Ha.
    - exists i. rewrite Nat.sub_diag. rewrite app_nil_r in E. assert (Li : (i < List.length s)%nat) by (apply nth_error_Some; congruence).
      split; [lia|]. split; [assumption|]. split; [reflexivity|]. split; [lia|]. intro L. exfalso. assert (List.length (firstn (S i) s) <= S i)%nat by apply firstn_le_length. rewrite <- E in H. lia.
    - assert (Li : (i < List.length s)%nat) by (apply nth_error_Some; congruence).
      assert (Lf : List.length (firstn (S i) s) = S i) by (apply firstn_length_le; lia).
      assert (Lr : List.length s = (S i + S (List.length rest))%nat) by (rewrite E at 1; rewrite app_length, Lf; reflexivity).
      assert (Hr : nth_error s (S i) = Some r). { rewrite E. rewrite nth_error_app2 by lia. rewrite Lf, Nat.sub_diag. reflexivity. }
      cbn [map take_quotient fst]. unfold pdiv at 1. destruct (qeqb_spec (ad deg r) 0) as [Z|Z]; [exfalso; revert Z; apply NZ; apply (nth_error_In _ _ Hr)|]. cbn [bind].
      destruct (qltb (1 + lam) (ad deg a / ad deg r) && match beta with None => true | Some b => qleb b (mass_of deg (firstn (S i) s)) end) eqn:C.
      + apply andb_true_iff in C. destruct C as [C1 C2]. rewrite qltb_lt in C1. exists i. rewrite Nat.sub_diag. split; [lia|]. split; [lia|]. split; [reflexivity|]. split; [lia|].
        intros _. exists a, r. repeat split; try assumption. destruct beta; [apply qleb_le; assumption|trivial].
      + assert (NJ : ~ jump deg lam beta s i).
        { intros (a' & r' & A1 & A2 & A3 & A4). rewrite Ha in A1. rewrite Hr in A2. injection A1 as <-. injection A2 as <-. apply andb_false_iff in C. destruct C as [C|C].
          - rewrite qltb_ge in C. qlra.
          - destruct beta; [|discriminate]. rewrite qleb_gt in C. qlra. }
        assert (E' : firstn (S (S i)) s = firstn (S i) s ++ [r]) by (eapply firstn_snoc; [exact E|lia]).
        destruct (IH (S i) r) as (k & K1 & K2 & K3 & K4 & K5). { rewrite E'. rewrite <- app_assoc. exact E. } { assumption. }
        exists k. split; [lia|]. split; [assumption|]. split.
        * rewrite E', mass_app in K3. unfold mass_of at 2 in K3. cbn [map] in K3. rewrite qsum_cons, qsum_nil, Qcplus_0_r in K3. rewrite K3. cbn [bind].
          replace (k - i)%nat with (S (k - S i)) by lia. reflexivity.
        * split; [|assumption]. intros j J1 J2. destruct (Nat.eq_dec j i) as [->|]; [assumption|]. apply K4; lia.
  Qed.
End Factual.
