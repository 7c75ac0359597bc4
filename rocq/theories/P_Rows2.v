(** * Proofs: reordering and repeating the training rows of binary trees *)
From Verif Require Import Prelude M_Fuzzy M_Discretize M_Rule M_FDT S_FDT P_Entropy P_FuzzyVar P_FDT P_FDT3 M_FBDT S_FBDTPrivate P_FBDT2 S_Rows P_Rows.
From Coq Require Import Reals Lra.
Local Notation eqb := Prelude.eqb.
Open Scope Qc_scope.

Definition rmap {A B} (f : A -> B) (r : res A) : res B := match r with Ok x => Ok (f x) | Err e => Err e end.

Section Binary.
  Variable k n : nat.
  Variable idx : list nat.
  Hypothesis Hk : (0 < k)%nat.
  Hypothesis Hidx : Permutation idx (List.concat (repeat (seq 0 n) k)).
  Notation re := (re idx).
  Notation re_mem := (re_mem idx).
  Notation re_sets := (re_sets idx).
  Notation sized := (sized n).
  Notation sized_sets := (sized_sets n).
  Notation times := (times k).
  Variable XM : xmem.
  Hypothesis HS : sized XM.
  Variable y : list Z.
  Hypothesis Hy : List.length y = n.

  Lemma re_set_column f s : set_column (re_mem XM) f s = rmap (re 0) (set_column XM f s).
  Proof.
    unfold set_column. rewrite re_dget. destruct (dget f XM) as [sets|]; cbn [option_map ret_opt bind rmap]; [|reflexivity].
    rewrite re_sets_get. destruct (dget s sets); reflexivity.
  Qed.
  Lemma set_column_sized f s col : set_column XM f s = Ok col -> List.length col = n.
  Proof.
    unfold set_column. intro H. destruct (dget f XM) as [sets|] eqn:E; cbn [ret_opt bind] in H; [|discriminate].
    destruct (dget s sets) as [c|] eqn:D; cbn [ret_opt] in H; [|discriminate]. assert (c = col) by congruence. subst c. exact (HS _ _ (dget_In _ _ E) _ _ (dget_In _ _ D)).
  Qed.
  Lemma re_share col c : List.length col = n -> positive_share (re 0 col) (re 0%Z y) c = positive_share col y c.
  Proof.
    intro L. unfold positive_share. rewrite (re_qsum k n) by assumption. rewrite (scale_zero k Hk). destruct (qeqb (qsum col) 0); [reflexivity|].
    rewrite (re_class_card k n) by assumption. rewrite (scale_div k Hk). reflexivity.
  Qed.
  Lemma re_partitions psort cats fd : binary_partitions psort cats fd (re_mem XM) (re 0%Z y) = binary_partitions psort cats fd XM y.
  Proof.
    unfold binary_partitions. rewrite (re_zunique k n idx Hk Hidx y 0%Z Hy). destruct (nth_error (zunique y) 0) as [c|]; cbn [ret_opt bind]; [|reflexivity]. f_equal.
    apply mapM_ext. intros [f sets] _. cbn [fst snd]. destruct (memb f cats); [|reflexivity].
    match goal with |- bind ?a _ = bind ?b _ => assert (E : a = b) end.
    { apply mapM_ext. intros s _. rewrite re_set_column. destruct (set_column XM f s) as [col|] eqn:C; cbn [rmap bind]; [|reflexivity]. rewrite re_share; [reflexivity|]. exact (set_column_sized _ _ _ C). }
    rewrite E. reflexivity.
  Qed.
  Lemma re_columns f sets : mapM (set_column (re_mem XM) f) sets = rmap (map (re 0)) (mapM (set_column XM f) sets).
  Proof.
    induction sets as [|s sets IH]; [reflexivity|]. cbn [mapM]. rewrite re_set_column, IH. destruct (set_column XM f s); cbn [rmap bind]; [|reflexivity].
    destruct (mapM (set_column XM f) sets); reflexivity.
  Qed.
  Lemma columns_sized f sets cols : mapM (set_column XM f) sets = Ok cols -> Forall (fun c => List.length c = n) cols.
  Proof.
    intro H. apply mapM_ok in H. induction H as [|s c sets cols Hc _ IH]; constructor; [exact (set_column_sized _ _ _ Hc)|exact IH].
  Qed.
  Lemma re_fold cols : Forall (fun c => List.length c = n) cols -> forall a, List.length a = n ->
    fold_left (map2 Qcplus) (map (re 0) cols) (re 0 a) = re 0 (fold_left (map2 Qcplus) cols a) /\ List.length (fold_left (map2 Qcplus) cols a) = n.
  Proof.
    induction 1 as [|c cols Hc _ IH]; intros a La; [split; [reflexivity|exact La]|]. cbn [map fold_left].
    rewrite (re_map2 k n idx Hk Hidx _ _ _ Qcplus 0 0 0) by assumption. apply IH. rewrite map2_length. lia.
  Qed.
  Lemma re_sum f sets : sum_sets (re_mem XM) (List.length idx) f sets = rmap (re 0) (sum_sets XM n f sets).
  Proof.
    unfold sum_sets. rewrite re_columns. destruct (mapM (set_column XM f) sets) as [cols|] eqn:E; cbn [rmap bind]; [|reflexivity]. f_equal.
    rewrite <- (re_repeat k n idx Hk Hidx _ 0 0). apply re_fold; [exact (columns_sized _ _ _ E)|apply repeat_length].
  Qed.
  Lemma sum_sized f sets m : sum_sets XM n f sets = Ok m -> List.length m = n.
  Proof.
    unfold sum_sets. intro H. destruct (mapM (set_column XM f) sets) as [cols|] eqn:E; cbn [bind] in H; [|discriminate]. assert (M : m = fold_left (map2 Qcplus) cols (repeat 0 n)) by congruence. rewrite M.
    apply (re_fold cols (columns_sized _ _ _ E)). apply repeat_length.
  Qed.
  Lemma re_mark m a : List.length m = n -> List.length a = n -> mark (re 0 m) (re 0 a) = re 0 (mark m a).
  Proof. intros. unfold mark. apply (re_map2 k n idx Hk Hidx); assumption. Qed.
  Lemma mark_sized m a : List.length m = n -> List.length a = n -> List.length (mark m a) = n.
  Proof. intros. unfold mark. rewrite map2_length. lia. Qed.
  Lemma sized_dset ign f v : sized_sets ign -> List.length v = n -> sized_sets (dset f v ign).
  Proof.
    intros S L s w. induction ign as [|[a u] ign IH]; cbn [dset].
    - intros [E|[]]. congruence.
    - destruct (eqb f a) eqn:E.
      + intros [H|H]; [congruence|]. apply (S s w). right. exact H.
      + intros [H|H]; [apply (S s w); left; exact H|]. apply IH; [|exact H]. intros s' w' H'. apply (S s' w'). right. exact H'.
  Qed.
  Definition side3 (r : marks * list Qc * list Qc) : marks * list Qc * list Qc := let '(i, m, l) := r in (re_sets i, re 0 m, re 0 l).
  Lemma re_side mu ign f sets : List.length mu = n -> sized_sets ign ->
    vscore_side (re 0 mu) (re_sets ign) (re_mem XM) (List.length idx) f sets = rmap side3 (vscore_side mu ign XM n f sets).
  Proof.
    intros L S. unfold vscore_side. rewrite re_sum. destruct (sum_sets XM n f sets) as [m|] eqn:E; cbn [rmap bind]; [|reflexivity]. assert (Lm := sum_sized _ _ _ E).
    rewrite re_sets_get. destruct (dget f ign) as [A|] eqn:D; cbn [option_map rmap side3].
    - assert (LA : List.length A = n) by exact (S _ _ (dget_In _ _ D)).
      rewrite (re_map2 k n idx Hk Hidx _ _ _ qmax 0 0 0) by assumption. assert (LM : List.length (map2 qmax m A) = n) by (rewrite map2_length; lia). cbv zeta.
      rewrite re_mark by assumption. rewrite (re_map2 k n idx Hk Hidx _ _ _ qmin 0 0 0) by assumption.
      f_equal. f_equal. f_equal. unfold P_Rows.re_sets. apply dset_map.
    - rewrite (re_map2 k n idx Hk Hidx _ _ _ qmin 0 0 0) by assumption. f_equal. f_equal.
      rewrite <- (re_repeat k n idx Hk Hidx _ 0 0). apply re_mark; [assumption|apply repeat_length].
  Qed.
  Lemma side_sized mu ign f sets i m l : List.length mu = n -> sized_sets ign -> vscore_side mu ign XM n f sets = Ok (i, m, l) ->
    sized_sets i /\ List.length m = n /\ List.length l = n.
  Proof.
    intros L S H. unfold vscore_side in H. destruct (sum_sets XM n f sets) as [s|] eqn:E; cbn [bind] in H; [|discriminate]. assert (Ls := sum_sized _ _ _ E).
    destruct (dget f ign) as [A|] eqn:D.
    - assert (LA : List.length A = n) by exact (S _ _ (dget_In _ _ D)). cbv zeta in H.
      assert (LM : List.length (map2 qmax s A) = n) by (rewrite map2_length; lia). injection H as <- <- <-. assert (LK := mark_sized _ _ LM LA).
      split; [apply sized_dset; assumption|]. split; [rewrite map2_length; lia|assumption].
    - injection H as <- <- <-. split; [assumption|]. split; [rewrite map2_length; lia|apply mark_sized; [assumption|apply repeat_length]].
  Qed.
  Lemma re_split_gain mu l r : List.length mu = n -> List.length l = n -> List.length r = n -> split_gain (re 0 mu) (re 0 l) (re 0 r) (re 0%Z y) = split_gain mu l r y.
  Proof.
    intros L Ll Lr. unfold split_gain. rewrite !(re_qsum k n) by assumption. rewrite (scale_zero k Hk). destruct (qeqb (qsum mu) 0) eqn:Q; [reflexivity|].
    apply qeqb_neq in Q. rewrite !(re_entropy k n) by assumption. f_equal. rewrite !qr_mult, qr_qn.
    assert (K : INR k <> 0%R) by (apply not_0_INR; lia).
    assert (M : qr (qsum mu) <> 0%R). { rewrite <- qr_0. intro E'. apply qr_inj in E'. contradiction. }
    field. split; assumption.
  Qed.
  Definition re_vs (s : vsplit) : vsplit := mkVS (v_att s) (v_gain s) (re 0 (v_lmu s)) (re 0 (v_rmu s)) (v_left s) (v_right s) (re 0 (v_lmarks s)) (re 0 (v_rmarks s)).
  Definition vs_sized (s : vsplit) : Prop := List.length (v_lmu s) = n /\ List.length (v_rmu s) = n /\ List.length (v_lmarks s) = n /\ List.length (v_rmarks s) = n.
  Definition re_ib (ib : marks * option vsplit) : marks * option vsplit := (re_sets (fst ib), option_map re_vs (snd ib)).
  Definition ib_sized (ib : marks * option vsplit) : Prop := sized_sets (fst ib) /\ forall s, snd ib = Some s -> vs_sized s.
  Lemma idx_len : List.length (re 0%Z y) = List.length idx. Proof. apply re_length. Qed.
  Lemma re_score mu ib p : List.length mu = n -> ib_sized ib ->
    vscore_partition (re_mem XM) (re 0%Z y) (re 0 mu) (re_ib ib) p = rmap re_ib (vscore_partition XM y mu ib p).
  Proof.
    intros L [S B]. unfold vscore_partition. destruct p as [[f ls] rs]. rewrite idx_len, Hy. cbn [re_ib fst snd]. rewrite re_side by assumption.
    destruct (vscore_side mu (fst ib) XM n f ls) as [[[i1 lmu] lm]|] eqn:E1; cbn [rmap bind side3]; [|reflexivity].
    destruct (side_sized _ _ _ _ _ _ _ L S E1) as (S1 & L1 & _). rewrite re_side by assumption.
    destruct (vscore_side mu i1 XM n f rs) as [[[i2 rmu] rm]|] eqn:E2; cbn [rmap bind side3]; [|reflexivity].
    destruct (side_sized _ _ _ _ _ _ _ L S1 E2) as (S2 & L2 & _). rewrite re_split_gain by assumption.
    destruct (split_gain mu lmu rmu y) as [g|]; cbn [rmap bind]; [|reflexivity]. unfold re_ib. cbn [fst snd].
    assert (G : vbest_gain (option_map re_vs (snd ib)) = vbest_gain (snd ib)) by (destruct (snd ib); reflexivity). rewrite G.
    destruct (Rltb (vbest_gain (snd ib)) g); reflexivity.
  Qed.
  Lemma score_sized mu ib p ib' : List.length mu = n -> ib_sized ib -> vscore_partition XM y mu ib p = Ok ib' -> ib_sized ib'.
  Proof.
    intros L [S B] H. unfold vscore_partition in H. destruct p as [[f ls] rs]. rewrite Hy in H.
    destruct (vscore_side mu (fst ib) XM n f ls) as [[[i1 lmu] lm]|] eqn:E1; cbn [bind] in H; [|discriminate].
    destruct (side_sized _ _ _ _ _ _ _ L S E1) as (S1 & L1 & M1).
    destruct (vscore_side mu i1 XM n f rs) as [[[i2 rmu] rm]|] eqn:E2; cbn [bind] in H; [|discriminate].
    destruct (side_sized _ _ _ _ _ _ _ L S1 E2) as (S2 & L2 & M2).
    destruct (split_gain mu lmu rmu y) as [g|]; cbn [bind] in H; [|discriminate].
    match type of H with Ok ?p = _ => assert (E : ib' = p) by congruence end. rewrite E. split; [exact S2|]. cbn [snd].
    intros s Hs. destruct (Rltb (vbest_gain (snd ib)) g); [|exact (B s Hs)]. injection Hs as <-. repeat split; assumption.
  Qed.
  Lemma re_vmax psort cats mu ign fd : List.length mu = n -> sized_sets ign ->
    vmax_split psort cats (re 0 mu) (re_sets ign) fd (re_mem XM) (re 0%Z y) = rmap re_ib (vmax_split psort cats mu ign fd XM y) /\
    forall ib, vmax_split psort cats mu ign fd XM y = Ok ib -> ib_sized ib.
  Proof.
    intros L S. unfold vmax_split. rewrite re_partitions. destruct (binary_partitions psort cats fd XM y) as [ps|]; cbn [bind rmap]; [|split; [reflexivity|discriminate]].
    assert (F : forall ps ib, ib_sized ib -> foldM (vscore_partition (re_mem XM) (re 0%Z y) (re 0 mu)) (re_ib ib) ps = rmap re_ib (foldM (vscore_partition XM y mu) ib ps) /\
      forall ib', foldM (vscore_partition XM y mu) ib ps = Ok ib' -> ib_sized ib').
    { clear ps. induction ps as [|p ps IH]; intros ib B; cbn [foldM].
      - split; [reflexivity|]. intros ib' E. assert (ib' = ib) by congruence. subst. exact B.
      - rewrite re_score by assumption. destruct (vscore_partition XM y mu ib p) as [ib'|] eqn:E; cbn [rmap bind]; [|split; [reflexivity|discriminate]].
        apply IH. exact (score_sized _ _ _ _ L B E). }
    apply (F ps (ign, None)). split; [exact S|discriminate].
  Qed.

  Definition same_btree (r r' : res btree) : Prop :=
    match r, r' with Ok t, Ok t' => bshape t = bshape t' | Err e, Err e' => e = e' | _, _ => False end.
  Lemma same_bind A (r : res A) (f g : A -> res btree) : (forall x, r = Ok x -> same_btree (f x) (g x)) -> same_btree (bind r f) (bind r g).
  Proof. intro H. destruct r; cbn [bind]; [apply H; reflexivity|reflexivity]. Qed.
  Lemma re_inherit ign f m : sized_sets ign -> List.length m = n -> inherit (re_sets ign) f (re 0 m) = re_sets (inherit ign f m) /\ sized_sets (inherit ign f m).
  Proof.
    intros S L. unfold inherit. rewrite re_sets_get. destruct (dget f ign); cbn [option_map]; [split; [reflexivity|exact S]|].
    split; [apply dset_map|apply sized_dset; assumption].
  Qed.
  Lemma re_vfit cfg psort cats : forall fuel node node' ign fd depth,
    bshape node = bshape node' -> List.length (b_mu node) = n -> b_mu node' = re 0 (b_mu node) -> sized_sets ign ->
    same_btree (vfit fuel cfg psort cats XM y node ign fd depth) (vfit fuel (times cfg) psort cats (re_mem XM) (re 0%Z y) node' (re_sets ign) fd depth).
  Proof.
    induction fuel as [|fuel IH]; intros node node' ign fd depth Sh L Mu S; [reflexivity|].
    cbn [vfit]. rewrite Mu. destruct (re_vmax psort cats (b_mu node) ign fd L S) as [V VS]. rewrite V.
    destruct (vmax_split psort cats (b_mu node) ign fd XM y) as [[ign1 best]|]; cbn [rmap bind re_ib fst snd]; [|reflexivity].
    destruct (VS _ eq_refl) as [S1 B]. cbn [fst snd] in S1, B. clear VS V.
    assert (G : vbest_gain (option_map re_vs best) = vbest_gain best) by (destruct best; reflexivity). rewrite G.
    rewrite (re_stop k n) by assumption. rewrite (re_class_value k n) by assumption.
    destruct node as [l cs cv lv va vr mu ig], node' as [l' cs' cv' lv' va' vr' mu' ig']. cbn [b_children b_value b_var b_class b_mu] in *.
    cbn [bshape] in Sh. assert (SC : map bshape cs = map bshape cs') by congruence. assert (cv = cv') by congruence. assert (va = va') by congruence. assert (vr = vr') by congruence. clear Sh. subst cv' va' vr'.
    destruct (stop_met cfg (vbest_gain best) (masked mu y) depth).
    { apply same_bind. intros d _. cbn [same_btree bshape]. rewrite SC. reflexivity. }
    change (f_vars (times cfg)) with (f_vars cfg).
    destruct best as [s|]; cbn [option_map]; [|destruct (dget _ _); reflexivity].
    destruct (B s eq_refl) as (Q1 & Q2 & Q3 & Q4). cbn [re_vs v_att v_lmu v_rmu v_lmarks v_rmarks v_left v_right]. cbv zeta.
    apply same_bind. intros a _. apply same_bind. intros v _.
    match goal with |- same_btree (bind ?A ?F) (bind ?B ?G') => assert (HL : same_btree A B) end.
    { apply same_bind. intros ix _. apply same_bind. intros av _. rewrite (re_qsum k n) by assumption. rewrite (scale_pos k Hk).
      destruct (re_inherit ign1 (v_att s) (v_lmarks s) S1 Q3) as [I1 I2]. destruct (qltb 0 (qsum (v_lmu s))).
      - rewrite I1. apply IH; [reflexivity|assumption|reflexivity|assumption].
      - apply same_bind. intros d _. reflexivity. }
    match type of HL with same_btree ?A ?B => destruct A as [tl|], B as [tl'|]; cbn [same_btree] in HL; cbn [bind]; try contradiction; [|exact HL] end.
    match goal with |- same_btree (bind ?A ?F) (bind ?B ?G') => assert (HR : same_btree A B) end.
    { apply same_bind. intros ix _. apply same_bind. intros av _. rewrite (re_qsum k n) by assumption. rewrite (scale_pos k Hk).
      destruct (re_inherit ign1 (v_att s) (v_rmarks s) S1 Q4) as [I1 I2]. destruct (qltb 0 (qsum (v_rmu s))).
      - rewrite I1. apply IH; [reflexivity|assumption|reflexivity|assumption].
      - apply same_bind. intros d _. reflexivity. }
    match type of HR with same_btree ?A ?B => destruct A as [tr|], B as [tr'|]; cbn [same_btree] in HR; cbn [bind]; try contradiction; [|exact HR] end.
    cbn [same_btree bshape]. rewrite !map_app, SC. cbn [map]. rewrite HL, HR. reflexivity.
  Qed.
End Binary.

Lemma re_vt_fit k idx cfg psort X y t : (0 < k)%nat -> Permutation idx (List.concat (repeat (seq 0 (List.length y)) k)) -> List.length X = List.length y ->
  vt_fit cfg psort X y = Ok t -> exists t', vt_fit (times k cfg) psort (re idx [] X) (re idx 0%Z y) = Ok t' /\ bshape t' = bshape t.
Proof.
  intros Hk P L H. unfold vt_fit in *. change (f_vars (times k cfg)) with (f_vars cfg). destruct (categorical_features (f_vars cfg)) as [cats|]; cbn [bind] in *; [|discriminate].
  destruct (_ || _) eqn:G; [discriminate|]. apply orb_false_iff in G. destruct G as [G1 G2]. apply Nat.eqb_neq in G2.
  assert (LI := idx_length _ _ _ P). rewrite !re_length, LI. rewrite Nat.eqb_refl. cbn [negb orb].
  replace (Nat.eqb (k * List.length y) 0) with false by (symmetry; apply Nat.eqb_neq; nia).
  destruct (dataset_membership X (f_vars cfg)) as [XM|] eqn:M; cbn [bind] in H; [|discriminate]. destruct (re_membership k _ idx Hk P _ _ _ L M) as [M' S].
  rewrite M'. cbn [bind].
  match type of H with vfit ?fu _ _ _ _ _ ?nd _ _ _ = _ =>
    assert (Q := re_vfit k (List.length y) idx Hk P XM S y eq_refl cfg psort cats fu nd (BTree true [] None (-1) None None (repeat 1 (k * List.length y)) []) [] (initial_sets (f_vars cfg)) 0%Z eq_refl) end.
  rewrite H in Q. cbn [b_mu] in Q. specialize (Q (repeat_length _ _)). rewrite <- LI in *. specialize (Q ltac:(symmetry; apply (re_repeat k); [exact Hk|exact P]) ltac:(intros s v [])).
  change (P_Rows.re_sets idx []) with (@nil (string * list Qc)) in Q.
  destruct (vfit _ (times k cfg) _ _ _ _ _ _ _ _) as [t'|]; cbn [same_btree] in Q; [|destruct Q]. exists t'. split; [reflexivity|]. symmetry. exact Q.
Qed.
Lemma bshape_erase t : bshape (erase t) = bshape t.
Proof.
  induction t as [l cs cv lv va vr mu ig IH] using btree_ind'. cbn [erase bshape]. f_equal. rewrite map_map. apply map_ext_in. intros c Hc. rewrite Forall_forall in IH. apply IH. assumption.
Qed.
Lemma bshape_predict tn X t : forall mu, partial_bpredict tn X mu (bshape t) = partial_bpredict tn X mu t.
Proof.
  induction t as [l cs cv lv va vr mu ig IH] using btree_ind'. intro m. cbn [bshape partial_bpredict].
  match goal with |- bind ?r _ = bind ?r' _ => change r' with r; destruct r as [nm|] end; cbn [bind]; [|reflexivity].
  destruct l; [reflexivity|]. destruct cs as [|c cs]; [reflexivity|]. cbn [map].
  assert (E : mapM (partial_bpredict tn X nm) (map bshape (c :: cs)) = mapM (partial_bpredict tn X nm) (c :: cs)).
  { clear - IH. induction IH as [|x l Hx _ IH]; [reflexivity|]. cbn [map mapM]. rewrite Hx, IH. reflexivity. }
  cbn [map] in E. rewrite E. reflexivity.
Qed.
Lemma bshape_rules th t : forall prefix, get_brules (bshape t) prefix th = get_brules t prefix th.
Proof.
  induction t as [l cs cv lv va vr mu ig IH] using btree_ind'. intro pr. cbn [bshape get_brules].
  match goal with |- bind ?r _ = bind ?r' _ => change r' with r; destruct r as [nm|] end; cbn [bind]; [|reflexivity].
  destruct l; [reflexivity|].
  assert (E : mapM (fun c => get_brules c nm th) (map bshape cs) = mapM (fun c => get_brules c nm th) cs).
  { clear - IH. induction IH as [|x l Hx _ IH]; [reflexivity|]. cbn [map mapM]. rewrite Hx, IH. reflexivity. }
  rewrite E. reflexivity.
Qed.
Lemma same_bshape_predict cfg t t' X : bshape t = bshape t' -> bpredict cfg t X = bpredict cfg t' X.
Proof. intro S. unfold bpredict. rewrite <- (bshape_predict _ _ t), <- (bshape_predict _ _ t'), S. reflexivity. Qed.
Lemma same_bshape_rules t t' th simp : bshape t = bshape t' -> btree_rules t th simp = btree_rules t' th simp.
Proof. intro S. unfold btree_rules. rewrite <- (bshape_rules _ t), <- (bshape_rules _ t'), S. reflexivity. Qed.
