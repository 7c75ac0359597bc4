(** * Proofs about explainers *)
From Verif Require Import Prelude M_Fuzzy M_Discretize M_Rule S_Rule P_Rule M_FDT M_FBDT M_ID3 P_ID3 M_Metrics M_Factual S_Factual P_Factual
  M_Counterfactual S_Counterfactual P_Counterfactual M_Explainer S_Explainer.
From Coq Require Import Reals.
Set Implicit Arguments.
Open Scope Qc_scope.

Definition orelse {A} (a b : option A) : option A := match a with Some _ => a | None => b end.
(** the attributes of [t] where they are set, those of [s] elsewhere *)
Definition override {F C} (s t : explainer F C) : explainer F C :=
  mkE (orelse (e_target t) (e_target s)) (orelse (e_value t) (e_value s)) (orelse (e_explanation t) (e_explanation s)) (orelse (e_fidelity t) (e_fidelity s)).
Lemma override_new F C (s : explainer F C) : override s new_explainer = s.
Proof. destruct s; reflexivity. Qed.
Lemma override_id F C (s : explainer F C) : override new_explainer s = s.
Proof. destruct s as [[] [] [] []]; reflexivity. Qed.

Ltac walk := repeat match goal with |- context[tryS ?r _ _] => destruct r; cbn [tryS]; [|cbn; try reflexivity; match goal with |- context[?s] => is_var s; destruct s; reflexivity end] end.
Lemma fdt_fit_override ord same parse mixed s a :
  fdt_fit ord same parse mixed s a = (override s (fst (fdt_fit ord same parse mixed new_explainer a)), snd (fdt_fit ord same parse mixed new_explainer a)).
Proof. unfold fdt_fit. destruct s as [t v e f]. cbn [e_target e_value e_explanation e_fidelity new_explainer]. walk. reflexivity. Qed.
Lemma fbdt_fit_override psort s a :
  fbdt_fit psort s a = (override s (fst (fbdt_fit psort new_explainer a)), snd (fbdt_fit psort new_explainer a)).
Proof. unfold fbdt_fit. destruct s as [t v e f]. cbn [e_target e_value e_explanation e_fidelity new_explainer]. walk. reflexivity. Qed.
Lemma fid3_fit_override cls fts s a :
  fid3_fit cls fts s a = (override s (fst (fid3_fit cls fts new_explainer a)), snd (fid3_fit cls fts new_explainer a)).
Proof. unfold fid3_fit. destruct s as [t v e f]. cbn [e_target e_value e_explanation e_fidelity new_explainer]. walk. reflexivity. Qed.

Section History.
  Context {F C A : Type} (fitting : explainer F C -> A -> explainer F C * option exn).
  Hypothesis OV : forall s a, fitting s a = (override s (left_by fitting a), snd (fitting new_explainer a)).
  Hypothesis EX : forall a, e_explanation (left_by fitting a) <> None <-> succeeds fitting a.
  Hypothesis EV : forall a, e_explanation (left_by fitting a) <> None -> e_value (left_by fitting a) <> None.

  Lemma after_app s l l' : after fitting s (l ++ l') = after fitting (after fitting s l) l'.
  Proof. clear. revert s. induction l as [|a l IH]; intro s; [reflexivity|apply IH]. Qed.
  Lemma after_snoc s l a : after fitting s (l ++ [a]) = override (after fitting s l) (left_by fitting a).
  Proof using OV. clear EX EV. rewrite after_app. cbn. rewrite OV. reflexivity. Qed.
  Lemma last_some_snoc T (l : list (option T)) o : last_some (l ++ [o]) = orelse o (last_some l).
  Proof. clear. induction l as [|x l IH]; [destruct o; reflexivity|]. cbn. rewrite IH. destruct o; [reflexivity|]. cbn. destruct (last_some l); reflexivity. Qed.
  Lemma after_last l :
    after fitting new_explainer l =
    mkE (last_some (map (fun a => e_target (left_by fitting a)) l)) (last_some (map (fun a => e_value (left_by fitting a)) l))
        (last_some (map (fun a => e_explanation (left_by fitting a)) l)) (last_some (map (fun a => e_fidelity (left_by fitting a)) l)).
  Proof using OV.
    clear EX EV. induction l as [|a l IH] using rev_ind; [reflexivity|]. rewrite after_snoc, IH, !map_app. cbn [map]. rewrite !last_some_snoc. reflexivity.
  Qed.
  Lemma explain_history l :
    (explain (after fitting new_explainer l) = Err NotFitted /\ Forall (fails fitting) l) \/
    (exists l1 a l2 e, l = l1 ++ a :: l2 /\ succeeds fitting a /\ Forall (fails fitting) l2 /\
       explain (after fitting new_explainer l) = Ok e /\ explain (left_by fitting a) = Ok e).
  Proof using OV EX.
    clear EV. induction l as [|a l IH] using rev_ind; [left; split; [reflexivity|constructor]|]. rewrite after_snoc. unfold explain, override; cbn [e_explanation].
    destruct (e_explanation (left_by fitting a)) as [e|] eqn:E.
    - right. exists l, a, [], e. split; [reflexivity|]. split; [apply EX; congruence|]. split; [constructor|]. split; [reflexivity|]. rewrite E. reflexivity.
    - assert (FA : fails fitting a). { unfold fails, raises. destruct (snd (fitting new_explainer a)) eqn:S; [eauto|]. exfalso. apply (proj2 (EX a) S). assumption. }
      destruct IH as [[IH1 IH2]|(l1 & b & l2 & e & -> & S & FL & X1 & X2)].
      + left. split; [exact IH1|]. apply Forall_app. auto.
      + right. exists l1, b, (l2 ++ [a]), e. split; [rewrite <- app_assoc; reflexivity|]. split; [assumption|]. split; [apply Forall_app; auto|]. split; [exact X1|exact X2].
  Qed.
  Lemma explained_value l : e_explanation (after fitting new_explainer l) <> None -> e_value (after fitting new_explainer l) <> None.
  Proof using OV EV.
    clear EX. induction l as [|a l IH] using rev_ind; [cbn; congruence|]. rewrite after_snoc. unfold override; cbn [e_explanation e_value].
    specialize (EV a). destruct (e_explanation (left_by fitting a)); cbn [orelse]; destruct (e_value (left_by fitting a)); cbn [orelse]; try congruence; auto.
    intro. exfalso. apply EV; congruence.
  Qed.
End History.

(** an explanation is stored exactly on success, and then with a prediction *)
Ltac walks := repeat match goal with |- context[tryS ?r _ _] => destruct r; cbn [tryS fst snd e_explanation e_value]; [|cbn; try (split; congruence); intros; try discriminate; try congruence] end.
Lemma fdt_stores ord same parse mixed a : e_explanation (left_by (fdt_fit ord same parse mixed) a) <> None <-> succeeds (fdt_fit ord same parse mixed) a.
Proof. unfold left_by, succeeds, fdt_fit. cbn [e_target e_value e_explanation e_fidelity new_explainer]. walks. split; congruence. Qed.
Lemma fdt_value ord same parse mixed a : e_explanation (left_by (fdt_fit ord same parse mixed) a) <> None -> e_value (left_by (fdt_fit ord same parse mixed) a) <> None.
Proof. unfold left_by, fdt_fit. cbn [e_target e_value e_explanation e_fidelity new_explainer]. walks. congruence. Qed.
Lemma fbdt_stores psort a : e_explanation (left_by (fbdt_fit psort) a) <> None <-> succeeds (fbdt_fit psort) a.
Proof. unfold left_by, succeeds, fbdt_fit. cbn [e_target e_value e_explanation e_fidelity new_explainer]. walks. split; congruence. Qed.
Lemma fbdt_value psort a : e_explanation (left_by (fbdt_fit psort) a) <> None -> e_value (left_by (fbdt_fit psort) a) <> None.
Proof. unfold left_by, fbdt_fit. cbn [e_target e_value e_explanation e_fidelity new_explainer]. walks. congruence. Qed.
Lemma fbdt_text psort a e : e_explanation (left_by (fbdt_fit psort) a) = Some e -> snd e = no_counterfactual.
Proof. unfold left_by, fbdt_fit. cbn [e_target e_value e_explanation e_fidelity new_explainer]. walks. intro H. injection H as <-. reflexivity. Qed.

(** the argument checks *)
Lemma check_methods_spec instance f g kw :
  (valid_arguments instance f g kw /\ exists fm cm, check_methods instance f g kw = Ok (fm, cm) /\ fmethod_of f = Some fm /\ cmethod_of g = Some cm) \/
  (~ valid_arguments instance f g kw /\ check_methods instance f g kw = Err ValueError).
Proof.
  assert (FM : forall s, (exists fm, fmethod_of s = Some fm) <-> In s ["m_factual"; "mr_factual"; "c_factual"]%string).
  { intro s. unfold fmethod_of, eqb. destruct (eq_dec s "m_factual"%string); [split; [intros _; cbn; intuition|eauto]|]. destruct (eq_dec s "mr_factual"%string); [split; [intros _; cbn; intuition|eauto]|].
    destruct (eq_dec s "c_factual"%string); [split; [intros _; cbn; intuition|eauto]|]. split; [intros [? ?]; discriminate|]. intros [H|[H|[H|[]]]]; congruence. }
  assert (CM : forall s, (exists fm, cmethod_of s = Some fm) <-> In s ["i_counterfactual"; "f_counterfactual"; "d_counterfactual"]%string).
  { intro s. unfold cmethod_of, eqb. destruct (eq_dec s "i_counterfactual"%string); [split; [intros _; cbn; intuition|eauto]|]. destruct (eq_dec s "f_counterfactual"%string); [split; [intros _; cbn; intuition|eauto]|].
    destruct (eq_dec s "d_counterfactual"%string); [split; [intros _; cbn; intuition|eauto]|]. split; [intros [? ?]; discriminate|]. intros [H|[H|[H|[]]]]; congruence. }
  assert (CF : forall s, fmethod_of s = Some CFactual <-> s = "c_factual"%string).
  { intro s. unfold fmethod_of, eqb. destruct (eq_dec s "m_factual"%string); [split; [discriminate|intro; congruence]|]. destruct (eq_dec s "mr_factual"%string); [split; [discriminate|intro; congruence]|].
    destruct (eq_dec s "c_factual"%string); split; congruence. }
  assert (NE : Nat.eqb (List.length (List.concat instance)) 0 = false <-> exists row x, In row instance /\ In x row).
  { rewrite Nat.eqb_neq. split.
    - intro H. destruct (List.concat instance) as [|x l] eqn:E; [cbn in H; lia|]. assert (I : In x (List.concat instance)) by (rewrite E; left; reflexivity). apply in_concat in I. destruct I as (row & I1 & I2). eauto.
    - intros (row & x & I1 & I2) E. assert (I : In x (List.concat instance)) by (apply in_concat; eauto). destruct (List.concat instance); [destruct I|discriminate]. }
  unfold check_methods, valid_arguments. destruct (Nat.eqb (List.length (List.concat instance)) 0) eqn:E0.
  { right. split; [|reflexivity]. intros (H & _). apply NE in H. discriminate. }
  apply proj1 in NE. specialize (NE eq_refl). destruct (fmethod_of f) as [fm|] eqn:E1; cbn [ret_opt bind].
  2:{ right. split; [|reflexivity]. intros (_ & H & _). apply FM in H. rewrite E1 in H. destruct H; discriminate. }
  assert (IF : In f ["m_factual"; "mr_factual"; "c_factual"]%string) by (apply FM; eauto).
  destruct (match fm with CFactual => match k_lam kw with None => true | _ => false end | _ => false end) eqn:E2.
  { right. split.
    - intros (_ & _ & H & _). destruct fm; try discriminate. apply CF in E1. destruct (H E1) as [lam L]. rewrite L in E2. discriminate.
    - destruct fm; try discriminate. destruct (k_lam kw); [discriminate|reflexivity]. }
  replace (match fm with CFactual => match k_lam kw with Some _ => false | None => true end | _ => false end) with false by (destruct fm; try reflexivity; destruct (k_lam kw); congruence).
  destruct (cmethod_of g) as [cm|] eqn:E3; cbn [ret_opt bind].
  2:{ right. split; [|reflexivity]. intros (_ & _ & _ & H). apply CM in H. rewrite E3 in H. destruct H; discriminate. }
  left. split.
  - split; [assumption|]. split; [assumption|]. split; [|apply CM; eauto]. intro H. apply CF in H. rewrite E1 in H. injection H as ->. destruct (k_lam kw); [eauto|discriminate].
  - eauto.
Qed.

(** whatever the method, the factual consists of fired rules of the class *)
Lemma take_until_incl V th s (l : list (Qc * rule V)) x : In x (take_until th s l) -> In x l.
Proof. revert s. induction l as [|a l IH]; cbn; intros s H; [destruct H|]. destruct (qltb th s); [destruct H|]. destruct H as [<-|H]; [left; reflexivity|right; eauto]. Qed.
Lemma take_quotient_incl V lam beta (l l' : list (Qc * rule V)) p s x : take_quotient lam beta p s l = Ok l' -> In x l' -> In x l.
Proof.
  revert p s l'. induction l as [|a l IH]; cbn; intros p s l' E H; [injection E as <-; destruct H|]. destruct (pdiv p (fst a)); [|discriminate]. cbn in E.
  destruct (qltb _ _ && _); [injection E as <-; destruct H|]. destruct (take_quotient lam beta (fst a) (s + fst a) l) eqn:T; [|discriminate]. injection E as <-. destruct H as [<-|H]; [left; reflexivity|right; eauto].
Qed.
Lemma sorted_class_sound V (mt : rule V -> res Qc) c rules s : sorted_class mt c rules = Ok s ->
  exists deg, (forall r, In r rules -> mt r = Ok (deg r)) /\ forall x, In x s -> In (snd x) rules /\ qc 1 1000 < deg (snd x) /\ r_cons (snd x) = c.
Proof.
  intro E. set (deg := fun r => match mt r with Ok d => d | Err _ => 0 end). assert (D : forall r, In r rules -> mt r = Ok (deg r)).
  { unfold sorted_class, fired_rules in E. destruct (mapM mt rules) as [ms|] eqn:M; [|discriminate]. apply mapM_ok in M. intros r I. clear - M I. unfold deg.
    induction M as [|r' m rules ms A M IH]; [destruct I|]. destruct I as [<-|I]; [rewrite A; reflexivity|auto]. }
  exists deg. split; [assumption|]. rewrite (sorted_class_spec mt deg c rules D) in E. injection E as <-. intros x I. apply in_map_iff in I. destruct I as (r & <- & I). cbn [snd].
  apply sort_by_In in I. unfold class_fired in I. apply filter_In in I. destruct I as [I J]. apply andb_true_iff in J. destruct J as [J1 J2]. apply qltb_lt in J1. apply Z.eqb_eq in J2. auto.
Qed.
Lemma call_factual_sound V (mt : rule V -> res Qc) fm kw extra rules c fact : call_factual mt fm kw extra rules c = Ok fact ->
  rules <> [] /\ exists deg, (forall r, In r rules -> mt r = Ok (deg r)) /\ forall r, In r fact -> In r rules /\ qc 1 1000 < deg r /\ r_cons r = c.
Proof.
  unfold call_factual. intro E. destruct fm.
  - match type of E with (if ?b then _ else _) = _ => destruct b; [discriminate|] end. unfold m_factual in E. destruct (sorted_class mt c rules) as [s|] eqn:S; [|discriminate]. cbn [bind] in E.
    split; [intros ->; injection S as <-; discriminate|]. destruct (sorted_class_sound _ _ _ S) as (deg & D & I). exists deg. split; [assumption|].
    destruct (pdiv _ _) in E; [|discriminate]. injection E as <-. intros r H. apply in_map_iff in H. destruct H as (x & <- & H). apply filter_In in H. apply I, H.
  - match type of E with (if ?b then _ else _) = _ => destruct b; [discriminate|] end. unfold mr_factual in E. destruct (sorted_class mt c rules) as [s|] eqn:S; [|discriminate]. cbn [bind] in E.
    split; [intros ->; discriminate|]. destruct (sorted_class_sound _ _ _ S) as (deg & D & I). exists deg. split; [assumption|].
    destruct (robust_threshold mt rules c) as [th|]; [|discriminate]. injection E as <-. intros r H. apply in_map_iff in H. destruct H as (x & <- & H). apply take_until_incl in H. auto.
  - match type of E with (if ?b then _ else _) = _ => destruct b; [discriminate|] end. destruct (k_lam kw) as [lam|]; [|discriminate]. cbn [ret_opt bind] in E. unfold c_factual in E. destruct (sorted_class mt c rules) as [s|] eqn:S; [|discriminate]. cbn [bind] in E.
    split; [intros ->; injection S as <-; discriminate|]. destruct (sorted_class_sound _ _ _ S) as (deg & D & I). exists deg. split; [assumption|].
    destruct s as [|x s]; [discriminate|]. destruct (take_quotient lam _ _ _ s) as [l|] eqn:T in E; [|discriminate]. injection E as <-. intros r [<-|H]; [apply I; left; reflexivity|].
    apply in_map_iff in H. destruct H as (z & <- & H). apply I. right. eapply take_quotient_incl; eassumption.
Qed.

(** whatever the method, the counterfactual search runs over rules of other classes *)
Lemma mapM_tag A B (f : A -> res B) (l : list A) l' : mapM (fun r => do d <- f r; Ok (r, d)) l = Ok l' -> map fst l' = l.
Proof.
  intro E. apply mapM_ok in E. induction E as [|a b l l' H _ IH]; [reflexivity|]. cbn. rewrite IH. destruct (f a); [|discriminate]. injection H as <-. reflexivity.
Qed.

(** ** F1 *)
Definition tp (c : Z) (l : list (Z * Z)) := countb (fun q => Z.eqb (fst q) c && Z.eqb (snd q) c) l.
Definition fp (c : Z) (l : list (Z * Z)) := countb (fun q => negb (Z.eqb (fst q) c) && Z.eqb (snd q) c) l.
Definition fn (c : Z) (l : list (Z * Z)) := countb (fun q => Z.eqb (fst q) c && negb (Z.eqb (snd q) c)) l.
Lemma f1_alt y p c : f1_of y p c = if Nat.eqb (2 * tp c (zip y p) + fp c (zip y p) + fn c (zip y p)) 0 then 0
  else qn (2 * tp c (zip y p)) / qn (2 * tp c (zip y p) + fp c (zip y p) + fn c (zip y p)).
Proof. reflexivity. Qed.
Lemma f1_01 y p c : 0 <= f1_of y p c /\ f1_of y p c <= 1.
Proof.
  rewrite f1_alt. destruct (Nat.eqb_spec (2 * tp c (zip y p) + fp c (zip y p) + fn c (zip y p)) 0) as [E|E]; [split; qlra|].
  set (a := (2 * tp c (zip y p))%nat) in *. set (b := (a + fp c (zip y p) + fn c (zip y p))%nat) in *.
  assert (P : 0 < qn b). { apply qn_pos. lia. }
  assert (0 <= qn a) by apply qn_nonneg. assert (qn a <= qn b) by (apply qn_le; lia).
  apply Qcdiv_01; assumption.
Qed.
Lemma f1_one y p c : f1_of y p c = 1 <-> fp c (zip y p) = 0%nat /\ fn c (zip y p) = 0%nat /\ tp c (zip y p) <> 0%nat.
Proof.
  rewrite f1_alt. destruct (Nat.eqb_spec (2 * tp c (zip y p) + fp c (zip y p) + fn c (zip y p)) 0) as [E|E]; [split; [discriminate|lia]|].
  set (t := tp c (zip y p)) in *. set (a := fp c (zip y p)) in *. set (b := fn c (zip y p)) in *.
  assert (P : qn (2 * t + a + b) <> 0). { intro Z. rewrite <- qn_0 in Z. apply qn_inj in Z. lia. }
  split.
  - intro H. assert (Q : qn (2 * t) = qn (2 * t + a + b)). { rewrite <- (Qcmult_1_l (qn (2 * t + a + b))), <- H. field. assumption. } apply qn_inj in Q. lia.
  - intros (-> & -> & T). rewrite !Nat.add_0_r in *. field. assumption.
Qed.
Lemma countb_zero A (f : A -> bool) l : countb f l = 0%nat <-> forall x, In x l -> f x = false.
Proof.
  unfold countb. induction l as [|a l IH]; cbn; [split; [intros _ x []|reflexivity]|]. destruct (f a) eqn:E; cbn.
  - split; [discriminate|]. intro H. rewrite (H a) in E by (left; reflexivity). discriminate.
  - rewrite IH. split; [intros H x [<-|I]; auto|intros H x I; apply H; right; assumption].
Qed.
Lemma zip_eq A (y p : list A) : List.length p = List.length y -> (forall x, In x (zip y p) -> fst x = snd x) -> p = y.
Proof.
  revert p. induction y as [|a y IH]; intros [|b p] L H; try discriminate; [reflexivity|]. cbn in H. assert (E := H (a, b) (or_introl eq_refl)). cbn in E. subst b. f_equal. apply IH; [cbn in L; lia|]. intros x I. apply H. right. assumption.
Qed.
Lemma zip_diag A (y : list A) x : In x (zip y y) -> fst x = snd x.
Proof. induction y as [|a y IH]; cbn; [intros []|]. intros [<-|I]; [reflexivity|auto]. Qed.
Lemma zip_In_l A B (y : list A) (p : list B) c : List.length p = List.length y -> In c y -> exists b, In (c, b) (zip y p).
Proof. revert p. induction y as [|a y IH]; intros [|b p] L I; try discriminate; [destruct I|]. destruct I as [<-|I]; [exists b; left; reflexivity|]. destruct (IH p) as [b' J]; [cbn in L; lia|assumption|]. exists b'. right. assumption. Qed.
Lemma count_class_zero c y : count_class c y = 0%nat <-> ~ In c y.
Proof.
  unfold count_class. rewrite countb_zero. split.
  - intros H I. specialize (H c I). rewrite Z.eqb_refl in H. discriminate.
  - intros H x I. apply Z.eqb_neq. intros ->. contradiction.
Qed.
Lemma qsum_le_eq A (f g : A -> Qc) l : (forall x, In x l -> f x <= g x) -> qsum (map f l) = qsum (map g l) -> forall x, In x l -> f x = g x.
Proof.
  induction l as [|a l IH]; intros H E x I; [destruct I|]. cbn [map] in E. rewrite !qsum_cons in E. assert (A1 : f a <= g a) by (apply H; left; reflexivity).
  assert (A2 : qsum (map f l) <= qsum (map g l)). { apply qsum_map_le. intros; apply H; right; assumption. }
  destruct I as [<-|I]; [qlra|]. apply IH; [intros; apply H; right; assumption|qlra|assumption].
Qed.

Lemma le_scaled a b : 0 <= a -> b <= 1 -> a * b <= a.
Proof. intros. qnra. Qed.
Lemma f1_weighted_01 y p : y <> [] -> 0 <= f1_weighted y p /\ f1_weighted y p <= 1.
Proof.
  intro N. unfold f1_weighted. assert (P : 0 < qn (List.length y)) by (apply qn_pos; destruct y; [congruence|cbn; lia]).
  apply Qcdiv_01; [| |assumption].
  - apply qsum_nonneg. apply Forall_forall. intros x I. apply in_map_iff in I. destruct I as (c & <- & _). apply Qcmult_nonneg; [apply qn_nonneg|apply f1_01].
  - rewrite <- (@count_total y (zunique (y ++ p)) (zunique_NoDup _)).
    + apply qsum_map_le. intros c _. apply le_scaled; [apply qn_nonneg|apply f1_01].
    + intros c I. apply zunique_In. apply in_or_app. left. assumption.
Qed.
Lemma f1_weighted_one y p : y <> [] -> List.length p = List.length y -> (f1_weighted y p = 1 <-> p = y).
Proof.
  intros N L. assert (P : 0 < qn (List.length y)) by (apply qn_pos; destruct y; [congruence|cbn; lia]).
  assert (I0 : incl y (zunique (y ++ p))) by (intros c I; apply zunique_In; apply in_or_app; left; assumption).
  unfold f1_weighted. rewrite Qcdiv_eq by (intro Z; rewrite Z in P; qlra). rewrite Qcmult_1_l, <- (@count_total y (zunique (y ++ p)) (zunique_NoDup _) I0). split.
  - intro H. apply zip_eq; [assumption|]. intros [a b] I. cbn.
    assert (Q := @qsum_le_eq Z (fun c => qn (count_class c y) * f1_of y p c) (fun c => qn (count_class c y)) (zunique (y ++ p))).
    assert (Ia : In a y). { clear - I. revert p I. induction y as [|x y IH]; intros [|z p] I; try destruct I. - injection H as <- _. left. reflexivity. - right. eapply IH. eassumption. }
    specialize (Q ltac:(intros c _; apply le_scaled; [apply qn_nonneg|apply f1_01]) H a (I0 a Ia)).
    assert (C : qn (count_class a y) <> 0). { intro Z. rewrite <- qn_0 in Z. apply qn_inj in Z. apply count_class_zero in Z. contradiction. }
    assert (F : f1_of y p a = 1). { assert (qn (count_class a y) * (f1_of y p a - 1) = 0) by (cbn beta in Q; replace (qn (count_class a y) * (f1_of y p a - 1)) with (qn (count_class a y) * f1_of y p a - qn (count_class a y)) by ring; rewrite Q; ring). apply Qcmult_integral in H0. destruct H0; [contradiction|qlra]. }
    apply f1_one in F. destruct F as (_ & F & _). unfold fn in F. rewrite countb_zero in F. specialize (F (a, b) I). cbn in F. rewrite Z.eqb_refl in F. cbn in F. apply negb_false_iff, Z.eqb_eq in F. auto.
  - intros ->. apply f_equal. apply map_ext_in. intros c I. destruct (in_dec Z.eq_dec c y) as [J|J].
    + rewrite (proj2 (f1_one y y c)); [apply Qcmult_1_r|]. unfold fp, fn, tp. rewrite !countb_zero. split; [|split].
      * intros x Ix. apply zip_diag in Ix. rewrite Ix. destruct (Z.eqb (snd x) c); reflexivity.
      * intros x Ix. apply zip_diag in Ix. rewrite Ix. destruct (Z.eqb (snd x) c); reflexivity.
      * destruct (@zip_In_l Z Z y y c eq_refl J) as [b K]. intro H. specialize (H _ K). assert (E := @zip_diag _ y _ K). cbn in *. subst. rewrite Z.eqb_refl in H. discriminate.
    + apply count_class_zero in J. rewrite J, qn_0. apply Qcmult_0_l.
Qed.
