(** * Proofs about printed rules and trees *)
From Verif Require Import Prelude M_Fuzzy M_Discretize M_Rule M_FDT M_FBDT M_ID3 M_Text S_Rule S_FDT S_Text S_Rows P_FDT P_FDT2 P_FDT3 P_Rows.
Set Implicit Arguments.
From Coq Require Import Ascii Reals.
Local Notation eqb := Prelude.eqb.
Open Scope string_scope.

Lemma sapp_assoc a b c : (a ++ b) ++ c = a ++ (b ++ c).
Proof. induction a as [|x a IH]; cbn; [reflexivity|]. rewrite IH. reflexivity. Qed.
Lemma sapp_nil a : a ++ "" = a.
Proof. induction a as [|x a IH]; cbn; [reflexivity|]. rewrite IH. reflexivity. Qed.
Lemma has_app n a b : has n (a ++ b) <-> has n a \/ has n b.
Proof. unfold has. induction a as [|x a IH]; cbn; [tauto|]. rewrite IH. tauto. Qed.
Lemma has_cons n c s : has n (String c s) <-> c = Ascii.ascii_of_nat n \/ has n s.
Proof. unfold has. cbn. tauto. Qed.

(** a text that ends where the first character number [n] stands *)
Lemma cut n a b r s : ~ has n a -> ~ has n b ->
  a ++ String (Ascii.ascii_of_nat n) r = b ++ String (Ascii.ascii_of_nat n) s -> a = b /\ r = s.
Proof.
  revert b. induction a as [|x a IH]; intros [|y b] A B E.
  - cbn in E. injection E as ->. auto.
  - exfalso. cbn in E. injection E as E1 _. apply B. apply has_cons. left. symmetry. exact E1.
  - exfalso. cbn in E. injection E as E1 _. apply A. apply has_cons. left. exact E1.
  - cbn in E. injection E as -> E. destruct (IH b) as [-> ->]; [|exact (fun H => B (proj2 (has_cons _ _ _) (or_intror H)))|exact E|auto].
    exact (fun H => A (proj2 (has_cons _ _ _) (or_intror H))).
Qed.
Lemma sapp_inv_head a r s : a ++ r = a ++ s -> r = s.
Proof. induction a as [|x a IH]; cbn; [auto|]. intro H. injection H as H. auto. Qed.
(** the same with an arbitrary continuation that is empty or starts with that character *)
Definition stops (n : nat) (r : string) : Prop := r = "" \/ exists r', r = String (Ascii.ascii_of_nat n) r'.
Lemma cut_stop n a b r s : ~ has n a -> ~ has n b -> stops n r -> stops n s -> a ++ r = b ++ s -> a = b /\ r = s.
Proof.
  intros A B R T. revert b B. induction a as [|x a IH]; intros b B E.
  - destruct b as [|y b]; [cbn in E; auto|]. cbn in E. destruct R as [->|[r' ->]]; [discriminate|].
    exfalso. injection E as E _. apply B. apply has_cons. left. symmetry. exact E.
  - destruct b as [|y b].
    + cbn in E. destruct T as [->|[s' ->]]; [discriminate|]. exfalso. injection E as E _. apply A. apply has_cons. left. exact E.
    + cbn in E. injection E as -> E. destruct (IH (fun H => A (proj2 (has_cons _ _ _) (or_intror H))) b (fun H => B (proj2 (has_cons _ _ _) (or_intror H))) E) as [-> ->]. auto.
Qed.

(** ** indentation *)
Lemma tabs_cut n m c d x y : c <> Ascii.ascii_of_nat 9 -> d <> Ascii.ascii_of_nat 9 ->
  stimes n tab ++ String c x = stimes m tab ++ String d y -> n = m /\ c = d /\ x = y.
Proof.
  intros C D. revert m. induction n as [|n IH]; intros [|m] E.
  - cbn in E. injection E as -> ->. auto.
  - cbn in E. injection E as E _. contradiction.
  - cbn in E. injection E as E _. symmetry in E. contradiction.
  - cbn [stimes] in E. unfold tab in E at 1. unfold tab in E at 2. cbn in E. injection E as E. destruct (IH m E) as (-> & -> & ->). auto.
Qed.

(** ** rules *)
Section Rules.
  Variables (V : Type) (sv : V -> string) (sc : Z -> string) (sw : Qc -> string).
  Variable okv : V -> Prop.
  Hypothesis value_ends : forall v w r s, okv v -> okv w -> sv v ++ String " "%char r = sv w ++ String " "%char s -> v = w /\ r = s.
  Hypothesis class_ends : forall c d, sc c = sc d -> c = d.
  Hypothesis class_blank : forall c, ~ has 32 (sc c).
  Hypothesis weight_inj : forall v w, sw v = sw w -> v = w.

  Definition literals (l : list (string * V)) : string := sjoin " AND " (map (fun fv => fst fv ++ ": " ++ sv (snd fv)) l).
  Lemma literals_cons f v l : literals ((f, v) :: l) = f ++ ": " ++ sv v ++ match l with [] => "" | _ => " AND " ++ literals l end.
  Proof. unfold literals. destruct l as [|q l]; cbn [map sjoin fst snd]; [rewrite sapp_nil; reflexivity|]. rewrite !sapp_assoc. reflexivity. Qed.
  Lemma tail_inj c w c' w' : sc c ++ " (Weight: " ++ sw w ++ ")" = sc c' ++ " (Weight: " ++ sw w' ++ ")" -> c = c' /\ w = w'.
  Proof.
    intro E. destruct (@cut 32 (sc c) (sc c') ("(Weight: " ++ sw w ++ ")") ("(Weight: " ++ sw w' ++ ")")) as [E1 E2]; auto.
    split; [auto|]. apply sapp_inv_head in E2. apply weight_inj.
    revert E2. generalize (sw w') (sw w). clear. intros b a. revert b. induction a as [|x a IH]; intros [|y b] E.
    - reflexivity.
    - exfalso. cbn in E. injection E as E1 E. destruct b; discriminate.
    - exfalso. cbn in E. injection E as E1 E. destruct a; discriminate.
    - cbn in E. injection E as -> E. rewrite (IH b E). reflexivity.
  Qed.
  Lemma rule_text_inj l l' c w c' w' :
    (forall f v, In (f, v) (l ++ l') -> ~ has 32 f /\ ~ has 58 f /\ f <> "" /\ okv v) ->
    literals l ++ " => " ++ sc c ++ " (Weight: " ++ sw w ++ ")" = literals l' ++ " => " ++ sc c' ++ " (Weight: " ++ sw w' ++ ")" ->
    l = l' /\ c = c' /\ w = w'.
  Proof.
    revert l'. induction l as [|[f v] l IH]; intros l' N E.
    - destruct l' as [|[g u] l'].
      + cbn [literals map sjoin append] in E. injection E as E. split; [reflexivity|]. apply tail_inj. exact E.
      + exfalso. rewrite literals_cons in E. destruct (N g u) as (B & _ & NE & _); [left; reflexivity|].
        destruct g as [|x g]; [contradiction|]. cbn in E. injection E as E _. apply B. apply has_cons. left. symmetry. exact E.
    - destruct l' as [|[g u] l'].
      + exfalso. rewrite literals_cons in E. destruct (N f v) as (B & _ & NE & _); [left; reflexivity|].
        destruct f as [|x f]; [contradiction|]. cbn in E. injection E as E _. apply B. apply has_cons. left. exact E.
      + rewrite !literals_cons, !sapp_assoc in E.
        destruct (N f v) as (_ & Cf & _ & Ov); [left; reflexivity|].
        destruct (N g u) as (_ & Cg & _ & Ou); [apply in_or_app; right; left; reflexivity|].
        destruct (@cut 58 f g _ _ Cf Cg E) as [-> E']. cbn [append] in E'. injection E' as E'.
        assert (N' : forall f v, In (f, v) (l ++ l') -> ~ has 32 f /\ ~ has 58 f /\ f <> "" /\ okv v).
        { intros f0 v0 H. apply N. apply in_app_or in H. destruct H as [H|H]; [right; apply in_or_app; left; exact H|].
          right. apply in_or_app. right. right. exact H. }
        destruct l as [|p l], l' as [|p' l']; cbn [append] in E'; destruct (value_ends _ _ Ov Ou E') as [-> E2].
        * injection E2 as E2. destruct (tail_inj _ _ _ _ E2) as [-> ->]. auto.
        * discriminate.
        * discriminate.
        * injection E2 as E2. destruct (IH (p' :: l')) as (E3 & -> & ->); [exact N'|exact E2|]. rewrite E3. auto.
  Qed.
End Rules.

(** the text of a list of names: it ends at the first closing bracket *)
Definition quoted (l : list string) : string := sjoin ", " (map (fun s => "'" ++ s ++ "'") l).
Lemma quoted_cons a l : quoted (a :: l) = String "'"%char (a ++ String "'"%char match l with [] => "" | _ => String ","%char (String " "%char (quoted l)) end).
Proof. unfold quoted. destruct l as [|b l]; cbn [map sjoin]; cbn [append]; rewrite ?sapp_assoc; reflexivity. Qed.
Lemma names_inj l l' r r' : (forall s, In s (l ++ l') -> ~ has 39 s) ->
  quoted l ++ String "]"%char r = quoted l' ++ String "]"%char r' -> l = l' /\ r = r'.
Proof.
  revert l'. induction l as [|a l IH]; intros [|b l'] N E.
  - cbn in E. injection E as ->. auto.
  - exfalso. rewrite quoted_cons in E. discriminate.
  - exfalso. rewrite quoted_cons in E. discriminate.
  - assert (Na : ~ has 39 a) by (apply N; left; reflexivity).
    assert (Nb : ~ has 39 b) by (apply N; apply in_or_app; right; left; reflexivity).
    assert (N' : forall s, In s (l ++ l') -> ~ has 39 s).
    { intros s H. apply N. apply in_app_or in H. destruct H as [H|H]; [right; apply in_or_app; left; exact H|].
      right. apply in_or_app. right. right. exact H. }
    rewrite !quoted_cons in E. cbn [append] in E. injection E as E. rewrite !sapp_assoc in E.
    destruct (@cut 39 a b _ _ Na Nb E) as [-> E']. clear E.
    destruct l as [|a' l], l' as [|b' l']; cbn [append] in E'.
    + injection E' as ->. auto.
    + discriminate.
    + discriminate.
    + injection E' as E'. destruct (IH (b' :: l') N' E') as [E2 ->]. rewrite E2. auto.
Qed.

(** ** FDT: what predictions and rules read of a tree *)
Fixpoint bare (t : tree) : tree :=
  let 'Tree l cs cv _ va vr _ := t in Tree l (if l then [] else map bare cs) (if l then cv else None) 0 va vr [].
Lemma bare_predict tn X t : forall mu, partial_predict tn X mu (bare t) = partial_predict tn X mu t.
Proof.
  induction t as [l cs cv lv va vr mu IH] using tree_ind'. intro m. cbn [bare partial_predict].
  match goal with |- bind ?r _ = bind ?r' _ => change r' with r; destruct r as [nm|] end; cbn [bind]; [|reflexivity].
  destruct l; [reflexivity|]. destruct cs as [|c cs]; [reflexivity|]. cbn [map].
  assert (E : mapM (partial_predict tn X nm) (map bare (c :: cs)) = mapM (partial_predict tn X nm) (c :: cs)).
  { clear - IH. induction IH as [|x l Hx _ IH]; [reflexivity|]. cbn [map mapM]. rewrite Hx, IH. reflexivity. }
  cbn [map] in E. rewrite E. reflexivity.
Qed.
Lemma bare_rules th t : forall prefix, get_rules (bare t) prefix th = get_rules t prefix th.
Proof.
  induction t as [l cs cv lv va vr mu IH] using tree_ind'. intro pr. cbn [bare get_rules].
  match goal with |- bind ?r _ = bind ?r' _ => change r' with r; destruct r as [nm|] end; cbn [bind]; [|reflexivity].
  destruct l; [reflexivity|].
  assert (E : mapM (fun c => get_rules c nm th) (map bare cs) = mapM (fun c => get_rules c nm th) cs).
  { clear - IH. induction IH as [|x l Hx _ IH]; [reflexivity|]. cbn [map mapM]. rewrite Hx, IH. reflexivity. }
  rewrite E. reflexivity.
Qed.

Section Tree.
  Variable sd : dict Z Qc -> string.
  Hypothesis sd_line : forall d, ~ has 10 (sd d).
  Hypothesis sd_inj : forall d e, sd d = sd e -> d = e.
  Variable vars : list fvar.
  Hypothesis names : distinct_names vars.
  Hypothesis fnames : forall v, In v vars -> ~ has 32 (fv_name v) /\ ~ has 10 (fv_name v).
  Hypothesis snames : forall v s, In v vars -> In s (fv_sets v) -> ~ has 10 (fs_name s).

  Definition below (n : nat) (leaf : bool) (cs : list tree) (cv : option (dict Z Qc)) : string :=
    (if leaf then stimes n tab ++ "Class value: " ++ class_text sd cv else sconcat (map (tree_text sd) cs) ++ nl ++ stimes n tab) ++ nl.
  Lemma text_eq leaf cs cv lv va vr mu : tree_text sd (Tree leaf cs cv lv va vr mu) = tabs lv ++ head_text va vr ++ below (Z.to_nat lv) leaf cs cv.
  Proof. reflexivity. Qed.
  Definition starts_f (s : string) : Prop := exists n r, s = stimes n tab ++ String "F"%char r.
  Definition starts_nl (s : string) : Prop := exists r, s = String (ascii_of_nat 10) r.
  Lemma f_not_nl s : starts_f s -> starts_nl s -> False.
  Proof. intros (n & r & ->) (r' & E). destruct n; cbn in E; discriminate. Qed.
  Lemma child_starts classes c r : wf vars classes c -> t_value c <> None -> starts_f (tree_text sd c ++ r).
  Proof.
    destruct c as [lf cs cv lv va vr mu]. cbn [wf t_value]. intros [O _] N. destruct va as [[a i]|]; [|contradiction]. destruct O as (v & s & -> & _ & Es).
    exists (Z.to_nat lv). rewrite text_eq. cbn [head_text]. rewrite !sapp_assoc. eexists. reflexivity.
  Qed.

  Definition injective_at (t : tree) : Prop := forall classes classes' t' r r', wf vars classes t -> wf vars classes' t' -> t_value t <> None -> t_value t' <> None ->
    tree_text sd t ++ r = tree_text sd t' ++ r' -> bare t = bare t' /\ r = r'.
  Lemma children_inj classes classes' cs : Forall injective_at cs -> forall cs' n n' r r',
    Forall (fun c => t_value c <> None /\ wf vars classes c) cs -> Forall (fun c => t_value c <> None /\ wf vars classes' c) cs' ->
    (sconcat (map (tree_text sd) cs) ++ nl ++ stimes n tab) ++ nl ++ r = (sconcat (map (tree_text sd) cs') ++ nl ++ stimes n' tab) ++ nl ++ r' ->
    map bare cs = map bare cs' /\ r = r'.
  Proof.
    induction cs as [|c cs IH]; intros I cs' n n' r r' W W' E.
    - destruct cs' as [|c' cs'].
      + cbn [map sconcat fold_right append nl] in E. injection E as E. split; [reflexivity|]. unfold nl in E. cbn [append] in E.
        apply tabs_cut in E; [|discriminate|discriminate]. destruct E as (_ & _ & E). exact E.
      + exfalso. inversion W' as [|? ? [V' Wc'] _]; subst. cbn [map sconcat fold_right] in E. rewrite !sapp_assoc in E.
        apply (f_not_nl (@child_starts classes' c' (fold_right append "" (map (tree_text sd) cs') ++ nl ++ stimes n' tab ++ nl ++ r') Wc' V')). rewrite <- E. cbn. unfold starts_nl. eauto.
    - inversion W as [|? ? [V Wc] WW]; subst. inversion I as [|? ? Ic II]; subst. destruct cs' as [|c' cs'].
      + exfalso. cbn [map sconcat fold_right] in E. rewrite !sapp_assoc in E.
        eapply f_not_nl; [eapply (@child_starts classes c); assumption|]. rewrite E. cbn. unfold starts_nl. eauto.
      + inversion W' as [|? ? [V' Wc'] WW']; subst. cbn [map sconcat fold_right] in E. rewrite !(sapp_assoc (tree_text sd _)) in E.
        destruct (Ic classes classes' c' _ _ Wc Wc' V V' E) as [B E']. destruct (IH II cs' n n' r r' WW WW') as [B' ->].
        { unfold sconcat. rewrite !sapp_assoc. rewrite !sapp_assoc in E'. exact E'. }
        cbn [map]. rewrite B, B'. auto.
  Qed.
  Lemma below_inj classes classes' n n' (leaf leaf' : bool) (cs cs' : list tree) cv cv' r r' : Forall injective_at cs ->
    (if leaf then exists d, cv = Some d /\ cv_ok classes d else cs <> [] /\ Forall (fun c => t_value c <> None /\ wf vars classes c) cs) ->
    (if leaf' then exists d, cv' = Some d /\ cv_ok classes' d else cs' <> [] /\ Forall (fun c => t_value c <> None /\ wf vars classes' c) cs') ->
    below n leaf cs cv ++ r = below n' leaf' cs' cv' ++ r' ->
    leaf = leaf' /\ (if leaf then cv = cv' else map bare cs = map bare cs') /\ r = r'.
  Proof.
    intros I W W' E. unfold below in E. rewrite !(sapp_assoc _ nl) in E. destruct leaf, leaf'.
    - destruct W as [d [-> _]], W' as [d' [-> _]]. cbn [class_text] in E. rewrite !sapp_assoc in E.
      apply tabs_cut in E; [|discriminate|discriminate]. destruct E as (_ & _ & E). apply (sapp_inv_head "lass value: ") in E.
      destruct (@cut 10 (sd d) (sd d') r r' (sd_line d) (sd_line d') E) as [E1 ->]. apply sd_inj in E1. subst. auto.
    - exfalso. destruct W' as [N W']. destruct cs' as [|c' cs']; [contradiction|]. inversion W' as [|? ? [V' Wc'] _]; subst.
      cbn [map sconcat fold_right] in E. rewrite !sapp_assoc in E.
      match type of E with _ = tree_text sd c' ++ ?x => destruct (@child_starts classes' c' x Wc' V') as (k & q & F) end.
      rewrite F in E. apply tabs_cut in E; [|discriminate|discriminate]. destruct E as (_ & E & _). discriminate.
    - exfalso. destruct W as [N W]. destruct cs as [|c cs]; [contradiction|]. inversion W as [|? ? [V Wc] _]; subst.
      cbn [map sconcat fold_right] in E. rewrite !sapp_assoc in E.
      match type of E with tree_text sd c ++ ?x = _ => destruct (@child_starts classes c x Wc V) as (k & q & F) end.
      rewrite F in E. apply tabs_cut in E; [|discriminate|discriminate]. destruct E as (_ & E & _). discriminate.
    - destruct W as [_ W], W' as [_ W']. destruct (@children_inj classes classes' cs I cs' n n' r r' W W' E) as [A B]. auto.
  Qed.
  Lemma own_inj a i v s a' i' v' s' r r' : nth_error vars a = Some v -> nth_error (fv_sets v) i = Some s -> nth_error vars a' = Some v' -> nth_error (fv_sets v') i' = Some s' ->
    fv_name v ++ " " ++ fs_name s ++ nl ++ r = fv_name v' ++ " " ++ fs_name s' ++ nl ++ r' -> a = a' /\ v = v' /\ i = i' /\ r = r'.
  Proof.
    intros Hv Hs Hv' Hs' E. assert (Iv := nth_error_In _ _ Hv). assert (Iv' := nth_error_In _ _ Hv').
    destruct (@cut 32 (fv_name v) (fv_name v') _ _ (proj1 (fnames _ Iv)) (proj1 (fnames _ Iv')) E) as [E1 E2].
    destruct (@cut 10 (fs_name s) (fs_name s') _ _ (@snames _ _ Iv (nth_error_In _ _ Hs)) (@snames _ _ Iv' (nth_error_In _ _ Hs')) E2) as [E3 E4].
    destruct names as [N NS].
    assert (A : a = a').
    { apply (proj1 (NoDup_nth_error (map fv_name vars)) N); [apply nth_error_Some; erewrite map_nth_error by exact Hv; discriminate|].
      erewrite !map_nth_error by eassumption. rewrite E1. reflexivity. }
    subst a'. rewrite Hv in Hv'. injection Hv' as <-. split; [reflexivity|]. split; [reflexivity|]. split; [|exact E4].
    apply (proj1 (NoDup_nth_error (map fs_name (fv_sets v))) (NS v Iv)); [apply nth_error_Some; erewrite map_nth_error by exact Hs; discriminate|].
    erewrite !map_nth_error by eassumption. rewrite E3. reflexivity.
  Qed.
  Lemma text_inj t : injective_at t.
  Proof.
    induction t as [lf cs cv lv va vr mu IH] using tree_ind'. intros classes classes' [lf' cs' cv' lv' va' vr' mu'] r r' W W' V V' E.
    cbn [wf t_value] in W, W', V, V'. destruct W as [O W], W' as [O' W'].
    destruct va as [[a i]|]; [|contradiction]. destruct va' as [[a' i']|]; [|contradiction].
    destruct O as (v & s & -> & Hv & Hs). destruct O' as (v' & s' & -> & Hv' & Hs').
    rewrite !text_eq in E. cbn [head_text] in E. rewrite Hs, Hs' in E. unfold tabs in E. rewrite !sapp_assoc in E.
    apply tabs_cut in E; [|discriminate|discriminate]. destruct E as (_ & _ & E). apply (sapp_inv_head "eature ") in E.
    destruct (@own_inj _ _ _ _ _ _ _ _ _ _ Hv Hs Hv' Hs' E) as (<- & <- & <- & E').
    destruct (@below_inj classes classes' (Z.to_nat lv) (Z.to_nat lv') lf lf' cs cs' cv cv' r r' IH) as (<- & B & ->).
    - destruct lf; [exact W|]. rewrite <- (@fold_and _ (fun c => t_value c <> None /\ wf vars classes c)). exact W.
    - destruct lf'; [exact W'|]. rewrite <- (@fold_and _ (fun c => t_value c <> None /\ wf vars classes' c)). exact W'.
    - exact E'.
    - split; [|reflexivity]. cbn [bare]. destruct lf; rewrite B; reflexivity.
  Qed.
  Lemma root_text_inj classes classes' t t' : wf vars classes t -> wf vars classes' t' -> t_value t = None -> t_value t' = None -> t_var t = None -> t_var t' = None ->
    t_level t = 0%Z -> t_level t' = 0%Z ->
    tree_text sd t = tree_text sd t' -> bare t = bare t'.
  Proof.
    destruct t as [lf cs cv lv va vr mu], t' as [lf' cs' cv' lv' va' vr' mu']. cbn [t_value t_var t_level]. intros W W' -> -> -> -> -> -> E.
    cbn [wf] in W, W'. destruct W as [_ W], W' as [_ W'].
    rewrite !text_eq in E. cbn [head_text] in E. unfold tabs in E. apply (sapp_inv_head (stimes (Z.to_nat 0) tab)) in E. apply (sapp_inv_head ("Root " ++ nl)) in E.
    destruct (@below_inj classes classes' (Z.to_nat 0) (Z.to_nat 0) lf lf' cs cs' cv cv' "" "") as (<- & B & _).
    - apply Forall_forall. intros c _. apply text_inj.
    - destruct lf; [exact W|]. rewrite <- (@fold_and _ (fun c => t_value c <> None /\ wf vars classes c)). exact W.
    - destruct lf'; [exact W'|]. rewrite <- (@fold_and _ (fun c => t_value c <> None /\ wf vars classes' c)). exact W'.
    - rewrite E. reflexivity.
    - cbn [bare]. destruct lf; rewrite B; reflexivity.
  Qed.
End Tree.

(** ** FDT: the printed lines *)
Lemma lines_cons a r : ~ has 10 a -> lines (a ++ nl ++ r) = a :: lines r.
Proof.
  intro N. induction a as [|c a IH].
  - reflexivity.
  - cbn [append lines]. destruct (Ascii.eqb c (ascii_of_nat 10)) eqn:E.
    + apply Ascii.eqb_eq in E. exfalso. apply N. apply has_cons. left. exact E.
    + rewrite IH; [reflexivity|]. intro H. apply N. apply has_cons. right. exact H.
Qed.
Lemma indented_tabs n c s : c <> ascii_of_nat 9 -> indented (stimes n tab ++ String c s) = (n, String c s).
Proof.
  intro C. induction n as [|n IH].
  - cbn [stimes append indented]. destruct (Ascii.eqb c (ascii_of_nat 9)) eqn:E; [apply Ascii.eqb_eq in E; contradiction|reflexivity].
  - cbn [stimes]. change (tab ++ stimes n tab) with (String (ascii_of_nat 9) (stimes n tab)). cbn [append indented].
    rewrite Ascii.eqb_refl, IH. reflexivity.
Qed.
Lemma indented_only n : indented (stimes n tab) = (n, "").
Proof.
  induction n as [|n IH]; [reflexivity|]. cbn [stimes]. change (tab ++ stimes n tab) with (String (ascii_of_nat 9) (stimes n tab)). cbn [indented].
  rewrite Ascii.eqb_refl, IH. reflexivity.
Qed.
Lemma no_nl_tabs n : ~ has 10 (stimes n tab).
Proof. induction n as [|n IH]; [intros []|]. cbn [stimes]. rewrite has_app. intros [H|H]; [|contradiction]. destruct H as [H|[]]. discriminate. Qed.
Lemma printed_line n c s r : c <> ascii_of_nat 9 -> c <> ascii_of_nat 10 -> ~ has 10 s ->
  printed ((stimes n tab ++ String c s) ++ nl ++ r) = (n, String c s) :: printed r.
Proof.
  intros C D N. unfold printed. rewrite lines_cons; [|rewrite has_app, has_cons; intros [H|[H|H]]; [exact (@no_nl_tabs n H)|contradiction|contradiction]].
  cbn [map]. rewrite indented_tabs by assumption. cbn [filter snd negb]. reflexivity.
Qed.
Lemma printed_blank n r : printed (stimes n tab ++ nl ++ r) = printed r.
Proof. unfold printed. rewrite lines_cons by apply no_nl_tabs. cbn [map]. rewrite indented_only. reflexivity. Qed.

Fixpoint levelled (d : nat) (t : tree) : Prop :=
  let 'Tree leaf cs _ lv _ _ mu := t in
  Z.to_nat lv = (if qltb 0 (qsum mu) then d else 0%nat) /\ (if leaf then True else fold_right (fun c P => levelled (S d) c /\ P) True cs).
Section Lines.
  Variable sd : dict Z Qc -> string.
  Hypothesis sd_line : forall d, ~ has 10 (sd d).
  Variable vars : list fvar.
  Hypothesis fnames : forall v, In v vars -> ~ has 10 (fv_name v).
  Hypothesis snames : forall v s, In v vars -> In s (fv_sets v) -> ~ has 10 (fs_name s).
  Lemma text_lines classes t : forall d r, wf vars classes t -> levelled d t -> (t_value t = None -> t_var t = None) ->
    printed (tree_text sd t ++ r) = (flat_map (node_lines vars sd) (outline d t) ++ printed r)%list.
  Proof.
    induction t as [lf cs cv lv va vr mu IH] using tree_ind'. intros d r W L V. cbn [wf levelled t_value t_var] in W, L, V.
    destruct W as [O W], L as [L LL]. rewrite text_eq. unfold tabs, below. rewrite L. set (k := if qltb 0 (qsum mu) then d else 0%nat).
    assert (H : forall q, printed (stimes k tab ++ head_text va vr ++ q) = (k, heading vars (Tree lf cs cv lv va vr mu)) :: printed q).
    { intro q. unfold heading. cbn [t_value]. destruct va as [[a i]|].
      - destruct O as (v & s & -> & Hv & Hs). cbn [head_text]. rewrite Hv, Hs.
        assert (N : ~ has 10 ("eature " ++ fv_name v ++ " " ++ fs_name s)).
        { rewrite !has_app. intros [H|[H|[H|H]]].
          - cbn in H. repeat (destruct H as [H|H]; [discriminate|]). exact H.
          - exact (@fnames _ (nth_error_In _ _ Hv) H).
          - cbn in H. repeat (destruct H as [H|H]; [discriminate|]). exact H.
          - exact (@snames _ _ (nth_error_In _ _ Hv) (nth_error_In _ _ Hs) H). }
        etransitivity; [|apply (@printed_line k "F"%char _ q); [discriminate|discriminate|exact N]]. f_equal. rewrite !sapp_assoc. cbn [append]. rewrite !sapp_assoc. reflexivity.
      - rewrite (V eq_refl). cbn [head_text].
        etransitivity; [|apply (@printed_line k "R"%char "oot " q); [discriminate|discriminate|]]; [f_equal; rewrite !sapp_assoc; reflexivity|].
        intro H. cbn in H. repeat (destruct H as [H|H]; [discriminate|]). exact H. }
    destruct lf.
    - destruct W as (dd & -> & _). cbn [outline flat_map]. unfold node_lines. cbn [snd fst t_leaf t_class t_mu class_text]. fold k.
      rewrite !sapp_assoc. rewrite H. cbn [app].
      f_equal. assert (N : ~ has 10 ("lass value: " ++ sd dd)).
      { rewrite has_app. intros [Q|Q]; [|exact (@sd_line _ Q)]. cbn in Q. repeat (destruct Q as [Q|Q]; [discriminate|]). exact Q. }
      etransitivity; [|apply (@printed_line k "C"%char _ r); [discriminate|discriminate|exact N]]. f_equal. rewrite !sapp_assoc. reflexivity.
    - destruct W as [_ W]. rewrite (@fold_and _ (fun c => t_value c <> None /\ wf vars classes c)) in W. rewrite (@fold_and _ (levelled (S d))) in LL.
      cbn [outline flat_map]. unfold node_lines at 1. cbn [snd fst t_leaf t_class t_mu]. fold k.
      rewrite !(sapp_assoc (stimes k tab)), !(sapp_assoc (head_text va vr)), H. cbn [app]. f_equal.
      rewrite !sapp_assoc. clear H.
      assert (G : forall q, printed (sconcat (map (tree_text sd) cs) ++ q) = (flat_map (node_lines vars sd) (List.concat (map (outline (S d)) cs)) ++ printed q)%list).
      { clear - IH W LL fnames snames sd_line. induction cs as [|c cs IC]; intro q; [reflexivity|].
        inversion IH as [|? ? H1 H2]; subst. inversion W as [|? ? [W1 W2] W3]; subst. inversion LL as [|? ? L1 L2]; subst.
        cbn [map sconcat fold_right List.concat]. rewrite sapp_assoc, (H1 (S d)); [|assumption|assumption|intro F; contradiction].
        rewrite flat_map_app, <- app_assoc. f_equal. apply (IC H2 W3 L2). }
      rewrite G. f_equal. change (nl ++ stimes k tab ++ nl ++ r) with (stimes 0 tab ++ nl ++ (stimes k tab ++ nl ++ r)). rewrite !printed_blank. reflexivity.
  Qed.
End Lines.
Lemma fitted_levelled cfg ord X y : (forall p s, Permutation (ord p s) s) -> distinct_names (f_vars cfg) -> List.length X = List.length y ->
  (0 < f_threshold cfg)%R \/ ~ In ""%string (map fv_name (f_vars cfg)) ->
  forall n p node, fitted cfg ord X y p node n -> levelled (List.length p) n.
Proof.
  intros Ho Hn HL Hth. induction n as [lf cs cv lv va vr mu IH] using tree_ind'. intros p node F.
  assert (M0 := proj1 F). destruct (@fitted_value cfg ord X y Ho Hn Hth _ _ _ F) as (_ & _ & M & L). cbn [t_mu t_level] in M, L. subst mu lv.
  cbn [levelled]. split.
  { unfold mass in M0. apply qltb_lt in M0. rewrite M0. unfold plen. apply Nat2Z.id. }
  destruct (@fitted_cases cfg ord X y Ho Hn Hth p node _ F) as [[E _]|(a & v & cs' & Ch & _ & E & FF)].
  - unfold leaf_result in E. assert (lf = true) by congruence. subst lf. exact I.
  - assert (lf = false) by congruence. assert (cs' = cs) by congruence. subst lf cs'. apply (@fold_and _ (levelled (S (List.length p)))). apply Forall_forall. intros c Hc.
    rewrite Forall_forall in IH. destruct (@Forall2_In_r _ _ _ _ _ c FF Hc) as [i [Hi Hi']].
    destruct Hi' as [[Mi Fc]|[Mi ->]].
    + specialize (IH c Hc _ _ Fc). rewrite app_length, Nat.add_comm in IH. exact IH.
    + unfold zero_leaf. cbn [levelled]. unfold mass in Mi. rewrite Mi. split; [reflexivity|exact I].
Qed.
