(** * Prelude: numbers, exceptions and the Python builtins the code relies on. *)
From Coq Require Export QArith Qcanon Lqa List Bool Lia Arith ZArith String Permutation Sorted.
Export ListNotations.
Close Scope Q_scope.
Close Scope string_scope.
Open Scope list_scope.
Open Scope Qc_scope.
Set Implicit Arguments.

(* ------------------------------------------------------------------ *)
(** ** Exact rationals: decision procedures transported from [Q]        *)

Lemma this_plus a b : (this (a + b) == this a + this b)%Q. Proof. apply Qred_correct. Qed.
Lemma this_mult a b : (this (a * b) == this a * this b)%Q. Proof. apply Qred_correct. Qed.
Lemma this_opp a : (this (- a) == - this a)%Q. Proof. apply Qred_correct. Qed.
Lemma this_minus a b : (this (a - b) == this a - this b)%Q.
Proof. unfold Qcminus. rewrite this_plus, this_opp. reflexivity. Qed.
Lemma this_inv a : (this (/ a) == / this a)%Q. Proof. apply Qred_correct. Qed.
Lemma this_div a b : (this (a / b) == this a / this b)%Q.
Proof. unfold Qcdiv. rewrite this_mult, this_inv. reflexivity. Qed.
Lemma this_Q2Qc q : (this (Q2Qc q) == q)%Q. Proof. apply Qred_correct. Qed.

Ltac qpush t :=
  lazymatch t with
  | ?a + ?b => let p := qpush a in let q := qpush b in constr:(Qeq_trans _ _ _ (this_plus a b) (Qplus_comp _ _ p _ _ q))
  | ?a * ?b => let p := qpush a in let q := qpush b in constr:(Qeq_trans _ _ _ (this_mult a b) (Qmult_comp _ _ p _ _ q))
  | ?a - ?b => let p := qpush a in let q := qpush b in constr:(Qeq_trans _ _ _ (this_minus a b) (Qminus_comp _ _ p _ _ q))
  | ?a / ?b => let p := qpush a in let q := qpush b in constr:(Qeq_trans _ _ _ (this_div a b) (Qdiv_comp _ _ p _ _ q))
  | - ?a => let p := qpush a in constr:(Qeq_trans _ _ _ (this_opp a) (Qopp_comp _ _ p))
  | Q2Qc ?q => constr:(this_Q2Qc q)
  | {| this := ?q; canon := _ |} => constr:(Qeq_refl q)
  | _ => constr:(Qeq_refl (this t))
  end.
Lemma lt_push a b p q : (this a == p)%Q -> (this b == q)%Q -> a < b -> (p < q)%Q.
Proof. intros H1 H2 H. unfold Qclt in H. rewrite <- H1, <- H2. exact H. Qed.
Lemma le_push a b p q : (this a == p)%Q -> (this b == q)%Q -> a <= b -> (p <= q)%Q.
Proof. intros H1 H2 H. unfold Qcle in H. rewrite <- H1, <- H2. exact H. Qed.
Lemma eq_push a b p q : (this a == p)%Q -> (this b == q)%Q -> a = b -> (p == q)%Q.
Proof. intros H1 H2 ->. rewrite <- H1, <- H2. reflexivity. Qed.
Lemma lt_pull a b p q : (this a == p)%Q -> (this b == q)%Q -> (p < q)%Q -> a < b.
Proof. intros H1 H2 H. unfold Qclt. rewrite H1, H2. exact H. Qed.
Lemma le_pull a b p q : (this a == p)%Q -> (this b == q)%Q -> (p <= q)%Q -> a <= b.
Proof. intros H1 H2 H. unfold Qcle. rewrite H1, H2. exact H. Qed.
Lemma eq_pull a b p q : (this a == p)%Q -> (this b == q)%Q -> (p == q)%Q -> a = b.
Proof. intros H1 H2 H. apply Qc_is_canon. rewrite H1, H2. exact H. Qed.
Ltac qhyps :=
  repeat match goal with
  | H : ?a < ?b |- _ => let p := qpush a in let q := qpush b in apply (@lt_push _ _ _ _ p q) in H
  | H : ?a <= ?b |- _ => let p := qpush a in let q := qpush b in apply (@le_push _ _ _ _ p q) in H
  | H : @eq Qc ?a ?b |- _ => let p := qpush a in let q := qpush b in apply (@eq_push _ _ _ _ p q) in H
  end.
Ltac qgoal :=
  lazymatch goal with
  | |- ?a < ?b => let p := qpush a in let q := qpush b in apply (@lt_pull _ _ _ _ p q)
  | |- ?a <= ?b => let p := qpush a in let q := qpush b in apply (@le_pull _ _ _ _ p q)
  | |- @eq Qc ?a ?b => let p := qpush a in let q := qpush b in apply (@eq_pull _ _ _ _ p q)
  | |- ~ (?a < ?b) => let H := fresh in intro H
  | |- ~ (?a <= ?b) => let H := fresh in intro H
  | |- _ => exfalso
  end.
Ltac qlra := solve [ qgoal; qhyps; cbv beta in *; lra ].
Ltac qnra := solve [ qgoal; qhyps; cbv beta in *; nra ].

Definition qc (n : Z) (d : positive) : Qc := Q2Qc (n # d).
Definition qz (z : Z) : Qc := Q2Qc (inject_Z z).
Definition qn (n : nat) : Qc := qz (Z.of_nat n).

Definition qeqb (a b : Qc) : bool := if Qc_eq_dec a b then true else false.
Definition qleb (a b : Qc) : bool := Qle_bool (this a) (this b).
Definition qltb (a b : Qc) : bool := negb (qleb b a).

#[global] Arguments Qcplus : simpl never.
#[global] Arguments Qcmult : simpl never.
#[global] Arguments Qcminus : simpl never.
#[global] Arguments Qcopp : simpl never.
#[global] Arguments Qcinv : simpl never.
#[global] Arguments Qcdiv : simpl never.
#[global] Arguments Q2Qc : simpl never.
#[global] Arguments qc : simpl never.
#[global] Arguments qz : simpl never.
#[global] Arguments qn : simpl never.
#[global] Arguments qeqb : simpl never.
#[global] Arguments qleb : simpl never.
#[global] Arguments qltb : simpl never.

Lemma qeqb_eq a b : qeqb a b = true <-> a = b.
Proof. unfold qeqb; destruct (Qc_eq_dec a b); split; congruence. Qed.
Lemma qeqb_neq a b : qeqb a b = false <-> a <> b.
Proof. unfold qeqb; destruct (Qc_eq_dec a b); split; congruence. Qed.
Lemma qeqb_refl a : qeqb a a = true. Proof. apply qeqb_eq; reflexivity. Qed.
Lemma qleb_le a b : qleb a b = true <-> a <= b.
Proof. unfold qleb, Qcle. apply Qle_bool_iff. Qed.
Lemma qleb_gt a b : qleb a b = false <-> b < a.
Proof.
  split; intro H.
  - apply Qcnot_le_lt. intro H'. apply qleb_le in H'. congruence.
  - destruct (qleb a b) eqn:E; [|reflexivity]. apply qleb_le in E. exfalso; qlra.
Qed.
Lemma qltb_lt a b : qltb a b = true <-> a < b.
Proof. unfold qltb. rewrite negb_true_iff. apply qleb_gt. Qed.
Lemma qltb_ge a b : qltb a b = false <-> b <= a.
Proof. unfold qltb. rewrite negb_false_iff. apply qleb_le. Qed.

Lemma qeqb_reflect a b : reflect (a = b) (qeqb a b).
Proof. apply iff_reflect. symmetry. apply qeqb_eq. Qed.
Lemma qleb_spec a b : BoolSpec (a <= b) (b < a) (qleb a b).
Proof. destruct (qleb a b) eqn:E; constructor; [apply qleb_le|apply qleb_gt]; exact E. Qed.
Lemma qltb_spec a b : BoolSpec (a < b) (b <= a) (qltb a b).
Proof. destruct (qltb a b) eqn:E; constructor; [apply qltb_lt|apply qltb_ge]; exact E. Qed.
Lemma qeqb_spec a b : BoolSpec (a = b) (a <> b) (qeqb a b).
Proof. destruct (qeqb a b) eqn:E; constructor; [apply qeqb_eq|apply qeqb_neq]; exact E. Qed.

Ltac noif t := lazymatch t with context [if _ then _ else _] => fail | _ => idtac end.
(** case split on every rational comparison occurring in the goal *)
Ltac qcase :=
  repeat match goal with
  | |- context [qleb ?a ?b] => noif a; noif b; destruct (qleb_spec a b)
  | |- context [qltb ?a ?b] => noif a; noif b; destruct (qltb_spec a b)
  | |- context [qeqb ?a ?b] => noif a; noif b; destruct (qeqb_spec a b)
  end.

Lemma Qc_neq_lt a b : a <> b -> a < b \/ b < a.
Proof. intro H. destruct (Qc_dec a b) as [[?|?]|?]; auto. contradiction. Qed.

(** Python's two-argument [min]/[max] on numbers. *)
Definition qmin (a b : Qc) : Qc := if qltb b a then b else a.
Definition qmax (a b : Qc) : Qc := if qltb a b then b else a.

Lemma qmin_l a b : qmin a b <= a. Proof. unfold qmin; qcase; qlra. Qed.
Lemma qmin_r a b : qmin a b <= b. Proof. unfold qmin; qcase; qlra. Qed.
Lemma qmax_l a b : a <= qmax a b. Proof. unfold qmax; qcase; qlra. Qed.
Lemma qmax_r a b : b <= qmax a b. Proof. unfold qmax; qcase; qlra. Qed.
Lemma qmin_comm a b : qmin a b = qmin b a. Proof. unfold qmin; qcase; qlra. Qed.
Lemma qmax_comm a b : qmax a b = qmax b a. Proof. unfold qmax; qcase; qlra. Qed.
Lemma qmin_assoc a b c : qmin a (qmin b c) = qmin (qmin a b) c.
Proof. unfold qmin; qcase; qlra. Qed.
Lemma qmax_assoc a b c : qmax a (qmax b c) = qmax (qmax a b) c.
Proof. unfold qmax; qcase; qlra. Qed.
Lemma qmin_glb a b c : c <= a -> c <= b -> c <= qmin a b.
Proof. unfold qmin; qcase; intros; qlra. Qed.
Lemma qmax_lub a b c : a <= c -> b <= c -> qmax a b <= c.
Proof. unfold qmax; qcase; intros; qlra. Qed.
Lemma qmin_idem a : qmin a a = a. Proof. unfold qmin; qcase; qlra. Qed.
Lemma qmax_idem a : qmax a a = a. Proof. unfold qmax; qcase; qlra. Qed.

Definition qabs (a : Qc) : Qc := if qltb a 0 then - a else a.
Lemma qabs_nonneg a : 0 <= qabs a. Proof. unfold qabs; qcase; qlra. Qed.
Lemma qabs_zero a : qabs a = 0 <-> a = 0.
Proof. unfold qabs; qcase; split; intros; qlra. Qed.
Lemma qabs_sym a b : qabs (a - b) = qabs (b - a). Proof. unfold qabs; qcase; qlra. Qed.
Lemma qabs_tri a b c : qabs (a - c) <= qabs (a - b) + qabs (b - c).
Proof. unfold qabs; qcase; qlra. Qed.
Lemma qabs_le a b : qabs a <= b <-> - b <= a /\ a <= b.
Proof. unfold qabs; qcase; split; [intro|intros [? ?]| intro|intros [? ?]]; try split; qlra. Qed.

Lemma Qcmult_nonneg a b : 0 <= a -> 0 <= b -> 0 <= a * b. Proof. intros; qnra. Qed.
Lemma Qcmult_pos a b : 0 < a -> 0 < b -> 0 < a * b. Proof. intros; qnra. Qed.
Lemma Qcdiv_mult a b : b <> 0 -> a / b * b = a. Proof. intro; field; assumption. Qed.
Lemma Qcdiv_le a b c : 0 < c -> (a / c <= b <-> a <= b * c).
Proof.
  intro Hc. assert (a = a / c * c) as E by (field; intros ->; qlra).
  rewrite E at 2. split; intro H.
  - apply Qcmult_le_compat_r; [exact H|qlra].
  - apply Qcmult_lt_0_le_reg_r with c; assumption.
Qed.
Lemma Qcdiv_lt a b c : 0 < c -> (a / c < b <-> a < b * c).
Proof.
  intro Hc. pose proof (Qcdiv_le b (a / c) Hc) as _.
  assert (E : a = a / c * c) by (field; intros ->; qlra).
  rewrite E at 2. split; intro H.
  - apply Qcmult_lt_compat_r; assumption.
  - destruct (Qclt_le_dec (a / c) b) as [|H']; [assumption|].
    assert (b * c <= a / c * c) by (apply Qcmult_le_compat_r; [exact H'|qlra]). exfalso; qlra.
Qed.
Lemma Qcle_div a b c : 0 < c -> (b <= a / c <-> b * c <= a).
Proof.
  intro Hc. assert (E : a = a / c * c) by (field; intros ->; qlra).
  rewrite E at 2. split; intro H.
  - apply Qcmult_le_compat_r; [exact H|qlra].
  - apply Qcmult_lt_0_le_reg_r with c; assumption.
Qed.
Lemma Qclt_div a b c : 0 < c -> (b < a / c <-> b * c < a).
Proof.
  intro Hc. assert (E : a = a / c * c) by (field; intros ->; qlra).
  rewrite E at 2. split; intro H.
  - apply Qcmult_lt_compat_r; assumption.
  - destruct (Qclt_le_dec b (a / c)) as [|H']; [assumption|].
    assert (a / c * c <= b * c) by (apply Qcmult_le_compat_r; [exact H'|qlra]). exfalso; qlra.
Qed.
Lemma Qcdiv_eq a b c : c <> 0 -> (a / c = b <-> a = b * c).
Proof.
  intro Hc. split; intro H.
  - subst b. field; assumption.
  - subst a. field; assumption.
Qed.
Lemma Qcdiv_01 a b : 0 <= a -> a <= b -> 0 < b -> 0 <= a / b /\ a / b <= 1.
Proof. intros. split; [apply Qcle_div|apply Qcdiv_le]; try assumption; qlra. Qed.

(** Naturals and integers inside [Qc]. *)
Lemma qz_plus a b : qz (a + b) = qz a + qz b.
Proof. unfold qz. apply Qc_is_canon. rewrite this_plus, !this_Q2Qc, inject_Z_plus. reflexivity. Qed.
Lemma qz_le a b : qz a <= qz b <-> (a <= b)%Z.
Proof. unfold qz, Qcle. rewrite !this_Q2Qc. rewrite <- Zle_Qle. reflexivity. Qed.
Lemma qz_lt a b : qz a < qz b <-> (a < b)%Z.
Proof. unfold qz, Qclt. rewrite !this_Q2Qc. rewrite <- Zlt_Qlt. reflexivity. Qed.
Lemma qz_inj a b : qz a = qz b <-> a = b.
Proof.
  split; [|congruence]. intro H.
  assert (qz a <= qz b) as H1 by (rewrite H; apply Qcle_refl).
  assert (qz b <= qz a) as H2 by (rewrite H; apply Qcle_refl).
  rewrite qz_le in H1, H2. lia.
Qed.
Lemma qn_plus a b : qn (a + b) = qn a + qn b.
Proof. unfold qn. rewrite Nat2Z.inj_add. apply qz_plus. Qed.
Lemma qn_S a : qn (S a) = 1 + qn a.
Proof. change (S a) with (1 + a)%nat. apply qn_plus. Qed.
Lemma qn_le a b : qn a <= qn b <-> (a <= b)%nat.
Proof. unfold qn. rewrite qz_le. lia. Qed.
Lemma qn_lt a b : qn a < qn b <-> (a < b)%nat.
Proof. unfold qn. rewrite qz_lt. lia. Qed.
Lemma qn_inj a b : qn a = qn b <-> a = b.
Proof. unfold qn. rewrite qz_inj. lia. Qed.
Lemma qn_0 : qn 0 = 0. Proof. reflexivity. Qed.
Lemma qn_nonneg a : 0 <= qn a. Proof. rewrite <- qn_0. apply qn_le. lia. Qed.
Lemma qn_pos a : (0 < a)%nat -> 0 < qn a. Proof. intro. rewrite <- qn_0. apply qn_lt. assumption. Qed.

(* ------------------------------------------------------------------ *)
(** ** Exceptions as values                                            *)

Inductive exn :=
| KeyError | IndexError | ValueError | ZeroDivisionError | AssertionError
| TypeError | AttributeError | NameError | OverflowError | NotFitted | NotFuzzified | OutOfFuel.

Inductive res (A : Type) := Ok (a : A) | Err (e : exn).
Arguments Ok {A} a. Arguments Err {A} e.
Definition bind {A B} (r : res A) (f : A -> res B) : res B :=
  match r with Ok a => f a | Err e => Err e end.
Notation "'do' x <- r ; f" := (bind r (fun x => f))
  (at level 200, x pattern, r at level 100, f at level 200).
Definition rmap {A B} (f : A -> B) (r : res A) : res B :=
  match r with Ok a => Ok (f a) | Err e => Err e end.
Definition ret_opt {A} (e : exn) (o : option A) : res A :=
  match o with Some a => Ok a | None => Err e end.

(** Left-to-right evaluation of a comprehension whose body can raise. *)
Section MapM.
  Context {A B : Type} (f : A -> res B).
  Fixpoint mapM (l : list A) : res (list B) :=
    match l with
    | [] => Ok []
    | x :: l' => do y <- f x; do ys <- mapM l'; Ok (y :: ys)
    end.
End MapM.

(** A [for] loop whose body updates a state and can raise. *)
Fixpoint foldM {S A} (f : S -> A -> res S) (s : S) (l : list A) : res S :=
  match l with
  | [] => Ok s
  | x :: l' => do s' <- f s x; foldM f s' l'
  end.

Lemma mapM_ok A B (f : A -> res B) l ys :
  mapM f l = Ok ys <-> Forall2 (fun x y => f x = Ok y) l ys.
Proof.
  split.
  - revert ys. induction l as [|x l IH]; simpl; intros ys H.
    + injection H as <-. constructor.
    + destruct (f x) as [y|e] eqn:E; simpl in H; [|discriminate].
      destruct (mapM f l) as [zs|e] eqn:E2; simpl in H; [|discriminate].
      injection H as <-. constructor; auto.
  - induction 1 as [|x y l ys H1 H2 IH]; simpl; [reflexivity|].
    rewrite H1; simpl. rewrite IH; reflexivity.
Qed.
Lemma mapM_pure A B (f : A -> B) l : mapM (fun x => Ok (f x)) l = Ok (map f l).
Proof. induction l as [|x l IH]; simpl; [reflexivity|]. rewrite IH. reflexivity. Qed.
Lemma mapM_ext A B (f g : A -> res B) l :
  (forall x, In x l -> f x = g x) -> mapM f l = mapM g l.
Proof.
  induction l as [|x l IH]; simpl; intro H; [reflexivity|].
  rewrite H by auto. destruct (g x); simpl; [|reflexivity].
  rewrite IH; auto.
Qed.
Lemma Forall2_len A B (R : A -> B -> Prop) l l' : Forall2 R l l' -> List.length l = List.length l'.
Proof. induction 1; simpl; congruence. Qed.
Lemma Forall2_impl A B (R S : A -> B -> Prop) l l' :
  (forall x y, R x y -> S x y) -> Forall2 R l l' -> Forall2 S l l'.
Proof. intros H. induction 1; constructor; auto. Qed.
Lemma mapM_length A B (f : A -> res B) l ys : mapM f l = Ok ys -> List.length ys = List.length l.
Proof. intro H. apply mapM_ok in H. symmetry. eapply Forall2_len; eassumption. Qed.

(* ------------------------------------------------------------------ *)
(** ** Decidable equality and dictionaries in insertion order           *)

Class EqDec (A : Type) := eq_dec : forall x y : A, {x = y} + {x <> y}.
#[export] Instance eqd_nat : EqDec nat := Nat.eq_dec.
#[export] Instance eqd_Z : EqDec Z := Z.eq_dec.
#[export] Instance eqd_string : EqDec string := string_dec.
#[export] Instance eqd_Qc : EqDec Qc := Qc_eq_dec.
#[export] Instance eqd_bool : EqDec bool := bool_dec.
#[export] Instance eqd_prod A B (ea : EqDec A) (eb : EqDec B) : EqDec (A * B).
Proof. intros x y. pose proof ea. pose proof eb. unfold EqDec in *. decide equality. Defined.
#[export] Instance eqd_list A (ea : EqDec A) : EqDec (list A) := list_eq_dec ea.
#[export] Instance eqd_option A (ea : EqDec A) : EqDec (option A).
Proof. intros x y. pose proof ea. unfold EqDec in *. decide equality. Defined.

Definition eqb {A} `{EqDec A} (x y : A) : bool := if eq_dec x y then true else false.
Lemma eqb_eq A (H : EqDec A) (x y : A) : eqb x y = true <-> x = y.
Proof. unfold eqb; destruct (eq_dec x y); split; congruence. Qed.
Lemma eqb_neq A (H : EqDec A) (x y : A) : eqb x y = false <-> x <> y.
Proof. unfold eqb; destruct (eq_dec x y); split; congruence. Qed.
Lemma eqb_refl A (H : EqDec A) (x : A) : eqb x x = true.
Proof. apply eqb_eq; reflexivity. Qed.

Definition memb {A} `{EqDec A} (x : A) (l : list A) : bool := existsb (eqb x) l.
Lemma memb_In A (H : EqDec A) (x : A) l : memb x l = true <-> In x l.
Proof.
  unfold memb. rewrite existsb_exists. split.
  - intros (y & Hy & E). apply eqb_eq in E. subst; assumption.
  - intro Hx. exists x. split; [assumption|apply eqb_refl].
Qed.
Lemma memb_not_In A (H : EqDec A) (x : A) l : memb x l = false <-> ~ In x l.
Proof.
  rewrite <- (memb_In H). destruct (memb x l); split; congruence.
Qed.

Definition dict (K V : Type) := list (K * V).

(** [d[k]] or [None] when the key is absent. *)
Fixpoint dget {K V} `{EqDec K} (k : K) (d : dict K V) : option V :=
  match d with
  | [] => None
  | (k', v) :: d' => if eqb k k' then Some v else dget k d'
  end.
(** [d[k] = v]: in place when the key exists, appended otherwise. *)
Fixpoint dset {K V} `{EqDec K} (k : K) (v : V) (d : dict K V) : dict K V :=
  match d with
  | [] => [(k, v)]
  | (k', v') :: d' => if eqb k k' then (k', v) :: d' else (k', v') :: dset k v d'
  end.
Definition dkeys {K V} (d : dict K V) : list K := map fst d.
Definition dvals {K V} (d : dict K V) : list V := map snd d.
Definition dmem {K V} `{EqDec K} (k : K) (d : dict K V) : bool := memb k (dkeys d).
(** a dict comprehension / literal: later bindings override earlier ones in place *)
Definition dict_of {K V} `{EqDec K} (l : list (K * V)) : dict K V :=
  fold_left (fun d kv => dset (fst kv) (snd kv) d) l [].

Section Dict.
  Context {K V : Type} `{EqDec K}.
  Implicit Types (k : K) (v : V) (d : dict K V).
  Lemma dget_In k v d : dget k d = Some v -> In (k, v) d.
  Proof.
    induction d as [|[k' v'] d IH]; simpl; [discriminate|].
    destruct (eqb k k') eqn:E.
    - intro H0; injection H0 as ->. apply eqb_eq in E; subst; auto.
    - auto.
  Qed.
  Lemma dget_None k d : dget k d = None <-> ~ In k (dkeys d).
  Proof.
    induction d as [|[k' v'] d IH]; simpl; [tauto|].
    destruct (eqb k k') eqn:E.
    - apply eqb_eq in E; subst. split; [discriminate|intro C; exfalso; auto].
    - apply eqb_neq in E. rewrite IH. split; [intros A [B|B]; congruence || auto | auto].
  Qed.
  Lemma dget_Some_key k v d : dget k d = Some v -> In k (dkeys d).
  Proof. intro E. apply dget_In in E. apply (in_map fst) in E. exact E. Qed.
  Lemma dget_ex k d : In k (dkeys d) -> exists v, dget k d = Some v.
  Proof.
    intro Hk. destruct (dget k d) as [v|] eqn:E; [eauto|].
    apply dget_None in E. contradiction.
  Qed.
  Lemma dget_nodup k v d : NoDup (dkeys d) -> In (k, v) d -> dget k d = Some v.
  Proof.
    induction d as [|[k' v'] d IH]; simpl; intros Hn Hi; [contradiction|].
    inversion Hn as [|? ? Hnk Hnd]; subst.
    destruct Hi as [E|Hi].
    - injection E as -> ->. rewrite eqb_refl. reflexivity.
    - destruct (eqb k k') eqn:E; [|auto].
      apply eqb_eq in E; subst. apply (in_map fst) in Hi. contradiction.
  Qed.
  Lemma dset_same k v d : dget k (dset k v d) = Some v.
  Proof.
    induction d as [|[k' v'] d IH]; simpl; [rewrite eqb_refl; reflexivity|].
    destruct (eqb k k') eqn:E; simpl; rewrite E; auto.
  Qed.
  Lemma dset_other k k' v d : k <> k' -> dget k (dset k' v d) = dget k d.
  Proof.
    intro Hn. induction d as [|[k2 v2] d IH]; simpl.
    - destruct (eqb k k') eqn:E; [apply eqb_eq in E; contradiction|reflexivity].
    - destruct (eqb k' k2) eqn:E; simpl.
      + apply eqb_eq in E; subst. destruct (eqb k k2) eqn:E2; [apply eqb_eq in E2; contradiction|reflexivity].
      + rewrite IH. reflexivity.
  Qed.
  Lemma dset_get k k' v d : dget k (dset k' v d) = if eqb k k' then Some v else dget k d.
  Proof.
    destruct (eqb k k') eqn:E.
    - apply eqb_eq in E; subst. apply dset_same.
    - apply eqb_neq in E. apply dset_other; assumption.
  Qed.
  Lemma dset_keys k v d :
    dkeys (dset k v d) = if memb k (dkeys d) then dkeys d else dkeys d ++ [k].
  Proof.
    induction d as [|[k' v'] d IH]; simpl; [reflexivity|].
    unfold memb in *; simpl. destruct (eqb k k') eqn:E; simpl; [reflexivity|].
    unfold dkeys in *. rewrite IH. destruct (existsb (eqb k) (map fst d)); reflexivity.
  Qed.
  Lemma dset_keys_In k k' v d : In k (dkeys (dset k' v d)) <-> k = k' \/ In k (dkeys d).
  Proof.
    rewrite dset_keys. destruct (memb k' (dkeys d)) eqn:E.
    - apply memb_In in E. split; [auto|intros [->|?]; assumption].
    - rewrite in_app_iff; simpl. split; [intros [?|[?|[]]]; auto|intros [?|?]; auto].
  Qed.
  Lemma NoDup_snoc (A : Type) (l : list A) x : NoDup l -> ~ In x l -> NoDup (l ++ [x]).
  Proof.
    intros Hl Hx. apply Permutation_NoDup with (x :: l).
    - apply Permutation_cons_append.
    - constructor; assumption.
  Qed.
  Lemma dset_nodup k v d : NoDup (dkeys d) -> NoDup (dkeys (dset k v d)).
  Proof.
    intro Hn. rewrite dset_keys. destruct (memb k (dkeys d)) eqn:E; [assumption|].
    apply memb_not_In in E. apply NoDup_snoc; assumption.
  Qed.
  Lemma dset_fresh k v d : ~ In k (dkeys d) -> dset k v d = d ++ [(k, v)].
  Proof.
    induction d as [|[k' v'] d IH]; simpl; intro Hn; [reflexivity|].
    destruct (eqb k k') eqn:E; [apply eqb_eq in E; subst; exfalso; auto|].
    rewrite IH; auto.
  Qed.
  Lemma dict_of_fold_nodup (l : list (K * V)) d :
    NoDup (dkeys d) -> NoDup (dkeys (fold_left (fun d kv => dset (fst kv) (snd kv) d) l d)).
  Proof.
    revert d. induction l as [|[k v] l IH]; simpl; intros d Hd; [assumption|].
    apply IH. apply dset_nodup. assumption.
  Qed.
  Lemma dict_of_nodup_keys (l : list (K * V)) : NoDup (dkeys (dict_of l)).
  Proof. apply dict_of_fold_nodup. constructor. Qed.
  Lemma dict_of_fold_id (l : list (K * V)) d :
    NoDup (dkeys d ++ map fst l) ->
    fold_left (fun d kv => dset (fst kv) (snd kv) d) l d = d ++ l.
  Proof.
    revert d. induction l as [|[k v] l IH]; simpl; intros d Hd; [rewrite app_nil_r; reflexivity|].
    rewrite dset_fresh.
    - rewrite IH.
      + rewrite <- app_assoc. reflexivity.
      + unfold dkeys in *. rewrite map_app, <- app_assoc. simpl. assumption.
    - intro Hk. apply NoDup_remove_2 in Hd. apply Hd. apply in_or_app; auto.
  Qed.
  Lemma dict_of_nodup (l : list (K * V)) : NoDup (map fst l) -> dict_of l = l.
  Proof. intro Hn. unfold dict_of. rewrite dict_of_fold_id; [reflexivity|exact Hn]. Qed.
  Lemma dict_of_fold_get (l : list (K * V)) d k :
    dget k (fold_left (fun d kv => dset (fst kv) (snd kv) d) l d)
    = match dget k (rev l) with Some v => Some v | None => dget k d end.
  Proof.
    revert d. induction l as [|[k' v] l IH]; simpl; intro d; [reflexivity|].
    rewrite IH. clear IH.
    assert (G : forall (l1 l2 : dict K V), dget k (l1 ++ l2) = match dget k l1 with Some v => Some v | None => dget k l2 end).
    { induction l1 as [|[k1 v1] l1 IH1]; simpl; intro l2; [reflexivity|].
      destruct (eqb k k1); [reflexivity|apply IH1]. }
    rewrite G. destruct (dget k (rev l)); [reflexivity|].
    simpl. rewrite dset_get. destruct (eqb k k'); reflexivity.
  Qed.
  Lemma dget_app k (l1 l2 : dict K V) :
    dget k (l1 ++ l2) = match dget k l1 with Some v => Some v | None => dget k l2 end.
  Proof.
    induction l1 as [|[k1 v1] l1 IH1]; simpl; [reflexivity|].
    destruct (eqb k k1); [reflexivity|apply IH1].
  Qed.
  Lemma dict_of_get (l : list (K * V)) k : dget k (dict_of l) = dget k (rev l).
  Proof.
    unfold dict_of. rewrite dict_of_fold_get. destruct (dget k (rev l)); reflexivity.
  Qed.
  Lemma dict_of_keys_In (l : list (K * V)) k : In k (dkeys (dict_of l)) <-> In k (map fst l).
  Proof.
    destruct (dget k (dict_of l)) as [v|] eqn:E.
    - rewrite dict_of_get in E. split; intros _.
      + apply dget_In in E. apply in_rev in E. apply (in_map fst) in E. exact E.
      + rewrite <- dict_of_get in E. apply dget_Some_key in E. exact E.
    - pose proof E as E'. rewrite dict_of_get in E'.
      apply dget_None in E. apply dget_None in E'.
      split; intro C; [contradiction|]. exfalso. apply E'.
      unfold dkeys. rewrite map_rev. apply in_rev in C. exact C.
  Qed.
End Dict.

(** [d.setdefault]-style accumulation [d[k] += x] on a defaultdict(0). *)
Definition dadd {K} `{EqDec K} (k : K) (x : Qc) (d : dict K Qc) : dict K Qc :=
  dset k ((match dget k d with Some y => y | None => 0 end) + x) d.

(* ------------------------------------------------------------------ *)
(** ** max/min with a strict order, stable sort, unique                 *)

(** [max(l, key=...)]: the first maximal element ([lt best x] replaces). *)
Fixpoint max_by_aux {A} (lt : A -> A -> bool) (best : A) (l : list A) : A :=
  match l with
  | [] => best
  | x :: l' => max_by_aux lt (if lt best x then x else best) l'
  end.
Definition max_by {A} (lt : A -> A -> bool) (l : list A) : option A :=
  match l with [] => None | x :: l' => Some (max_by_aux lt x l') end.
(** [min(l, key=...)]: the first minimal element. *)
Definition min_by {A} (lt : A -> A -> bool) (l : list A) : option A :=
  max_by (fun a b => lt b a) l.

(** Python [max(list of numbers)] / [min(...)]; empty raises ValueError. *)
Definition qmaximum (l : list Qc) : res Qc := ret_opt ValueError (max_by qltb l).
Definition qminimum (l : list Qc) : res Qc := ret_opt ValueError (min_by qltb l).

Section MaxBy.
  Context {A : Type} (key : A -> Qc).
  Let lt := fun a b => qltb (key a) (key b).
  Lemma max_by_aux_In best l : In (max_by_aux lt best l) (best :: l).
  Proof.
    revert best. induction l as [|x l IH]; intro best; simpl; [auto|].
    destruct (lt best x); destruct (IH (x)) as [E|E]; destruct (IH best) as [E'|E']; auto.
  Qed.
  Lemma max_by_aux_ge best l x : In x (best :: l) -> key x <= key (max_by_aux lt best l).
  Proof.
    revert best x. induction l as [|y l IH]; intros best x Hx; simpl.
    - destruct Hx as [->|[]]. apply Qcle_refl.
    - destruct Hx as [->|[->|Hx]].
      + apply Qcle_trans with (key (if lt x y then y else x)).
        * unfold lt. qcase; qlra.
        * apply IH; left; reflexivity.
      + apply Qcle_trans with (key (if lt best x then x else best)).
        * unfold lt. qcase; qlra.
        * apply IH; left; reflexivity.
      + apply IH. right; assumption.
  Qed.
  (** first-ness: the elements before the result have a strictly smaller key *)
  Lemma max_by_aux_first best l :
    exists l1 l2, best :: l = l1 ++ max_by_aux lt best l :: l2 /\
                  Forall (fun x => key x < key (max_by_aux lt best l)) l1.
  Proof.
    revert best. induction l as [|y l IH]; intro best; simpl.
    - exists [], []. split; [reflexivity|constructor].
    - destruct (lt best y) eqn:E.
      + destruct (IH y) as (l1 & l2 & E1 & F1). exists (best :: l1), l2. split.
        * simpl. rewrite <- E1. reflexivity.
        * constructor; [|assumption].
          unfold lt in E. apply qltb_lt in E.
          apply Qclt_le_trans with (key y); [assumption|].
          apply max_by_aux_ge. left; reflexivity.
      + destruct (IH best) as (l1 & l2 & E1 & F1).
        unfold lt in E. apply qltb_ge in E.
        destruct l1 as [|z l1].
        * simpl in E1. injection E1 as E1 E2. exists [], (y :: l2). split.
          -- simpl. rewrite <- E1, E2. reflexivity.
          -- constructor.
        * simpl in E1. injection E1 as E1 E2. subst z.
          exists (best :: y :: l1), l2. split.
          -- simpl. rewrite <- E2. reflexivity.
          -- inversion F1; subst. constructor; [assumption|]. constructor; [|assumption].
             apply Qcle_lt_trans with (key best); assumption.
  Qed.
  Lemma max_by_spec l m : max_by lt l = Some m ->
    In m l /\ (forall x, In x l -> key x <= key m) /\
    exists l1 l2, l = l1 ++ m :: l2 /\ Forall (fun x => key x < key m) l1.
  Proof.
    destruct l as [|x l]; simpl; [discriminate|]. intro E. injection E as <-.
    split; [apply max_by_aux_In|]. split; [intros; apply max_by_aux_ge; assumption|].
    apply max_by_aux_first.
  Qed.
  Lemma max_by_None l : max_by lt l = None <-> l = [].
  Proof. destruct l; simpl; split; congruence. Qed.
  Lemma max_by_ex l : l <> [] -> exists m, max_by lt l = Some m.
  Proof. destruct l; [congruence|simpl; eauto]. Qed.
  (** the specification determines the result *)
  Lemma max_by_unique l1 m l2 :
    Forall (fun x => key x < key m) l1 -> Forall (fun x => key x <= key m) l2 ->
    max_by lt (l1 ++ m :: l2) = Some m.
  Proof.
    intros F1 F2.
    assert (G2 : forall l, Forall (fun x => key x <= key m) l -> max_by_aux lt m l = m).
    { induction 1 as [|x l Hx Hl IH]; simpl; [reflexivity|].
      assert (E : lt m x = false) by (apply qltb_ge; assumption).
      rewrite E. exact IH. }
    assert (G1 : forall l b, Forall (fun x => key x < key m) l -> key b < key m ->
                 max_by_aux lt b (l ++ m :: l2) = m).
    { induction l as [|x l IH]; simpl; intros b Fl Hb.
      - assert (E : lt b m = true) by (apply qltb_lt; assumption). rewrite E. auto.
      - inversion Fl; subst. destruct (lt b x); auto. }
    destruct l1 as [|x l1]; simpl.
    - rewrite G2 by assumption. reflexivity.
    - inversion F1; subst. rewrite G1 by assumption. reflexivity.
  Qed.
End MaxBy.

Lemma qmaximum_spec l m : qmaximum l = Ok m -> In m l /\ forall x, In x l -> x <= m.
Proof.
  unfold qmaximum. destruct (max_by qltb l) as [m'|] eqn:E; simpl; [|discriminate].
  intro H; injection H as ->. change qltb with (fun a b => qltb (id a) (id b)) in E.
  apply max_by_spec in E. destruct E as (H1 & H2 & _). split; assumption.
Qed.
Lemma qmaximum_err l e : qmaximum l = Err e <-> l = [] /\ e = ValueError.
Proof.
  unfold qmaximum. destruct l as [|x l]; simpl; split.
  - intro H; injection H as <-; auto.
  - intros [_ ->]; reflexivity.
  - discriminate.
  - intros [? _]; discriminate.
Qed.
Lemma qminimum_spec l m : qminimum l = Ok m -> In m l /\ forall x, In x l -> m <= x.
Proof.
  unfold qminimum, min_by. destruct (max_by _ l) as [m'|] eqn:E; simpl; [|discriminate].
  intro H; injection H as ->.
  assert (E' : max_by (fun a b => qltb (- a) (- b)) l = Some m).
  { rewrite <- E. clear E. destruct l as [|x l]; simpl; [reflexivity|]. f_equal.
    revert x. induction l as [|y l IH]; simpl; intro x; [reflexivity|].
    assert (Q : qltb (- x) (- y) = qltb y x) by (qcase; try reflexivity; exfalso; qlra).
    rewrite Q. apply IH. }
  apply (max_by_spec (fun a => - a)) in E'. destruct E' as (H1 & H2 & _).
  split; [assumption|]. intros x Hx. specialize (H2 x Hx). qlra.
Qed.
Lemma qminimum_err l e : qminimum l = Err e <-> l = [] /\ e = ValueError.
Proof.
  unfold qminimum, min_by. destruct l as [|x l]; simpl; split.
  - intro H; injection H as <-; auto.
  - intros [_ ->]; reflexivity.
  - discriminate.
  - intros [? _]; discriminate.
Qed.
Lemma qminimum_ok l : l <> [] -> exists m, qminimum l = Ok m.
Proof. destruct l; [congruence|unfold qminimum, min_by; simpl; eauto]. Qed.
Lemma qmaximum_ok l : l <> [] -> exists m, qmaximum l = Ok m.
Proof. destruct l; [congruence|unfold qmaximum; simpl; eauto]. Qed.
Lemma qminimum_unique l m : In m l -> (forall x, In x l -> m <= x) -> qminimum l = Ok m.
Proof.
  intros H1 H2. destruct (@qminimum_ok l) as [m' E].
  - intros ->; contradiction.
  - rewrite E. apply qminimum_spec in E. destruct E as [E1 E2]. f_equal.
    specialize (H2 m' E1). specialize (E2 m H1). apply Qcle_antisym; assumption.
Qed.
Lemma qmaximum_unique l m : In m l -> (forall x, In x l -> x <= m) -> qmaximum l = Ok m.
Proof.
  intros H1 H2. destruct (@qmaximum_ok l) as [m' E].
  - intros ->; contradiction.
  - rewrite E. apply qmaximum_spec in E. destruct E as [E1 E2]. f_equal.
    specialize (H2 m' E1). specialize (E2 m H1). apply Qcle_antisym; assumption.
Qed.
Lemma qminimum_perm l l' : Permutation l l' -> qminimum l = qminimum l'.
Proof.
  intro P. destruct l as [|x l].
  - apply Permutation_nil in P. subst. reflexivity.
  - destruct (@qminimum_ok (x :: l)) as [m E]; [congruence|]. rewrite E.
    symmetry. apply qminimum_unique; apply qminimum_spec in E; destruct E as [E1 E2].
    + eapply Permutation_in; eassumption.
    + intros y Hy. apply E2. eapply Permutation_in; [apply Permutation_sym|]; eassumption.
Qed.

(** Stable insertion sort: [le x y] keeps [x] before [y]. *)
Fixpoint insert_by {A} (le : A -> A -> bool) (x : A) (l : list A) : list A :=
  match l with
  | [] => [x]
  | y :: l' => if le x y then x :: y :: l' else y :: insert_by le x l'
  end.
Definition sort_by {A} (le : A -> A -> bool) (l : list A) : list A :=
  fold_right (insert_by le) [] l.
(** [sorted(l, key=key)] *)
Definition sort_asc {A} (key : A -> Qc) (l : list A) : list A :=
  sort_by (fun a b => qleb (key a) (key b)) l.
(** [sorted(l, key=key, reverse=True)]: still stable *)
Definition sort_desc {A} (key : A -> Qc) (l : list A) : list A :=
  sort_by (fun a b => qleb (key b) (key a)) l.

Lemma insert_by_perm A (le : A -> A -> bool) x l : Permutation (x :: l) (insert_by le x l).
Proof.
  induction l as [|y l IH]; simpl; [apply Permutation_refl|].
  destruct (le x y); [apply Permutation_refl|].
  apply perm_trans with (y :: x :: l); [constructor|]. constructor. assumption.
Qed.
Lemma sort_by_perm A (le : A -> A -> bool) l : Permutation l (sort_by le l).
Proof.
  induction l as [|x l IH]; simpl; [constructor|].
  apply perm_trans with (x :: sort_by le l); [constructor; assumption|apply insert_by_perm].
Qed.
Lemma sort_by_In A (le : A -> A -> bool) l x : In x (sort_by le l) <-> In x l.
Proof.
  split; intro H; eapply Permutation_in; try eassumption;
    [apply Permutation_sym|]; apply sort_by_perm.
Qed.
Lemma sort_by_length A (le : A -> A -> bool) l : List.length (sort_by le l) = List.length l.
Proof. symmetry. apply Permutation_length, sort_by_perm. Qed.
Section SortBy.
  Context {A : Type} (le : A -> A -> bool).
  Hypothesis le_total : forall a b, le a b = true \/ le b a = true.
  Hypothesis le_trans : forall a b c, le a b = true -> le b c = true -> le a c = true.
  Lemma insert_by_sorted x l : StronglySorted (fun a b => le a b = true) l ->
    StronglySorted (fun a b => le a b = true) (insert_by le x l).
  Proof.
    induction 1 as [|y l Hl IH Hf]; simpl; [repeat constructor|].
    destruct (le x y) eqn:E.
    - constructor; [constructor; assumption|]. constructor; [assumption|].
      eapply Forall_impl; [|eassumption]. intros z Hz. eapply le_trans; eassumption.
    - constructor; [assumption|].
      apply Forall_forall. intros z Hz.
      apply (Permutation_in _ (Permutation_sym (insert_by_perm le x l))) in Hz.
      destruct Hz as [<-|Hz].
      + destruct (le_total x y) as [C|C]; [congruence|assumption].
      + rewrite Forall_forall in Hf. apply Hf; assumption.
  Qed.
  Lemma sort_by_sorted l : StronglySorted (fun a b => le a b = true) (sort_by le l).
  Proof.
    induction l as [|x l IH]; simpl; [constructor|]. apply insert_by_sorted. assumption.
  Qed.
  (** stability: within a class of mutually [le]-equivalent elements order is kept *)
  Lemma insert_by_filter (p : A -> bool) x l :
    StronglySorted (fun a b => le a b = true) l ->
    (forall a b, p a = true -> p b = true -> le a b = true) ->
    filter p (insert_by le x l) = filter p (x :: l).
  Proof.
    intros Hs Hp. induction Hs as [|y l Hl IH Hf]; simpl; [reflexivity|].
    destruct (le x y) eqn:E; simpl; [reflexivity|].
    rewrite IH. simpl. destruct (p x) eqn:Ex; destruct (p y) eqn:Ey; try reflexivity.
    rewrite (Hp x y Ex Ey) in E. discriminate.
  Qed.
  Lemma sort_by_filter (p : A -> bool) l :
    (forall a b, p a = true -> p b = true -> le a b = true) ->
    filter p (sort_by le l) = filter p l.
  Proof.
    intro Hp. induction l as [|x l IH]; simpl; [reflexivity|].
    rewrite insert_by_filter; [|apply sort_by_sorted|assumption].
    simpl. rewrite IH. reflexivity.
  Qed.
End SortBy.

Lemma StronglySorted_impl A (R S : A -> A -> Prop) l :
  (forall a b, R a b -> S a b) -> StronglySorted R l -> StronglySorted S l.
Proof.
  intros H. induction 1 as [|x l Hl IH Hf]; constructor; [assumption|].
  eapply Forall_impl; [|eassumption]. auto.
Qed.
Lemma sort_asc_sorted A (key : A -> Qc) l :
  StronglySorted (fun a b => key a <= key b) (sort_asc key l).
Proof.
  eapply StronglySorted_impl; [|apply sort_by_sorted].
  - intros a b H; simpl in H. apply qleb_le; exact H.
  - intros a b. qcase; auto; exfalso; qlra.
  - intros a b c. qcase; auto; exfalso; qlra.
Qed.
Lemma sort_desc_sorted A (key : A -> Qc) l :
  StronglySorted (fun a b => key b <= key a) (sort_desc key l).
Proof.
  eapply StronglySorted_impl; [|apply sort_by_sorted].
  - intros a b H; simpl in H. apply qleb_le; exact H.
  - intros a b. qcase; auto; exfalso; qlra.
  - intros a b c. qcase; auto; exfalso; qlra.
Qed.
Lemma sort_asc_stable A (key : A -> Qc) l v :
  filter (fun a => qeqb (key a) v) (sort_asc key l) = filter (fun a => qeqb (key a) v) l.
Proof.
  apply sort_by_filter.
  - intros a b. qcase; auto; exfalso; qlra.
  - intros a b c. qcase; auto; exfalso; qlra.
  - intros a b Ha Hb. apply qeqb_eq in Ha. apply qeqb_eq in Hb. apply qleb_le. rewrite Ha, Hb. apply Qcle_refl.
Qed.
Lemma sort_desc_stable A (key : A -> Qc) l v :
  filter (fun a => qeqb (key a) v) (sort_desc key l) = filter (fun a => qeqb (key a) v) l.
Proof.
  apply sort_by_filter.
  - intros a b. qcase; auto; exfalso; qlra.
  - intros a b c. qcase; auto; exfalso; qlra.
  - intros a b Ha Hb. apply qeqb_eq in Ha. apply qeqb_eq in Hb. apply qleb_le. rewrite Ha, Hb. apply Qcle_refl.
Qed.

(** [np.unique]: sorted distinct elements. *)
Fixpoint uinsert {A} (lt : A -> A -> bool) (x : A) (l : list A) : list A :=
  match l with
  | [] => [x]
  | y :: l' => if lt x y then x :: y :: l' else if lt y x then y :: uinsert lt x l' else y :: l'
  end.
Definition unique_by {A} (lt : A -> A -> bool) (l : list A) : list A :=
  fold_right (uinsert lt) [] l.
Definition qunique := unique_by qltb.
Definition zunique := unique_by Z.ltb.

Section Unique.
  Context {A : Type} (lt : A -> A -> bool).
  Hypothesis lt_trans : forall a b c, lt a b = true -> lt b c = true -> lt a c = true.
  Hypothesis lt_irrefl : forall a, lt a a = false.
  Hypothesis lt_total : forall a b, lt a b = false -> lt b a = false -> a = b.
  Lemma uinsert_In x y l : In y (uinsert lt x l) <-> y = x \/ In y l.
  Proof.
    induction l as [|z l IH]; simpl; [split; intros [?|?]; auto|].
    destruct (lt x z) eqn:E1; [simpl; split; intros [?|?]; auto|].
    destruct (lt z x) eqn:E2.
    - simpl. rewrite IH. tauto.
    - assert (x = z) by auto. subst. simpl. split; [auto|intros [->|?]; auto].
  Qed.
  Lemma unique_by_In y l : In y (unique_by lt l) <-> In y l.
  Proof.
    induction l as [|x l IH]; simpl; [tauto|]. rewrite uinsert_In, IH.
    split; intros [?|?]; auto.
  Qed.
  Lemma uinsert_sorted x l : StronglySorted (fun a b => lt a b = true) l ->
    StronglySorted (fun a b => lt a b = true) (uinsert lt x l).
  Proof.
    induction 1 as [|z l Hl IH Hf]; simpl; [repeat constructor|].
    destruct (lt x z) eqn:E1.
    - constructor; [constructor; assumption|]. constructor; [assumption|].
      eapply Forall_impl; [|eassumption]. intros w Hw. eapply lt_trans; eassumption.
    - destruct (lt z x) eqn:E2.
      + constructor; [assumption|]. apply Forall_forall. intros w Hw.
        apply uinsert_In in Hw. destruct Hw as [->|Hw]; [assumption|].
        rewrite Forall_forall in Hf. auto.
      + constructor; assumption.
  Qed.
  Lemma unique_by_sorted l : StronglySorted (fun a b => lt a b = true) (unique_by lt l).
  Proof. induction l as [|x l IH]; simpl; [constructor|]. apply uinsert_sorted; assumption. Qed.
  Lemma sorted_NoDup l : StronglySorted (fun a b => lt a b = true) l -> NoDup l.
  Proof.
    induction 1 as [|x l Hl IH Hf]; constructor; [|assumption].
    intro Hx. rewrite Forall_forall in Hf. specialize (Hf x Hx). rewrite lt_irrefl in Hf. discriminate.
  Qed.
  Lemma unique_by_NoDup l : NoDup (unique_by lt l).
  Proof. apply sorted_NoDup, unique_by_sorted. Qed.
  Lemma sorted_ext l l' :
    StronglySorted (fun a b => lt a b = true) l -> StronglySorted (fun a b => lt a b = true) l' ->
    (forall x, In x l <-> In x l') -> l = l'.
  Proof.
    intro Hl. revert l'. induction Hl as [|x l Hl IH Hf]; intros l' Hl' Hin.
    - destruct l' as [|y l']; [reflexivity|]. exfalso. apply (Hin y). left; reflexivity.
    - destruct Hl' as [|y l' Hl' Hf'].
      + exfalso. apply (Hin x). left; reflexivity.
      + rewrite Forall_forall in Hf, Hf'.
        assert (x = y).
        { destruct (proj1 (Hin x) (or_introl eq_refl)) as [?|Hx]; [auto|].
          destruct (proj2 (Hin y) (or_introl eq_refl)) as [?|Hy]; [auto|].
          specialize (Hf y Hy). specialize (Hf' x Hx).
          pose proof (lt_trans Hf Hf') as C. rewrite lt_irrefl in C. discriminate. }
        subst y. f_equal. apply IH; [assumption|]. intro z. split; intro Hz.
        * destruct (proj1 (Hin z) (or_intror Hz)) as [->|?]; [|assumption].
          specialize (Hf z Hz). rewrite lt_irrefl in Hf. discriminate.
        * destruct (proj2 (Hin z) (or_intror Hz)) as [->|?]; [|assumption].
          specialize (Hf' z Hz). rewrite lt_irrefl in Hf'. discriminate.
  Qed.
End Unique.

Lemma qltb_trans a b c : qltb a b = true -> qltb b c = true -> qltb a c = true.
Proof. rewrite !qltb_lt. intros; qlra. Qed.
Lemma qltb_irrefl a : qltb a a = false. Proof. apply qltb_ge, Qcle_refl. Qed.
Lemma qltb_total a b : qltb a b = false -> qltb b a = false -> a = b.
Proof. rewrite !qltb_ge. intros; qlra. Qed.
Lemma zltb_trans a b c : Z.ltb a b = true -> Z.ltb b c = true -> Z.ltb a c = true.
Proof. rewrite !Z.ltb_lt. lia. Qed.
Lemma zltb_total a b : Z.ltb a b = false -> Z.ltb b a = false -> a = b.
Proof. rewrite !Z.ltb_ge. lia. Qed.
Lemma qunique_In x l : In x (qunique l) <-> In x l.
Proof. apply unique_by_In. exact qltb_total. Qed.
Lemma zunique_In x l : In x (zunique l) <-> In x l.
Proof. apply unique_by_In. exact zltb_total. Qed.
Lemma qunique_sorted l : StronglySorted Qclt (qunique l).
Proof.
  eapply StronglySorted_impl; [|apply (unique_by_sorted qltb qltb_trans qltb_total)].
  intros a b; apply qltb_lt.
Qed.
Lemma zunique_sorted l : StronglySorted Z.lt (zunique l).
Proof.
  eapply StronglySorted_impl; [|apply (unique_by_sorted Z.ltb zltb_trans zltb_total)].
  intros a b; apply Z.ltb_lt.
Qed.
Lemma qunique_NoDup l : NoDup (qunique l).
Proof. apply unique_by_NoDup; [exact qltb_trans|exact qltb_irrefl|exact qltb_total]. Qed.
Lemma zunique_NoDup l : NoDup (zunique l).
Proof. apply unique_by_NoDup; [exact zltb_trans|exact Z.ltb_irrefl|exact zltb_total]. Qed.

(* ------------------------------------------------------------------ *)
(** ** Sums, counting, zip                                             *)

Definition qsum (l : list Qc) : Qc := fold_right Qcplus 0 l.
Lemma qsum_nil : qsum [] = 0. Proof. reflexivity. Qed.
Lemma qsum_cons x l : qsum (x :: l) = x + qsum l. Proof. reflexivity. Qed.
Lemma qsum_app l1 l2 : qsum (l1 ++ l2) = qsum l1 + qsum l2.
Proof.
  induction l1 as [|x l1 IH]; cbn [app]; [rewrite qsum_nil; ring|].
  rewrite !qsum_cons, IH. ring.
Qed.
Lemma qsum_perm l l' : Permutation l l' -> qsum l = qsum l'.
Proof.
  induction 1 as [|x l l' P IH|x y l|l1 l2 l3 P1 IH1 P2 IH2]; rewrite ?qsum_cons.
  - reflexivity.
  - rewrite IH; reflexivity.
  - ring.
  - congruence.
Qed.
Lemma qsum_nonneg l : Forall (fun x => 0 <= x) l -> 0 <= qsum l.
Proof.
  induction 1 as [|x l Hx Hl IH]; [apply Qcle_refl|]. rewrite qsum_cons. qlra.
Qed.
Lemma qsum_map_mult A (f : A -> Qc) c l : qsum (map (fun x => c * f x) l) = c * qsum (map f l).
Proof.
  induction l as [|x l IH]; cbn [map]; [rewrite qsum_nil; ring|].
  rewrite !qsum_cons, IH. ring.
Qed.
Lemma qsum_map_plus A (f g : A -> Qc) l :
  qsum (map (fun x => f x + g x) l) = qsum (map f l) + qsum (map g l).
Proof.
  induction l as [|x l IH]; cbn [map]; [rewrite qsum_nil; ring|].
  rewrite !qsum_cons, IH. ring.
Qed.
Lemma qsum_map_le A (f g : A -> Qc) l :
  (forall x, In x l -> f x <= g x) -> qsum (map f l) <= qsum (map g l).
Proof.
  induction l as [|x l IH]; cbn [map]; intro H; [apply Qcle_refl|].
  rewrite !qsum_cons. assert (f x <= g x) by (apply H; left; reflexivity).
  assert (qsum (map f l) <= qsum (map g l)) by (apply IH; intros; apply H; right; assumption).
  qlra.
Qed.
Lemma qsum_map_zero A (f : A -> Qc) l : (forall x, In x l -> f x = 0) -> qsum (map f l) = 0.
Proof.
  induction l as [|x l IH]; cbn [map]; intro H; [reflexivity|].
  rewrite qsum_cons, IH, (H x); [ring|left; reflexivity|intros; apply H; right; assumption].
Qed.
Lemma qsum_zero_all l : Forall (fun x => 0 <= x) l -> qsum l = 0 -> Forall (fun x => x = 0) l.
Proof.
  induction 1 as [|x l Hx Hl IH]; intro H; constructor.
  - rewrite qsum_cons in H. pose proof (qsum_nonneg Hl). qlra.
  - apply IH. rewrite qsum_cons in H. pose proof (qsum_nonneg Hl). qlra.
Qed.
Lemma qsum_const A c (l : list A) : qsum (map (fun _ => c) l) = qn (List.length l) * c.
Proof.
  induction l as [|x l IH]; cbn [map List.length]; [rewrite qsum_nil, qn_0; ring|].
  rewrite qsum_cons, IH, qn_S. ring.
Qed.

Definition countb {A} (p : A -> bool) (l : list A) : nat := List.length (filter p l).
Lemma countb_le A (p : A -> bool) l : (countb p l <= List.length l)%nat.
Proof. unfold countb. induction l as [|x l IH]; simpl; [lia|]. destruct (p x); simpl; lia. Qed.

Definition zip {A B} (l : list A) (l' : list B) : list (A * B) := combine l l'.
Fixpoint map2 {A B C} (f : A -> B -> C) (l : list A) (l' : list B) : list C :=
  match l, l' with
  | x :: l, y :: l' => f x y :: map2 f l l'
  | _, _ => []
  end.
Lemma map2_length A B C (f : A -> B -> C) l l' :
  List.length (map2 f l l') = Nat.min (List.length l) (List.length l').
Proof. revert l'. induction l as [|x l IH]; intros [|y l']; simpl; auto. Qed.
Lemma map2_zip A B C (f : A -> B -> C) l l' :
  map2 f l l' = map (fun p => f (fst p) (snd p)) (zip l l').
Proof. revert l'. induction l as [|x l IH]; intros [|y l']; simpl; [| | |rewrite IH]; reflexivity. Qed.

(** mean of a list ([np.mean]); the empty mean is numpy's NaN, modelled as [None] *)
Definition qmean (l : list Qc) : option Qc :=
  match l with [] => None | _ => Some (qsum l / qn (List.length l)) end.

(** ** Cells of a data table: a number or a category *)
Inductive cell := CNum (x : Qc) | CStr (s : string).
#[export] Instance eqd_cell : EqDec cell.
Proof. intros x y. pose proof Qc_eq_dec. pose proof string_dec. decide equality. Defined.

(** closes concrete equations between computed results containing rationals *)
Ltac qex_step := first [reflexivity | (apply Qc_is_canon; reflexivity) | (progress f_equal; qex_step)].
Ltac qex := vm_compute; qex_step.
