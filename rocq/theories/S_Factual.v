(** * Specification vocabulary for factual explanations *)
From Verif Require Import Prelude M_Rule.
Set Implicit Arguments.
Open Scope Qc_scope.

Section Spec.
  (** [deg r]: the degree to which the instance matches rule [r] *)
  Context {V : Type} (deg : rule V -> Qc).
  (** association degree *)
  Definition ad (r : rule V) : Qc := deg r * r_weight r.
  (** the rules of class [c] fired with degree above 0.001, in rule-base order *)
  Definition class_fired (c : Z) (rules : list (rule V)) : list (rule V) :=
    filter (fun r => qltb (qc 1 1000) (deg r) && Z.eqb (r_cons r) c) rules.
  (** [s] lists them by decreasing association degree, ties in rule-base order *)
  Definition ranked (c : Z) (rules s : list (rule V)) : Prop :=
    Permutation s (class_fired c rules) /\ StronglySorted (fun a b => ad b <= ad a) s /\
    forall v, filter (fun r => qeqb (ad r) v) s = filter (fun r => qeqb (ad r) v) (class_fired c rules).
  Definition mass_of (l : list (rule V)) : Qc := qsum (map ad l).
  (** total association degree of a class over all rules *)
  Definition class_total (rules : list (rule V)) (c : Z) : Qc := mass_of (filter (fun r => Z.eqb (r_cons r) c) rules).
  (** [T] is the largest total of a class other than [c] *)
  Definition largest_other (rules : list (rule V)) (c : Z) (T : Qc) : Prop :=
    (exists r, In r rules /\ r_cons r <> c /\ class_total rules (r_cons r) = T) /\
    forall r, In r rules -> r_cons r <> c -> class_total rules (r_cons r) <= T.
  (** between position [i] of [s] and the next one the quotient of association degrees exceeds
      1 + lam and the mass up to [i] has reached beta *)
  Definition jump (lam : Qc) (beta : option Qc) (s : list (rule V)) (i : nat) : Prop :=
    exists a b, nth_error s i = Some a /\ nth_error s (S i) = Some b /\ 1 + lam < ad a / ad b /\
      match beta with None => True | Some m => m <= mass_of (firstn (S i) s) end.
End Spec.
(** ordering of the optional mass: None imposes nothing *)
Definition beta_le (b b' : option Qc) : Prop :=
  match b, b' with None, _ => True | Some x, Some y => x <= y | Some _, None => False end.
