(** * Model of src/teacher/explanation/_factual.py *)
From Verif Require Import Prelude M_Fuzzy M_Rule M_Metrics.
Set Implicit Arguments.
Open Scope Qc_scope.

Section Factual.
  (** [mt r] is rule.matching(instance) for the instance at hand: [matching m r], or
      [matching_multi m r] for rules with multiple_antecedents *)
  Context {V : Type} (mt : rule V -> res Qc).

  (** _factual.py:18-38 _fired_rules *)
  Definition fired_rules (threshold : Qc) (rules : list (rule V)) : res (list (rule V)) :=
    do ms <- mapM mt rules;
    Ok (map fst (filter (fun rm => qltb threshold (snd rm)) (zip rules ms))).
  (** _factual.py:41-43 _get_class_value_rules *)
  Definition class_rules (c : Z) (rules : list (rule V)) : list (rule V) :=
    filter (fun r => Z.eqb (r_cons r) c) rules.
  (** association degree: rule.matching(instance) * rule.weight *)
  Definition assoc (r : rule V) : res Qc := do m <- mt r; Ok (m * r_weight r).
  (** the default threshold 0.001 of _fired_rules *)
  Definition fire_th : Qc := qc 1 1000.
  (** _factual.py:105-107, 131-133, 171-173: fired rules of the class with their association
      degrees, sorted by decreasing degree (list.sort is stable, also with reverse=True) *)
  Definition sorted_class (c : Z) (rules : list (rule V)) : res (list (Qc * rule V)) :=
    do fired <- fired_rules fire_th rules;
    do ads <- mapM (fun r => do a <- assoc r; Ok (a, r)) (class_rules c fired);
    Ok (sort_desc fst ads).

  (** _factual.py:86-109 m_factual *)
  Definition m_factual (rules : list (rule V)) (c : Z) : res (list (rule V)) :=
    do s <- sorted_class c rules;
    do avg <- pdiv (fold_left (fun x ar => x + fst ar) s 0) (qn (List.length s));
    Ok (map snd (filter (fun ar => qleb avg (fst ar)) s)).

  (** _factual.py:46-58 _robust_threshold *)
  Definition robust_threshold (rules : list (rule V)) (c : Z) : res Qc :=
    do all_th <- mapM (fun cv =>
        foldM (fun th r => if Z.eqb (r_cons r) cv then do a <- assoc r; Ok (th + a) else Ok th) 0 rules)
      (zunique (filter (fun k => negb (Z.eqb k c)) (map (@r_cons V) rules)));
    qmaximum all_th.
  (** _factual.py:136-142: the loop of mr_factual *)
  Fixpoint take_until (th sum : Qc) (s : list (Qc * rule V)) : list (Qc * rule V) :=
    match s with
    | [] => []
    | ar :: s' => if qltb th sum then [] else ar :: take_until th (sum + fst ar) s'
    end.
  (** _factual.py:112-143 mr_factual *)
  Definition mr_factual (rules : list (rule V)) (c : Z) : res (list (rule V)) :=
    do s <- sorted_class c rules;
    do th <- robust_threshold rules c;
    Ok (map snd (take_until th 0 s)).

  (** _factual.py:175-186: the loop of c_factual *)
  Fixpoint take_quotient (lam : Qc) (beta : option Qc) (prev sum : Qc) (s : list (Qc * rule V)) : res (list (Qc * rule V)) :=
    match s with
    | [] => Ok []
    | ar :: s' =>
        do factor <- pdiv prev (fst ar);
        if qltb (1 + lam) factor && match beta with None => true | Some b => qleb b sum end then Ok []
        else do rest <- take_quotient lam beta (fst ar) (sum + fst ar) s'; Ok (ar :: rest)
    end.
  (** _factual.py:146-188 c_factual *)
  Definition c_factual (rules : list (rule V)) (c : Z) (lam : Qc) (beta : option Qc) : res (list (rule V)) :=
    do s <- sorted_class c rules;
    match s with
    | [] => Err IndexError
    | ar :: s' => do rest <- take_quotient lam beta (fst ar) (fst ar) s'; Ok (map snd (ar :: rest))
    end.

  (** _factual.py:61-83 FID3_factual *)
  Definition FID3_factual (rules : list (rule V)) (threshold : Qc) : res (rule V) :=
    do fired <- fired_rules threshold rules;
    do ms <- mapM (fun r => do m <- mt r; Ok (m, r)) fired;
    do b <- ret_opt ValueError (max_by (fun a b => qltb (fst a) (fst b)) ms);
    Ok (snd b).
End Factual.
