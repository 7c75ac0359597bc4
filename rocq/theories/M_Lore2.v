(** * Model of the functions around the LORE generator: gpdatagenerator.random_init, genetic_neighborhood_old, dataframe2explain *)
From Verif Require Import Prelude M_Fuzzy M_Neighborhood M_Sampling M_Genetic M_Utils M_Lore.
Open Scope Qc_scope.

(** gpdatagenerator.py:15-21 random_init: np.random.choice(values, 1)[0] for every entry, in the order of the dictionary;
    [seed k]: the draw for key [k].  Choosing from no values raises ValueError *)
Definition gp_random_init (seed : nat -> nat) (feature_values : dict nat (list Qc)) : res (list Qc) :=
  mapM (fun kv : nat * list Qc => ret_opt ValueError (nth_error (snd kv) (seed (fst kv) mod List.length (snd kv)))) feature_values.

(** l[i] for an int i: negative ones count from the end *)
Definition pyget {A} (l : list A) (i : Z) : res A :=
  if Z.ltb i 0 then
    if Z.ltb (i + Z.of_nat (List.length l)) 0 then Err IndexError else lget l (Z.to_nat (i + Z.of_nat (List.length l)))
  else lget l (Z.to_nat i).

Section Neighbor.
  Variable bb : list Qc -> Z.
  Variable class_name : string.
  Variable ds : dataset.
  (** neighbor_generator.py:8-27 genetic_neighborhood_old (18-21: its distance_function is [lore_distance]); its argument dfZ
      is not used *)
  Definition genetic_neighborhood_old (feature_values : dict nat (list Qc)) (rnd : nat -> nat -> ea_draws) (hall : nat -> list nat)
      (x : list Qc) : res (frame * list (list Qc)) :=
    do discrete_no_class <- list_remove class_name (ds_discrete ds);
    do Z <- generate_data bb (lore_distance class_name ds discrete_no_class) (ds_idx ds) feature_values rnd hall x
              (NDict [("ss", qc 1 2); ("sd", qc 1 2)]%string) 1000 (qc 1 10) (qc 1 2) (qc 1 2) 1 0 (qc 1 2) (qc 1 5) 10;
    do df <- explain_frame bb ds Z;
    Ok (df, Z).
  (** util.py:206-217 dataframe2explain *)
  Definition dataframe2explain (X2E : list (list Qc)) (idx : Z) : res (frame * list Qc) :=
    do x <- pyget X2E idx;
    do df <- explain_frame bb ds X2E;
    Ok (df, x).
End Neighbor.
