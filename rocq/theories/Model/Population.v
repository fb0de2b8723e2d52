(** * Questions a population answers: population.py, subpopulation.py. *)
From Verif.Model Require Export Evolution.
Open Scope nat_scope.
Open Scope list_scope.

(** subpopulation.py 180-181.  Individuals define no __eq__, so [in] looks for the object itself; individuals that were not
    created yet are None. *)
Definition contains_individual (s : subpop) (o : oid) : res bool :=
  match sp_inds s with
  | None => Raise TypeError
  | Some l => Ok (existsb (Nat.eqb o) l)
  end.

(** population.py 19-26; the answer is the position of the subpopulation instead of the object. *)
Fixpoint find_individual_subpopulation (pop : list subpop) (o : oid) : res nat :=
  match pop with
  | [] => Raise ValueError
  | s :: rest =>
      rbind (contains_individual s o) (fun b =>
      if b then Ok 0 else rbind (find_individual_subpopulation rest o) (fun k => Ok (S k)))
  end.

(** population.py 28-41 *)
Definition get_best_individuals (pop : list subpop) : M (list oid) := mapM get_best_individual pop.
Definition get_worst_individuals (pop : list subpop) : M (list oid) := mapM get_worst_individual pop.
Definition get_average_fitnesses (pop : list subpop) : M (list num) := mapM get_average_fitness pop.
