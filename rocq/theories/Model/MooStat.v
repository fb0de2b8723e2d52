(** * The multi-objective statistics as a subscriber.

    Cites: eckity/multi_objective_evolution/moe_best_worst_statistics.py 31-79.

    Simplifications: the attributes of all members are read before anything is computed from them; a printed text is its list of
    values, without the percentage; a corner is a list value.  The statistics object is here a callback registered for
    after_generation; it is called before all other statistics. *)
From Verif.Model Require Export Statistics.
Open Scope nat_scope.
Open Scope list_scope.

(** [front_rank], [crowding] and [get_pure_fitness()] of a member. *)
Definition front_member (o : oid) : M (num * num * list num) :=
  i <- load o ;;
  match ft_class (i_fit i) with
  | KNSGA2 =>
      v <- lift (get_pure_fitness (i_fit i)) ;;
      match v with
      | VList l => ret (ft_rank (i_fit i), ft_crowding (i_fit i), l)
      | _ => raise TypeError
      end
  | _ => raise AttributeError
  end.

Fixpoint write_fronts (index : nat) (pop : list subpop) : O unit :=
  match pop with
  | [] => ret tt
  | s :: rest =>
      ms <- liftA (liftM (mapM front_member (inds_of s))) ;;
      r <- lift (moe_statistics ms) ;;
      match r with
      | (first, last_rank, lst, count) =>
          info (LSubpop index) ;;; info (LValues [VNum last_rank; VNum (nof_nat count)]) ;;;
          info (LValues (map VList first)) ;;; info (LValues (map VList lst)) ;;;
          write_fronts (S index) rest
      end
  end.

Definition moe_best_worst (d : told) : O unit :=
  a <- liftA algo_get ;;
  info (LGeneration (a_gen_num a)) ;;;
  write_fronts 0 (a_pop a).

(** The statistics among the callbacks of an algorithm. *)
Definition fronts_shown (name : string) : list (told -> O unit) :=
  if String.eqb name "after_generation" then [moe_best_worst] else [].
