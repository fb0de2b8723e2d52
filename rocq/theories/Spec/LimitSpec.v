(** * Vocabulary for runs that differ in when they stop. *)
From Verif.Model Require Import Evolution.
Open Scope nat_scope.
Open Scope string_scope.
Open Scope list_scope.

(** The same algorithm with another max_generation and other termination checkers. *)
Definition limited (max : nat) (checkers : list checker) (a : algo) : algo :=
  mkAlgo (a_pop a) max checkers (a_random_seed a) (a_gen_seed a) (a_method a) (a_alive a) (a_best_run a) (a_best_gen a) (a_worst_gen a)
    (a_gen_num a) (a_final a) (a_stats a) (a_trace a).

(** What a run does: seeding, evaluating (which individuals) and breeding. *)
Definition does (e : tev) : bool := match e with TSeed _ | TEval _ | TBreed => true | TCheck _ | TPublish _ _ _ _ => false end.
Definition doings (tr : list tev) : list tev := filter does tr.

(** What subscribers of after_generation are given. *)
Definition after_generations (tr : list tev) : list tev :=
  filter (fun e => match e with TPublish n _ _ _ => String.eqb n "after_generation" | _ => false end) tr.

(** The same population, best and worst individuals, generation number and seed. *)
Definition same_results (a b : algo) : Prop :=
  a_pop a = a_pop b /\ a_best_run a = a_best_run b /\ a_best_gen a = a_best_gen b /\ a_worst_gen a = a_worst_gen b /\
  a_gen_num a = a_gen_num b /\ a_gen_seed a = a_gen_seed b.

(** The second run starts like the first one: it does the same and then possibly more; if nothing more, it ends with the same
    individuals and results; and if the first run got to breeding, the subscribers are given the same, and then possibly more. *)
Definition continues (r1 r2 : algo * world) : Prop :=
  (exists more, doings (a_trace (fst r2)) = doings (a_trace (fst r1)) ++ more /\
     (more = [] -> snd r2 = snd r1 /\ same_results (fst r1) (fst r2))) /\
  (In TBreed (a_trace (fst r1)) ->
   exists more, after_generations (a_trace (fst r2)) = after_generations (a_trace (fst r1)) ++ more).
