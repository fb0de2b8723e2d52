(** * Vocabulary for runs that go on where another one ended. *)
From Verif.Model Require Import World Evolution.
Open Scope nat_scope.
Open Scope list_scope.

(** The same individual, except for the number of its generation. *)
Definition same_but_gen (i j : ind) : Prop := i = set_gen (i_gen i) j.

(** A new algorithm for [m] more generations, without termination checkers, which is given the population of [a] and its last generation seed;
    its random_seed may be any. *)
Definition resumes (m : nat) (a b : algo) : Prop :=
  a_pop b = a_pop a /\ a_max_gen b = m /\ a_checkers b = [] /\ a_gen_seed b = a_gen_seed a /\ a_method b = ByMap /\ a_alive b = true /\ a_trace b = [].
