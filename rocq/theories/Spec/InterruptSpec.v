(** * Vocabulary for runs that end with an exception. *)
From Verif.Model Require Import Evolution.
From Verif.Spec Require Import WorldSpec EvoSpec.
Open Scope nat_scope.
Open Scope list_scope.

(** The run was broken off before its end: in the initialization, in the first check, or after [k] complete generations in
    the next one, of which only a part [done] happened.  Nobody was told that the evolution finished, final_generation_ is
    what it was, the executor has not been shut down, and no checker had asked to stop. *)
Definition broken_off (a a' : algo) : Prop :=
  a_final a' = a_final a /\ a_alive a' = a_alive a /\ (forall c, In c (checks (a_trace a')) -> ~ some_true c) /\
  ((map kind_of (a_trace a') = [Seed] /\ a_gen_num a' = a_gen_num a /\ a_best_run a' = a_best_run a) \/
   (map kind_of (a_trace a') = [Seed; Eval; Publish "init"] /\ a_gen_num a' = a_gen_num a) \/
   exists k done rest, k < a_max_gen a /\ a_gen_num a' = S k /\ generation_events = done ++ rest /\ 2 <= length rest /\
     map kind_of (a_trace a') = [Seed; Eval; Publish "init"; Check] ++ concat (repeat generation_events k) ++ done /\
     published "after_generation" (a_trace a') = seq 1 k).

(** The algorithm object as it is, with a new record of events. *)
Definition anew (a : algo) : algo :=
  mkAlgo (a_pop a) (a_max_gen a) (a_checkers a) (a_random_seed a) (a_gen_seed a) (a_method a) (a_alive a) (a_best_run a)
    (a_best_gen a) (a_worst_gen a) (a_gen_num a) (a_final a) (a_stats a) [].

(** Where [ev] gives a value, [ev'] gives the same. *)
Definition agrees (ev ev' : genome -> res fval) : Prop := forall g v, ev g = Ok v -> ev' g = Ok v.
