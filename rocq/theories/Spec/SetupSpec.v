(** * Vocabulary for the arguments of constructors. *)
From Verif.Model Require Import Setup.
Open Scope nat_scope.
Open Scope list_scope.

(** A creator, or a list of creators. *)
Definition given_creators (a : creators_arg) (cs : list creator) : Prop :=
  (exists c, a = CrOne c /\ cs = [c]) \/ a = CrList (map Some cs).

(** A population, a subpopulation, or a non-empty list of subpopulations. *)
Definition given_population (a : population_arg) (pop : list subpop) : Prop :=
  a = PoPopulation pop \/ (exists s, a = PoOne s /\ pop = [s]) \/ (pop <> [] /\ a = PoList (map Some pop)).

(** Nothing, a statistics object, or a list of [k] of them. *)
Definition given_statistics (a : statistics_arg) (k : nat) : Prop :=
  (a = StNone /\ k = 0) \/ (a = StOne /\ k = 1) \/ a = StList (repeat true k).

(** Nothing, or an evaluator. *)
Definition given_evaluator (a : evaluator_arg) (m : exec_method) : Prop := (a = EvNone /\ m = ByMap) \/ a = EvSimple m.
