(** * C85: what the listeners of an algorithm are told. *)
From Coq Require Import QArith Permutation.
From Verif.Model Require Import Evolution Nsga2 Statistics.
From Verif.Spec Require Import WorldSpec EvoSpec Nsga2Spec AnnounceSpec.
From Verif.Proofs Require Import AnnounceP.
From Verif.Props Require Import CompleteProps StatProps.
From Verif.Props Require Nsga2Props.
From Verif.Model Require Import Evolution Nsga2 Statistics.
Open Scope nat_scope.
Open Scope string_scope.
Open Scope list_scope.

(** However the run ends. *)
Theorem C85_told : forall ev sched stats a w r a' w' out', a_trace a = [] ->
  evolve_all ev sched listeners stats ((a, w), []) = (r, ((a', w'), out')) ->
  announced (simple_tells a) (a_trace a') (heard out').
Proof. exact told_simple. Qed.
Print Assumptions C85_told.

Theorem C85_moo_told : forall ev sched so d stats a w r a' w' out', any_order so -> a_trace a = [] ->
  nsga2_evolve_all ev sched so d listeners stats ((a, w), []) = (r, ((a', w'), out')) ->
  announced (moo_tells a) (a_trace a') (heard out').
Proof. exact told_moo. Qed.
Print Assumptions C85_moo_told.

Theorem C85_last : forall ev sched stats a w a' w' out',
  evolve_all ev sched listeners stats ((a, w), []) = (Ok tt, ((a', w'), out')) ->
  left_as_told a' (DIndividual (a_best_gen a')) (heard out').
Proof. exact last_simple. Qed.
Print Assumptions C85_last.

Theorem C85_moo_last : forall ev sched so d stats a w a' w' out', any_order so -> a_trace a = [] ->
  nsga2_evolve_all ev sched so d listeners stats ((a, w), []) = (Ok tt, ((a', w'), out')) -> 2 <= length (evals (a_trace a')) ->
  exists fs, left_as_told a' (DFronts fs) (heard out') /\ first_fronts w' fs (a_pop a').
Proof. exact last_moo. Qed.
Print Assumptions C85_moo_last.

(** The run of C72, which goes on for two generations, and one that stops at the initial population; the names and the
    best of the generation. *)
Definition best_told (l : list (string * told)) : list (string * list datum) :=
  map (fun e => (fst e, map snd (filter (fun x => String.eqb (fst x) "best_of_gen") (snd e)))) l.

Example C85_example :
  match observed [CkThreshold (Fin 9) (Fin 0)] listeners [SMinimal] with
  | (Ok tt, ((a, _), out)) => best_told (heard out) =
      [("init", []); ("after_generation", [DIndividual (Some 4)]); ("after_generation", [DIndividual (Some 12)]); ("evolution_finished", [DIndividual (Some 12)])] /\
      length (evals (a_trace a)) = 3
  | _ => False
  end /\
  match observed [CkThreshold (Fin 0) (Fin 100)] listeners [SMinimal] with
  | (Ok tt, ((a, _), out)) => best_told (heard out) = [("init", []); ("after_generation", [DIndividual None]); ("evolution_finished", [DIndividual None])] /\
      a_best_run a <> None
  | _ => False
  end.
Proof. vm_compute. repeat split; discriminate. Qed.

Example C85_moo_example : any_order Nsga2Props.reversed /\
  match nsga2_evolve_all Nsga2Props.two_objectives Nsga2Props.forwards Nsga2Props.reversed true listeners [] ((Nsga2Props.moo_algo 2, Nsga2Props.moo_start), []) with
  | (Ok tt, ((a, w), out)) => best_told (heard out) =
      [("init", []); ("after_generation", [DFronts [[2; 0]]]); ("after_generation", [DFronts [[6; 2]]]); ("evolution_finished", [DFronts [[6; 2]]])] /\ length (evals (a_trace a)) = 3
  | _ => False
  end.
Proof. split; [exact Nsga2Props.is_any_order|]. vm_compute. repeat split. Qed.
