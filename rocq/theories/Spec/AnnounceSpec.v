(** * Vocabulary for what the listeners of an algorithm are told. *)
From Verif.Model Require Import Statistics.
From Verif.Spec Require Import WorldSpec EvoSpec.
Open Scope nat_scope.
Open Scope string_scope.
Open Scope list_scope.

(** A listener for every event that notes what it is given, and what it has noted. *)
Definition listeners (name : string) : list (told -> O unit) := [fun d => info (LTold name d)].
Definition heard (out : list line) : list (string * told) :=
  flat_map (fun l => match l with LTold name d => [(name, d)] | _ => [] end) out.

(** Each publication among the events [tr] was told, in this order and as [tells] says (given the events before). *)
Inductive announced (tells : list tev -> string -> nat -> option oid -> told -> Prop) : list tev -> list (string * told) -> Prop :=
| an_nil : announced tells [] []
| an_other tr e l : (forall name, kind_of e <> Publish name) -> announced tells tr l -> announced tells (tr ++ [e]) l
| an_told tr name g b i d l : announced tells tr l -> tells tr name g b d ->
    announced tells (tr ++ [TPublish name g b i]) (l ++ [(name, d)]).

(** The data of the event "init" and of the others. *)
Definition at_first (max : nat) (pop : list subpop) : told :=
  [("population", DPopulation pop); ("statistics", DObject "statistics"); ("breeder", DObject "breeder");
   ("termination_checker", DObject "termination_checker"); ("max_generation", DNumber max);
   ("events", DObject "events"); ("max_workers", DObject "max_workers")].
Definition afterwards (pop : list subpop) (best : option oid) (best_of_gen : datum) (g : nat) : told :=
  [("population", DPopulation pop); ("best_of_run_", DIndividual best); ("best_of_gen", best_of_gen); ("generation_num", DNumber g)].

(** SimpleEvolution, started as [a]: the population is the one evaluated last; best_of_gen is of it, or what the constructor was
    given if there was no generation yet. *)
Definition simple_tells (a : algo) (tr : list tev) (name : string) (g : nat) (b : option oid) (d : told) : Prop :=
  exists pop, evals tr <> [] /\ flat_map inds_of pop = last (evals tr) [] /\
    ((name = "init" /\ length (evals tr) = 1 /\ d = at_first (a_max_gen a) pop ++ [("generation_num", DNumber g)]) \/
     (name <> "init" /\ exists o, d = afterwards pop b (DIndividual o) g /\
        (length (evals tr) = 1 -> o = a_best_gen a) /\ (2 <= length (evals tr) -> exists x, o = Some x /\ In x (last (evals tr) [])))).

(** NSGA2Evolution: the population consists of some that were evaluated last, and best_of_gen is a part of each subpopulation. *)
Definition moo_tells (a : algo) (tr : list tev) (name : string) (g : nat) (b : option oid) (d : told) : Prop :=
  exists pop, evals tr <> [] /\ incl (flat_map inds_of pop) (last (evals tr) []) /\
    ((name = "init" /\ length (evals tr) = 1 /\ d = at_first (a_max_gen a) pop) \/
     (name <> "init" /\ (length (evals tr) = 1 -> d = afterwards pop b (DIndividual (a_best_gen a)) g) /\
      (2 <= length (evals tr) -> exists fs, d = afterwards pop b (DFronts fs) g /\ Forall2 (fun f s => incl f (inds_of s)) fs pop))).

(** What is told last describes the algorithm as it is left. *)
Definition left_as_told (a : algo) (g : datum) (l : list (string * told)) : Prop :=
  exists pre, l = pre ++ [("evolution_finished", afterwards (a_pop a) (a_best_run a) g (a_gen_num a))].

(** The members that are ranked first, in the order of the subpopulation. *)
Definition ranked_first (w : world) (o : oid) : Prop := exists i, at_ w o = Some i /\ neq_num (ft_rank (i_fit i)) (Fin 1) = true.
Inductive picked (P : oid -> Prop) : list oid -> list oid -> Prop :=
| pk_nil : picked P [] []
| pk_in o f l : P o -> picked P f l -> picked P (o :: f) (o :: l)
| pk_out o f l : ~ P o -> picked P f l -> picked P f (o :: l).
Definition first_fronts (w : world) (fs : list (list oid)) (pop : list subpop) : Prop :=
  Forall2 (fun f s => picked (ranked_first w) f (inds_of s)) fs pop.
