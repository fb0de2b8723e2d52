(** * Construction of algorithms.

    Cites: eckity/subpopulation.py 64-104, algorithms/algorithm.py 99-166 and 228-274, algorithms/simple_evolution.py 84-157,
    multi_objective_evolution/nsga2_evolution.py 19-76, evaluators/simple_population_evaluator.py 15-22. *)
From Verif.Model Require Export Construct Nsga2.
From Verif.Model Require Import Publisher.
Open Scope string_scope.
Open Scope nat_scope.
Open Scope list_scope.

(** subpopulation.py 77-94: what may be passed as [creators]; an element [None] of a list is something else than a creator. *)
Inductive creators_arg := CrNone | CrOne (c : creator) | CrList (l : list (option creator)) | CrOther.

Fixpoint all_some {X} (l : list (option X)) : option (list X) :=
  match l with
  | [] => Some []
  | None :: _ => None
  | Some x :: l' => match all_some l' with Some xs => Some (x :: xs) | None => None end
  end.

Definition creators_of (a : creators_arg) : res (list creator) :=
  match a with
  | CrNone => Raise ValueError
  | CrOne c => Ok [c]
  | CrList l => match all_some l with Some cs => Ok cs | None => Raise ValueError end   (* [] is refused below *)
  | CrOther => Raise ValueError
  end.

(** subpopulation.py 64-104, all of it *)
Definition new_subpopulation (sum : list Q -> Q) (creators : creators_arg) (pcr : option (list Q))
  (ops : option (list oper)) (sels : option (list selection)) (rate : Q) (size : nat) (inds : option (list oid)) (hib : hibv)
  : res subpop :=
  rbind (creators_of creators) (fun cs => subpopulation_init sum (Some cs) pcr ops sels rate size inds hib).

(** algorithm.py 228-253; [None] in a list is something else than a subpopulation *)
Inductive population_arg :=
| PoNone | PoPopulation (l : list subpop) | PoOne (s : subpop) | PoList (l : list (option subpop)) | PoOther.

Definition population_of (a : population_arg) : res (list subpop) :=
  match a with
  | PoNone => Raise ValueError
  | PoPopulation l => Ok l
  | PoOne s => Ok [s]
  | PoList [] => Raise ValueError
  | PoList l => match all_some l with Some ss => Ok ss | None => Raise ValueError end
  | PoOther => Raise ValueError
  end.

(** algorithm.py 255-274: how many statistics objects there are; [false] in a list is something else *)
Inductive statistics_arg := StNone | StOne | StList (l : list bool) | StOther.

Definition statistics_of (a : statistics_arg) : res nat :=
  match a with
  | StOne => Ok 1
  | StList l => if forallb (fun b => b) l then Ok (length l) else Raise ValueError
  | StNone | StOther => Raise ValueError
  end.

(** simple_population_evaluator.py 15-22 *)
Definition executor_method_of (s : string) : res exec_method :=
  if String.eqb s "map" then Ok ByMap else if String.eqb s "submit" then Ok BySubmit else Raise ValueError.

Inductive breeder_arg := BrNone | BrSimple | BrOther.
Inductive evaluator_arg := EvNone | EvSimple (m : exec_method) | EvOther.

(** simple_evolution.py 84-104.  A single termination checker is a list of one. *)
Record evolution_args := mkArgs {
  ea_population : population_arg;
  ea_statistics : statistics_arg;
  ea_breeder : breeder_arg;
  ea_evaluator : evaluator_arg;
  ea_max_generation : nat;
  ea_events : option (list (string * subscribers));
  ea_event_names : option (list string);
  ea_checkers : list checker;
  ea_executor : string;
  ea_random_seed : option Z;
  ea_generation_seed : option Z;
  ea_best_of_run : option oid;
  ea_best_of_gen : option oid;
  ea_worst_of_gen : option oid;
  ea_generation_num : nat
}.

(** The defaults of SimpleEvolution. *)
Definition default_args (p : population_arg) : evolution_args :=
  mkArgs p StNone BrSimple EvNone 500 None None [] "thread" None None None None None 0.

(** The algorithm, the number of its statistics objects, and it as a publisher of events. *)
Record setup := mkSetup { su_algo : algo; su_stats : nat; su_events : pub }.

(** algorithm.py 135-142: [stamp] is the clock, its digits without the decimal point. *)
Definition seed_of (seed : option Z) (stamp : Z) : Z :=
  match seed with Some s => s | None => (stamp mod 4294967296)%Z end.

(** algorithm.py 99-166, then simple_evolution.py 147-157 (the same as nsga2_evolution.py 69-75). *)
Definition algorithm_init (stamp : Z) (m : exec_method) (names : list string) (stats : statistics_arg) (x : evolution_args) : res setup :=
  let events := publisher_init (ea_events x) (names ++ ["init"; "evolution_finished"; "after_generation"]) in
  rbind (population_of (ea_population x)) (fun pop =>
  rbind (statistics_of stats) (fun k =>
  let seed := seed_of (ea_random_seed x) stamp in
  if String.eqb (ea_executor x) "thread" || String.eqb (ea_executor x) "process"
  then Ok (mkSetup
         (mkAlgo pop (ea_max_generation x) (ea_checkers x) seed
            (match ea_generation_seed x with Some g => g | None => seed end) m true
            (ea_best_of_run x) (ea_best_of_gen x) (ea_worst_of_gen x) (ea_generation_num x) None 0 [])
         k events)
  else Raise ValueError)).

Definition names_of (x : evolution_args) : list string :=
  match ea_event_names x with
  | None => ["before_eval"; "after_eval"; "before_breeding"; "after_breeding"]
  | Some l => l
  end.

Definition stats_or_none (a : statistics_arg) : statistics_arg := match a with StNone => StList [] | s => s end.

(** simple_evolution.py 84-157 *)
Definition simple_evolution_init (stamp : Z) (x : evolution_args) : res setup :=
  match ea_breeder x with
  | BrOther => Raise ValueError
  | _ => match ea_evaluator x with
         | EvOther => Raise ValueError
         | EvNone => algorithm_init stamp ByMap (names_of x) (stats_or_none (ea_statistics x)) x
         | EvSimple m => algorithm_init stamp m (names_of x) (stats_or_none (ea_statistics x)) x
         end
  end.

(** nsga2_evolution.py 19-76, with its default breeder and evaluator.  The breeder and the evaluator are not checked. *)
Definition nsga2_evolution_init (stamp : Z) (x : evolution_args) : res setup :=
  algorithm_init stamp ByMap (names_of x) (stats_or_none (ea_statistics x)) x.

(** The defaults of NSGA2Evolution: termination_checkers/threshold_from_target_termination_checker.py 20-27. *)
Definition nsga2_default_args (p : population_arg) : evolution_args :=
  mkArgs p StNone BrSimple EvNone 500 None None [CkThreshold (Fin 0) (Fin 0)] "thread" None None None None None 0.
