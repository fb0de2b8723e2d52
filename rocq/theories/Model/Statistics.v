(** * Statistics and the other subscribers of a run.

    Cites: eckity/statistics/best_average_worst_statistics.py 31-44, best_avg_worst_size_tree_statistics.py 16-30,
    minimal_print_statistics.py 29-30, eckity/algorithms/algorithm.py 172-189, 212-226, 276-292,
    338-362, eckity/algorithms/simple_evolution.py 159-167, 235-254, eckity/multi_objective_evolution/nsga2_evolution.py 92-106, 160-178,
    eckity/before_after_publisher.py 20-35.

    [Evolution.evolve_with] only records that an event was published.  Here the subscribers run: user callbacks, which may
    change anything and may raise, and after them the statistics, which write lines.  Simplifications: user callbacks are
    registered before the run and stay registered; the text of a line is its list of formatted values. *)
From Verif.Model Require Export Evolution Nsga2.
Open Scope nat_scope.
Open Scope list_scope.

Inductive stat := SBestAverageWorst | SSizeTree | SMinimal.

(** A value in the data of an event.  [DObject]: the attribute of this name, not looked into. *)
Inductive datum :=
| DPopulation (pop : list subpop)
| DIndividual (o : option oid)
| DFronts (l : list (list oid))
| DNumber (n : nat)
| DObject (attribute : string).
Definition told := list (string * datum).

(** What is logged: a generation number, the index of a subpopulation, or the values put into the format string.  [LTold] is
    for listeners that note the data they are given. *)
Inductive line := LGeneration (gen : nat) | LSubpop (index : nat) | LValues (vs : list fval) | LTold (event : string) (d : told).

Definition O (X : Type) := SE (est * list line) X.

Definition liftA {X} (m : A X) : O X := fun s => match m (fst s) with (r, e) => (r, (e, snd s)) end.
Definition info (l : line) : O unit := fun s => (Ok tt, (fst s, snd s ++ [l])).

(** [np.average([ind.size() for ind in sub_pop.individuals])] *)
Definition get_average_size (s : subpop) : M num :=
  ns <- mapM (fun o => i <- load o ;; ret (isize i)) (inds_of s) ;;
  match ns with
  | [] => ret NaN
  | _ => lift (ndiv (nsum (map nof_nat ns)) (nof_nat (length ns)))
  end.

(** One turn of the loop over the subpopulations: best, worst and average fitness, and the average size if asked for. *)
Definition write_subpopulation (size : bool) (s : subpop) : M (list fval) :=
  b <- get_best_individual s ;;
  vb <- pure_fitness b ;;
  c <- get_worst_individual s ;;
  vc <- pure_fitness c ;;
  avg <- get_average_fitness s ;;
  sz <- (if size then x <- get_average_size s ;; ret [VNum x] else ret []) ;;
  ret ([vb; vc; VNum avg] ++ sz).

Fixpoint write_subpopulations (size : bool) (index : nat) (pop : list subpop) : O unit :=
  match pop with
  | [] => ret tt
  | s :: rest =>
      info (LSubpop index) ;;;
      vs <- liftA (liftM (write_subpopulation size s)) ;;
      info (LValues vs) ;;;
      write_subpopulations size (S index) rest
  end.

Definition write_statistics (k : stat) : O unit :=
  a <- liftA algo_get ;;
  info (LGeneration (a_gen_num a)) ;;;
  match k with
  | SMinimal => ret tt
  | SBestAverageWorst => write_subpopulations false 0 (a_pop a)
  | SSizeTree => write_subpopulations true 0 (a_pop a)
  end.

(** algorithm.py 338-362, nsga2_evolution.py 161-170 *)
Definition init_data (a : algo) : told :=
  [("population", DPopulation (a_pop a)); ("statistics", DObject "statistics"); ("breeder", DObject "breeder");
   ("termination_checker", DObject "termination_checker"); ("max_generation", DNumber (a_max_gen a));
   ("events", DObject "events"); ("max_workers", DObject "max_workers")]%string.

(** nsga2_evolution.py 172-178, simple_evolution.py 248-254 *)
Definition later_data (best_of_gen : datum) (a : algo) : told :=
  [("population", DPopulation (a_pop a)); ("best_of_run_", DIndividual (a_best_run a)); ("best_of_gen", best_of_gen);
   ("generation_num", DNumber (a_gen_num a))]%string.

(** simple_evolution.py 235-254 *)
Definition simple_data (name : string) (s : est) : told :=
  if String.eqb name "init" then init_data (fst s) ++ [("generation_num"%string, DNumber (a_gen_num (fst s)))]
  else later_data (DIndividual (a_best_gen (fst s))) (fst s).

(** nsga2_evolution.py 160-178.  [best_of_gen] is computed at the end of each generation_iteration (92-106); from then to the
    publication neither the population nor a rank changes, so it is computed here. *)
Definition nsga2_data (name : string) (s : est) : told :=
  if String.eqb name "init" then init_data (fst s)
  else later_data (if existsb (fun e => match e with TBreed => true | _ => false end) (a_trace (fst s))
                   then DFronts (map (fun p => pareto_front (w_heap (snd s)) (inds_of p)) (a_pop (fst s)))
                   else DIndividual (a_best_gen (fst s))) (fst s).

Section Subscribers.
  Variable ev : genome -> res fval.
  Variable sched : nat -> list nat.
  (** [event_name_to_data] of the class. *)
  Variable data_of : string -> est -> told.
  (** The callbacks the user has registered for an event, in the order of registration; all are given the same data. *)
  Variable user : string -> list (told -> O unit).
  (** The statistics of the algorithm; each [initialize] registers all of them again. *)
  Variable stats : list stat.

  Definition registered (a : algo) : list stat := concat (repeat stats (a_stats a / length stats)).

  Definition call_subscribers (name : string) (d : told) : O unit :=
    iterM (fun cb => cb d) (user name) ;;;
    if String.eqb name "after_generation"
    then a <- liftA algo_get ;; iterM write_statistics (registered a)
    else ret tt.

  Definition publish_all (name : string) : O unit :=
    liftA (publish name) ;;; s <- get ;; call_subscribers name (data_of name (fst s)).

  Definition initialize_all : O unit :=
    a <- liftA algo_get ;;
    liftA (seed_generators (a_random_seed a)) ;;;
    pop <- liftA (liftM (mapM create_subpopulation (a_pop a))) ;;
    liftA (algo_mod (set_pop pop)) ;;;
    best <- liftA (act_evaluator ev sched) ;;
    liftA (algo_mod (set_best_run (Some best))) ;;;
    publish_all "init" ;;;
    liftA (algo_mod (add_stats (length stats))).

  Fixpoint main_loop_all (iteration : A unit) (todo gen : nat) : O unit :=
    match todo with
    | 0 => ret tt
    | S todo' =>
        liftA (algo_mod (set_gen_num gen)) ;;;
        liftA (update_gen gen) ;;;
        a <- liftA algo_get ;;
        liftA (seed_generators (next_seed (a_gen_seed a))) ;;;
        liftA (algo_mod (set_gen_seed (next_seed (a_gen_seed a)))) ;;;
        liftA iteration ;;;
        stop <- liftA should_terminate ;;
        if stop
        then liftA (algo_mod (set_final (Some gen))) ;;; publish_all "after_generation"
        else publish_all "after_generation" ;;; main_loop_all iteration todo' (S gen)
    end.

  Definition evolve_all_with (iteration fin : A unit) : O unit :=
    initialize_all ;;;
    stop <- liftA should_terminate ;;
    (if stop
     then liftA (algo_mod (set_final (Some 0))) ;;; publish_all "after_generation"
     else a <- liftA algo_get ;; main_loop_all iteration (a_max_gen a) 1) ;;;
    publish_all "evolution_finished" ;;;
    liftA fin.
End Subscribers.

Definition evolve_all ev sched user stats : O unit :=
  evolve_all_with ev sched simple_data user stats (generation_iteration ev sched) finish.
Definition nsga2_evolve_all ev sched so doubling user stats : O unit :=
  evolve_all_with ev sched nsga2_data user stats (nsga2_generation ev sched so doubling) nsga2_finish.
