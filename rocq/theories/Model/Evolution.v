(** * Subpopulations, evaluation, breeding, termination and the evolutionary loop.

    Cites: eckity/subpopulation.py, eckity/evaluators/simple_population_evaluator.py,
    eckity/breeders/simple_breeder.py, eckity/termination_checkers/*.py, eckity/algorithms/algorithm.py,
    eckity/algorithms/simple_evolution.py. *)
From Verif.Model Require Export World Show Operators Selection Creators.
Open Scope nat_scope.
Open Scope list_scope.

(** subpopulation.py 122-138 *)
Record subpop := mkSub {
  sp_creators : list creator;
  sp_pcr : list num;
  sp_ops : list oper;
  sp_sels : list selection;
  sp_size : nat;                       (* population_size *)
  sp_hib : hibv;
  sp_n_elite : nat;
  sp_inds : option (list oid)          (* individuals; None before creation *)
}.

Definition with_inds (s : subpop) (l : list oid) : subpop :=
  mkSub (sp_creators s) (sp_pcr s) (sp_ops s) (sp_sels s) (sp_size s) (sp_hib s) (sp_n_elite s) (Some l).

Definition inds_of (s : subpop) : list oid := match sp_inds s with Some l => l | None => [] end.

(** subpopulation.py 140-151 *)
Definition create_subpopulation (s : subpop) : M subpop :=
  match sp_inds s with
  | Some _ => ret s
  | None =>
      c <- liftR (choices_weighted (sp_creators s) (sp_pcr s)) ;;
      l <- create_individuals c (sp_size s) (sp_hib s) ;;
      ret (with_inds s l)
  end.

(** [reverse=higher_is_better]: a list of flags is not accepted by [sorted]. *)
Definition rev_flag (h : hibv) : res bool := match h with HB b => Ok b | HL _ => Raise TypeError end.

(** subpopulation.py 159-173 *)
Definition get_best_individual (s : subpop) : M oid :=
  rev <- lift (rev_flag (sp_hib s)) ;;
  l <- sorted_by_fitness rev (inds_of s) ;;
  lift (py_get l 0).

Definition get_worst_individual (s : subpop) : M oid :=
  let rev := negb (hib_truthy (sp_hib s)) in
  l <- sorted_by_fitness rev (inds_of s) ;;
  lift (py_get l 0).

(** subpopulation.py 175-178: [np.mean] of the pure fitness values; NaN for an empty list. *)
Definition get_average_fitness (s : subpop) : M num :=
  vs <- mapM pure_fitness (inds_of s) ;;
  xs <- lift (rmap as_num vs) ;;
  match xs with
  | [] => ret NaN
  | _ => lift (ndiv (nsum xs) (nof_nat (length xs)))
  end.

(** ** Evaluation *)

Section Evo.
  (** The user's fitness function: a function of the genome that may raise. *)
  Variable ev : genome -> res fval.
  (** Executor: in which order [n] submitted tasks complete. *)
  Variable sched : nat -> list nat.

  (** concurrent.futures.Executor.map: all tasks run (in completion order [sched n]); results are
      delivered in submission order. *)
  Definition completed (gs : list genome) : list (nat * res fval) :=
    flat_map (fun i => match nth_error gs i with Some g => [(i, ev g)] | None => [] end)
             (sched (length gs)).

  Fixpoint result_of {X} (i : nat) (l : list (nat * res X)) : res X :=
    match l with
    | [] => Raise RuntimeError
    | (j, r) :: l' => if Nat.eqb i j then r else result_of i l'
    end.

  Definition executor_map (alive : bool) (gs : list genome) : res (list (res fval)) :=
    match gs with
    | [] => Ok []
    | _ => if alive then Ok (map (fun i => result_of i (completed gs)) (seq 0 (length gs)))
           else Raise RuntimeError
    end.

  (** simple_population_evaluator.py 61-64: results are consumed one by one; a task's exception surfaces
      when its result is fetched. *)
  Fixpoint assign_results (inds : list oid) (rs : list (res fval)) : M unit :=
    match inds, rs with
    | o :: inds', r :: rs' => v <- lift r ;; ind_set_fitness o v ;;; assign_results inds' rs'
    | _, _ => ret tt
    end.

  (** simple_population_evaluator.py 65-73 *)
  Definition best_scan (inds : list oid) : M oid :=
    match inds with
    | [] => raise IndexError
    | a :: rest => foldM (fun best o => b <- ind_better_than o best ;; ret (if b then o else best)) rest a
    end.

  Inductive exec_method := ByMap | BySubmit.

  (** simple_individual_evaluator.py 17-39 run by a worker of the "submit" method: evaluate and store; the
      exception stays in the future. *)
  Definition worker (o : oid) (r : res fval) : M (res unit) :=
    match r with
    | Raise e => ret (Raise e)
    | Ok v => fun w => match ind_set_fitness o v w with (x, w') => (Ok x, w') end
    end.

  (** The tasks run in completion order; their outcomes are returned with the task number. *)
  Definition run_workers (inds : list oid) (done : list (nat * res fval)) : M (list (nat * res unit)) :=
    mapM (fun ir => match nth_error inds (fst ir) with
                    | Some o => x <- worker o (snd ir) ;; ret (fst ir, x)
                    | None => ret (fst ir, Raise RuntimeError)
                    end) done.

  (** simple_population_evaluator.py 24-73 on the only subpopulation.  With "submit" the workers run [evaluate], which
      returns the individual: first the value is stored by the worker, then overwritten by the object. *)
  Definition evaluate_inds (m : exec_method) (alive : bool) (inds : list oid) : M oid :=
    gs <- mapM (fun o => i <- load o ;; ret (i_genome i)) inds ;;
    rs <- lift (executor_map alive gs) ;;
    match m with
    | ByMap => assign_results inds rs ;;; best_scan inds
    | BySubmit =>
        outcomes <- run_workers inds (completed gs) ;;
        lift (rmap (fun i => result_of i outcomes) (seq 0 (length inds))) ;;;
        iterM (fun o => ind_set_fitness o (VObj o)) inds ;;;
        best_scan inds
    end.

  Definition evaluate_population (m : exec_method) (alive : bool) (pop : list subpop) : M oid :=
    match pop with
    | [s] => evaluate_inds m alive (inds_of s)
    | _ => raise ValueError
    end.

  (** ** Breeding *)

  (** simple_breeder.py 44-49 *)
  Fixpoint check_arities (size : nat) (arities : list nat) : res unit :=
    match arities with
    | [] => Ok tt
    | a :: rest => if a =? 0 then Raise ZeroDivisionError
                   else if size mod a =? 0 then check_arities size rest
                   else Raise ValueError
    end.

  (** simple_breeder.py 94-98: [for i in range(0, len(l), arity)].  [chunk] is given enough fuel. *)
  Fixpoint apply_chunks (fuel : nat) (op : list oid -> M (list oid)) (a : nat) (l : list oid) : M (list oid) :=
    match fuel with
    | O => ret l
    | S fuel' =>
        match l with
        | [] => ret []
        | _ => r <- op (firstn a l) ;;
               rest <- apply_chunks fuel' op a (skipn a l) ;;
               ret (r ++ rest)
        end
    end.

  (** simple_breeder.py 75-99 *)
  Definition apply_operators (ops : list oper) (l : list oid) : M (list oid) :=
    foldM (fun cur op => if op_arity op =? 0 then raise ValueError     (* range() step 0 *)
                         else apply_chunks (length cur) (apply_operator op) (op_arity op) cur) ops l.

  (** simple_breeder.py 35-73, one subpopulation *)
  Definition breed_subpop (s : subpop) : M subpop :=
    lift (check_arities (sp_size s) (map sel_arity (sp_sels s) ++ map op_arity (sp_ops s))) ;;;
    let src := inds_of s in
    elites <- (if 0 <? sp_n_elite s
               then rev <- lift (rev_flag (sp_hib s)) ;; elitism_select (sp_n_elite s) rev src []
               else ret []) ;;
    match sp_sels s with
    | [] => raise IndexError
    | sel :: _ =>
        selected <- select sel src elites ;;
        next <- apply_operators (sp_ops s) selected ;;
        ret (with_inds s next)
    end.

  Definition breed (pop : list subpop) : M (list subpop) := mapM breed_subpop pop.

  (** ** Termination *)

  (** termination_checker.py 12-32: user code is given the population (the heap holds its individuals), the best individual
      and the generation number; it may also look at what it has stored itself, and store something new.  Simplification:
      what it stores is coded by a number; it neither modifies individuals nor draws random numbers. *)
  Definition user_checker : Type := nat -> list subpop -> heap -> oid -> nat -> res (bool * nat).

  (** Checkers with their state.  [CkUser f stored] is user code. *)
  Inductive checker :=
  | CkThreshold (optimal threshold : num)                              (* threshold_from_target... 20-47 *)
  | CkStagnation (limit : nat) (best : option (list fval)) (count : nat) (* best_fitness_stagnation... 16-50 *)
  | CkUser (f : user_checker) (stored : nat).

  (** math.isclose(a, b): |a-b| <= 1e-09 * max(|a|, |b|); infinities are close only if equal. *)
  Definition isclose (a b : num) : bool :=
    if neq_num a b then true
    else match a, b with
         | Fin x, Fin y =>
             nle (nabs (nsub a b))
                 (nmul (Fin (1 # 1000000000))
                       (if nlt (nabs a) (nabs b) then nabs b else nabs a))
         | _, _ => false
         end.

  (** [all([math.isclose(a, b) for a, b in zip(cur, best)])]: every pair is compared. *)
  Definition close_values (cur best : list fval) : res (list bool) :=
    rmap (fun p => rbind (as_num (fst p)) (fun x => rbind (as_num (snd p)) (fun y => Ok (isclose x y))))
         (combine cur best).

  (** best_fitness_stagnation_termination_checker.py 43-50; an empty or missing list is falsy. *)
  Definition stagnation_step (limit : nat) (best : option (list fval)) (count : nat) (cur : list fval)
    : res (bool * checker) :=
    rbind (match best with
           | None => Ok false
           | Some [] => Ok false
           | Some b => rbind (close_values cur b) (fun bs => Ok (forallb (fun x => x) bs))
           end) (fun same =>
    Ok (if same then (limit <=? S count, CkStagnation limit best (S count))
        else (false, CkStagnation limit (Some cur) 0))).

  Definition threshold_met (optimal threshold : num) (v : fval) : res bool :=
    rbind (as_num v) (fun x => Ok (nle (nabs (nsub x optimal)) threshold)).

  Definition run_checker (pop : list subpop) (best : oid) (gen : nat) (c : checker) : M (bool * checker) :=
    match c with
    | CkThreshold opt th =>
        v <- pure_fitness best ;; b <- lift (threshold_met opt th v) ;; ret (b, c)
    | CkStagnation limit st count =>
        bests <- mapM get_best_individual pop ;;
        vs <- mapM pure_fitness bests ;;
        lift (stagnation_step limit st count vs)
    | CkUser f stored =>
        w <- get ;; r <- lift (f stored pop (w_heap w) best gen) ;; ret (fst r, CkUser f (snd r))
    end.

  (** algorithm.py 401-421: None, one checker, or a list (all of them are run). *)
  Definition run_checkers (pop : list subpop) (best : oid) (gen : nat) (cs : list checker)
    : M (list bool * list checker) :=
    rs <- mapM (run_checker pop best gen) cs ;;
    ret (map fst rs, map snd rs).

  (** ** The algorithm object *)

  (** What happened, most recent last.  [TCheck]: the answers of the termination checkers; [TPublish]: an event with
      what its subscribers are given (simple_evolution.py 235-254): generation number, best_of_run_ and what this
      individual looked like. *)
  Inductive tev :=
  | TSeed (s : Z)
  | TEval (l : list oid)
  | TBreed
  | TCheck (answers : list bool)
  | TPublish (name : string) (gen : nat) (best : option oid) (seen : option ind).

  Record algo := mkAlgo {
    a_pop : list subpop;
    a_max_gen : nat;
    a_checkers : list checker;
    a_random_seed : Z;
    a_gen_seed : Z;
    a_method : exec_method;
    a_alive : bool;                     (* executor not shut down *)
    a_best_run : option oid;
    a_best_gen : option oid;
    a_worst_gen : option oid;
    a_gen_num : nat;
    a_final : option nat;               (* final_generation_ *)
    a_stats : nat;                      (* statistics callbacks registered for after_generation *)
    a_trace : list tev
  }.

  Definition est := (algo * world)%type.
  Definition A (X : Type) := SE est X.

  Definition liftM {X} (m : M X) : A X :=
    fun s => match m (snd s) with (r, w) => (r, (fst s, w)) end.
  Definition algo_get : A algo := fun s => (Ok (fst s), s).
  Definition algo_mod (f : algo -> algo) : A unit := fun s => (Ok tt, (f (fst s), snd s)).

  Definition set_pop p a := mkAlgo p (a_max_gen a) (a_checkers a) (a_random_seed a) (a_gen_seed a) (a_method a)
    (a_alive a) (a_best_run a) (a_best_gen a) (a_worst_gen a) (a_gen_num a) (a_final a) (a_stats a) (a_trace a).
  Definition set_checkers c a := mkAlgo (a_pop a) (a_max_gen a) c (a_random_seed a) (a_gen_seed a) (a_method a)
    (a_alive a) (a_best_run a) (a_best_gen a) (a_worst_gen a) (a_gen_num a) (a_final a) (a_stats a) (a_trace a).
  Definition set_gen_seed s a := mkAlgo (a_pop a) (a_max_gen a) (a_checkers a) (a_random_seed a) s (a_method a)
    (a_alive a) (a_best_run a) (a_best_gen a) (a_worst_gen a) (a_gen_num a) (a_final a) (a_stats a) (a_trace a).
  Definition set_alive b a := mkAlgo (a_pop a) (a_max_gen a) (a_checkers a) (a_random_seed a) (a_gen_seed a)
    (a_method a) b (a_best_run a) (a_best_gen a) (a_worst_gen a) (a_gen_num a) (a_final a) (a_stats a) (a_trace a).
  Definition set_best_run o a := mkAlgo (a_pop a) (a_max_gen a) (a_checkers a) (a_random_seed a) (a_gen_seed a)
    (a_method a) (a_alive a) o (a_best_gen a) (a_worst_gen a) (a_gen_num a) (a_final a) (a_stats a) (a_trace a).
  Definition set_best_gen o a := mkAlgo (a_pop a) (a_max_gen a) (a_checkers a) (a_random_seed a) (a_gen_seed a)
    (a_method a) (a_alive a) (a_best_run a) o (a_worst_gen a) (a_gen_num a) (a_final a) (a_stats a) (a_trace a).
  Definition set_worst_gen o a := mkAlgo (a_pop a) (a_max_gen a) (a_checkers a) (a_random_seed a) (a_gen_seed a)
    (a_method a) (a_alive a) (a_best_run a) (a_best_gen a) o (a_gen_num a) (a_final a) (a_stats a) (a_trace a).
  Definition set_gen_num n a := mkAlgo (a_pop a) (a_max_gen a) (a_checkers a) (a_random_seed a) (a_gen_seed a)
    (a_method a) (a_alive a) (a_best_run a) (a_best_gen a) (a_worst_gen a) n (a_final a) (a_stats a) (a_trace a).
  Definition set_final n a := mkAlgo (a_pop a) (a_max_gen a) (a_checkers a) (a_random_seed a) (a_gen_seed a)
    (a_method a) (a_alive a) (a_best_run a) (a_best_gen a) (a_worst_gen a) (a_gen_num a) n (a_stats a) (a_trace a).
  Definition add_stats n a := mkAlgo (a_pop a) (a_max_gen a) (a_checkers a) (a_random_seed a) (a_gen_seed a)
    (a_method a) (a_alive a) (a_best_run a) (a_best_gen a) (a_worst_gen a) (a_gen_num a) (a_final a)
    (a_stats a + n) (a_trace a).
  Definition add_trace e a := mkAlgo (a_pop a) (a_max_gen a) (a_checkers a) (a_random_seed a) (a_gen_seed a)
    (a_method a) (a_alive a) (a_best_run a) (a_best_gen a) (a_worst_gen a) (a_gen_num a) (a_final a)
    (a_stats a) (a_trace a ++ [e]).

  (** Publishing an event: subscribers (statistics) only read. *)
  Definition publish (name : string) : A unit :=
    fun s => let a := fst s in
             let seen := match a_best_run a with Some o => nth_error (w_heap (snd s)) o | None => None end in
             (Ok tt, (add_trace (TPublish name (a_gen_num a) (a_best_run a) seen) a, snd s)).

  (** algorithm.py 364-388 *)
  Definition seed_generators (s : Z) : A unit :=
    liftM (liftR (set_seed s)) ;;; algo_mod (add_trace (TSeed s)).

  (** algorithm.py 390-399 *)
  Definition next_seed (s : Z) : Z := ((s + 1) mod 4294967296)%Z.

  Definition act_evaluator : A oid :=
    a <- algo_get ;;
    o <- liftM (evaluate_population (a_method a) (a_alive a) (a_pop a)) ;;
    algo_mod (add_trace (TEval (flat_map inds_of (a_pop a)))) ;;;
    ret o.

  (** algorithm.py 212-226 and simple_evolution.py 159-167 ([n_stats] statistics objects) *)
  Definition initialize (n_stats : nat) : A unit :=
    a <- algo_get ;;
    seed_generators (a_random_seed a) ;;;
    pop <- liftM (mapM create_subpopulation (a_pop a)) ;;
    algo_mod (set_pop pop) ;;;
    best <- act_evaluator ;;
    algo_mod (set_best_run (Some best)) ;;;
    publish "init" ;;;
    algo_mod (add_stats n_stats).

  (** algorithm.py 401-421 *)
  Definition should_terminate : A bool :=
    a <- algo_get ;;
    match a_best_run a with
    | None => raise AttributeError
    | Some best =>
        r <- liftM (run_checkers (a_pop a) best (a_gen_num a) (a_checkers a)) ;;
        algo_mod (set_checkers (snd r)) ;;;
        algo_mod (add_trace (TCheck (fst r))) ;;;
        ret (existsb (fun b => b) (fst r))
    end.

  (** algorithm.py 294-305 *)
  Definition update_gen (gen : nat) : A unit :=
    a <- algo_get ;;
    liftM (iterM (fun o => modify o (set_gen gen)) (flat_map inds_of (a_pop a))).

  (** simple_evolution.py 170-196; [better_than(None)] is True (individual.py 76-78). *)
  Definition generation_iteration : A unit :=
    a <- algo_get ;;
    pop <- liftM (breed (a_pop a)) ;;
    algo_mod (set_pop pop) ;;;
    algo_mod (add_trace TBreed) ;;;
    best <- act_evaluator ;;
    algo_mod (set_best_gen (Some best)) ;;;
    a' <- algo_get ;;
    b <- match a_best_run a' with
         | None => ret true
         | Some r => liftM (ind_better_than best r)
         end ;;
    (if b then algo_mod (set_best_run (Some best)) else ret tt) ;;;
    match a_pop a' with
    | [] => raise IndexError
    | s :: _ => w <- liftM (get_worst_individual s) ;; algo_mod (set_worst_gen (Some w))
    end.

  (** algorithm.py 276-292; [todo] generations are left, the next one is [gen]; [iteration] is the
      [generation_iteration] of the class. *)
  Fixpoint main_loop (iteration : A unit) (todo gen : nat) : A unit :=
    match todo with
    | O => ret tt
    | S todo' =>
        algo_mod (set_gen_num gen) ;;;
        update_gen gen ;;;
        a <- algo_get ;;
        seed_generators (next_seed (a_gen_seed a)) ;;;
        algo_mod (set_gen_seed (next_seed (a_gen_seed a))) ;;;
        iteration ;;;
        stop <- should_terminate ;;
        if stop
        then algo_mod (set_final (Some gen)) ;;; publish "after_generation"
        else publish "after_generation" ;;; main_loop iteration todo' (S gen)
    end.

  (** [self.best_of_run_.show()] *)
  Definition show_best : A unit :=
    a <- algo_get ;;
    match a_best_run a with
    | None => raise AttributeError
    | Some o => i <- liftM (load o) ;; lift (show i)
    end.

  (** algorithm.py 326-330 and simple_evolution.py 219-225 *)
  Definition finish : A unit := algo_mod (set_alive false) ;;; show_best.

  (** algorithm.py 172-189, for any subclass *)
  Definition evolve_with (iteration fin : A unit) (n_stats : nat) : A unit :=
    initialize n_stats ;;;
    stop <- should_terminate ;;
    (if stop
     then algo_mod (set_final (Some 0)) ;;; publish "after_generation"
     else a <- algo_get ;; main_loop iteration (a_max_gen a) 1) ;;;
    publish "evolution_finished" ;;;
    fin.

  Definition evolve (n_stats : nat) : A unit := evolve_with generation_iteration finish n_stats.
End Evo.
