(** * NSGA-II: front sorting, breeding, one generation.

    Cites: eckity/multi_objective_evolution/nsga2_front_sorting.py 7-112, nsga2_breeder.py 11-55,
    nsga2_evolution.py 78-143, crowding_termination_checker.py 36-47, moe_best_worst_statistics.py 31-79. *)
From Verif.Model Require Export Evolution.
Open Scope nat_scope.
Open Scope list_scope.

Section Sort.
  (** [dom a b]: [a.fitness.dominate(a, b.fitness, b)]; [obj a]: [a.get_pure_fitness()].  Individuals are hashed
      and compared by identity, so an individual is a number. *)
  Variable dom : nat -> nat -> res bool.
  Variable obj : nat -> res (list num).
  (** In which order [list(s)] yields the members of the set [s], in the given round. *)
  Variable setorder : nat -> list nat -> list nat.

  (** [domination_dict] (a defaultdict, hence total maps), and the fields of the fitness objects. *)
  Record sst := mkSst {
    s_doms : nat -> list nat;      (* dominates *)
    s_cnt : nat -> Z;              (* domination_counter *)
    s_crowd : nat -> num;
    s_rank : nat -> num
  }.

  Definition T (A : Type) := SE sst A.

  Definition upd {A} (f : nat -> A) (k : nat) (v : A) : nat -> A := fun x => if Nat.eqb x k then v else f x.

  Definition set_crowd (o : nat) (x : num) : T unit :=
    fun s => (Ok tt, mkSst (s_doms s) (s_cnt s) (upd (s_crowd s) o x) (s_rank s)).
  Definition set_rank (o : nat) (x : num) : T unit :=
    fun s => (Ok tt, mkSst (s_doms s) (s_cnt s) (s_crowd s) (upd (s_rank s) o x)).
  Definition add_count (o : nat) (d : Z) : T unit :=
    fun s => (Ok tt, mkSst (s_doms s) (upd (s_cnt s) o (s_cnt s o + d)%Z) (s_crowd s) (s_rank s)).
  Definition add_dom (o p : nat) : T unit :=
    fun s => (Ok tt, mkSst (upd (s_doms s) o (s_doms s o ++ [p])) (s_cnt s) (s_crowd s) (s_rank s)).

  (** 91-99 *)
  Definition increase_counter (a b : nat) : T unit := add_dom a b ;;; add_count b 1.

  Definition handle_domination (i j : nat) : T unit :=
    b <- lift (dom j i) ;;
    if b then increase_counter j i
    else b' <- lift (dom i j) ;;
         if b' then increase_counter i j else ret tt.

  (** 84-88 *)
  Fixpoint init_pairs (l : list nat) : T unit :=
    match l with
    | [] => ret tt
    | i :: rest => iterM (handle_domination i) rest ;;; init_pairs rest
    end.

  Definition init_domination (l : list nat) : T unit :=
    (fun s => (Ok tt, mkSst (fun _ => []) (fun _ => 0%Z) (s_crowd s) (s_rank s))) ;;; init_pairs l.

  (** 101-103 *)
  Definition find_front (l : list nat) : T (list nat) :=
    fun s => (Ok (filter (fun o => Z.eqb (s_cnt s o) 0) l), s).

  (** [x.get_pure_fitness()[k]] *)
  Definition obj_at (k : nat) (o : nat) : res num :=
    rbind (obj o) (fun l => match nth_error l k with Some x => Ok x | None => Raise IndexError end).

  (** [front.sort(key=...)] *)
  Definition sort_front (k : nat) (front : list nat) : res (list nat) :=
    rbind (rmap (obj_at k) front) (fun ks =>
    Ok (map snd (sort_stable (fun a b => nlt (fst a) (fst b)) (combine ks front)))).

  (** 75-81: the middle of the front; [prev], [cur], [next] slide over it.  [d] is the width of the front. *)
  Definition is_zero (x : num) : bool := neq_num x (Fin 0).

  Fixpoint crowd_middle (k : nat) (d : num) (prev : num) (l : list nat) : T unit :=
    match l with
    | cur :: ((next :: _) as rest) =>
        c <- lift (obj_at k cur) ;;
        nx <- lift (obj_at k next) ;;
        (if is_zero d then ret tt
         else q <- lift (ndiv (nsub nx prev) d) ;;
              fun s => set_crowd cur (nadd (s_crowd s cur) q) s) ;;;
        crowd_middle k d c rest
    | _ => ret tt
    end.

  (** 70-81, one objective *)
  Definition crowd_objective (front : list nat) (k : nat) : T (list nat) :=
    f <- lift (sort_front k front) ;;
    match f with
    | [] => raise IndexError
    | first :: rest =>
        let lst := last f first in
        set_crowd first PInf ;;;
        set_crowd lst PInf ;;;
        x0 <- lift (obj_at k first) ;;
        x1 <- lift (obj_at k lst) ;;
        crowd_middle k (nsub x1 x0) x0 rest ;;;
        ret f
    end.

  (** 64-81.  The front is sorted in place, so the last order is kept. *)
  Definition calc_crowding (front : list nat) : T (list nat) :=
    iterM (fun o => set_crowd o (Fin 0)) front ;;;
    match front with
    | [] => raise IndexError
    | o :: _ => l <- lift (obj o) ;; foldM crowd_objective (seq 0 (length l)) front
    end.

  (** 54-58 *)
  Definition remove_front (round : nat) (source front : list nat) : T (list nat) :=
    iterM (fun a => fun s => iterM (fun b => add_count b (-1)) (s_doms s a) s) front ;;;
    ret (setorder round (filter (fun o => negb (existsb (Nat.eqb o) front)) (nodup Nat.eq_dec source))).

  (** 44-47 *)
  Definition cut_front (n : nat) (front : list nat) : T (list nat) :=
    fun s => (Ok (firstn n (sort_stable (fun a b => nlt (s_crowd s b) (s_crowd s a)) front)), s).

  (** 37-51.  [fuel]: every round adds at least one individual or raises. *)
  Fixpoint select_loop (fuel rank size : nat) (source dest : list nat) : T (list nat) :=
    if length dest <? size then
      match fuel with
      | O => raise OutOfFuel
      | S fuel' =>
          front <- find_front source ;;
          front1 <- calc_crowding front ;;
          iterM (fun o => set_rank o (nof_nat rank)) front1 ;;;
          front2 <- (if size <? length front1 + length dest
                     then cut_front (size - length dest) front1
                     else ret front1) ;;
          source' <- remove_front rank source front2 ;;
          select_loop fuel' (S rank) size source' (dest ++ front2)
      end
    else ret dest.

  (** 24-51 *)
  Definition sort_select (source : list nat) (pop_size : nat) : T (list nat) :=
    let size := if pop_size =? 0 then length source / 2 else pop_size in
    init_domination source ;;; select_loop size 1 size source [].
End Sort.

(** The sorting on the heap: reads the fitness objects, then writes crowding and rank back. *)
Definition heap_dom (h : heap) (a b : oid) : res bool :=
  match nth_error h a, nth_error h b with
  | Some x, Some y =>
      match ft_class (i_fit x) with
      | KNSGA2 => dominate (i_fit x) (isize x) (i_fit y) (isize y)
      | _ => Raise AttributeError
      end
  | _, _ => Raise AttributeError
  end.

Definition heap_obj (h : heap) (a : oid) : res (list num) :=
  match nth_error h a with
  | Some x => rbind (get_pure_fitness (i_fit x)) (fun v =>
              match v with VList l => Ok l | _ => Raise TypeError end)
  | None => Raise AttributeError
  end.

Definition heap_field (f : fitness -> num) (h : heap) (o : oid) : num :=
  match nth_error h o with Some x => f (i_fit x) | None => Fin 0 end.

Definition write_moo (s : sst) (inds : list oid) (h : heap) : heap :=
  map (fun ox => match ox with
                 | (o, x) => if existsb (Nat.eqb o) inds
                             then set_fit (with_moo (i_fit x) (s_crowd s o) (s_rank s o)) x else x
                 end) (combine (seq 0 (length h)) h).

Definition nsga2_select (setorder : nat -> list nat -> list nat) (inds : list oid) (pop_size : nat)
  : M (list oid) :=
  fun w =>
    let h := w_heap w in
    let s0 := mkSst (fun _ => []) (fun _ => 0%Z) (heap_field ft_crowding h) (heap_field ft_rank h) in
    match sort_select (heap_dom h) (heap_obj h) setorder inds pop_size s0 with
    | (r, s) => (r, mkWorld (write_moo s inds h) (w_next_id w) (w_rng w))
    end.

(** nsga2_front_sorting.py 17-21 *)
Definition select_for_population (setorder : nat -> list nat -> list nat) (pop : list subpop) (n : nat)
  : M (list subpop) :=
  mapM (fun s => l <- nsga2_select setorder (inds_of s) n ;; ret (with_inds s l)) pop.

(** nsga2_breeder.py 11-55: the elites go to a list that is thrown away; the operators modify the old
    individuals in place; the selection gets the doubled list as destination. *)
Definition nsga2_breed_subpop (s : subpop) : M subpop :=
  let src := inds_of s in
  (if 0 <? sp_n_elite s
   then rev <- lift (rev_flag (sp_hib s)) ;; _ <- elitism_select (sp_n_elite s) rev src [] ;; ret tt
   else ret tt) ;;;
  old <- mapM clone src ;;
  new <- apply_operators (sp_ops s) src ;;
  let next := old ++ new in
  iterM set_fitness_not_evaluated next ;;;
  match sp_sels s with
  | [] => raise IndexError
  | sel :: _ => r <- select sel src next ;; ret (with_inds s r)
  end.

(** crowding_termination_checker.py 36-47 *)
Definition max_num (a b : num) : num := if nlt a b then b else a.
Definition max_crowding (cs : list num) : num :=
  match filter (fun c => negb (neq_num c PInf)) cs with
  | [] => PInf
  | x :: l => fold_left max_num l x
  end.
Definition crowding_terminate (threshold : num) (subpops : list (list num)) : res bool :=
  match map max_crowding subpops with
  | [] => Raise ValueError                      (* max of an empty list *)
  | x :: l => let m := fold_left max_num l x in
              Ok (nlt m threshold && negb (neq_num m (Fin 0)))
  end.

(** Only multi-objective fitness objects have the attribute (nsga2_fitness.py 12-16). *)
Definition crowding_attr (h : heap) (o : oid) : res num :=
  match nth_error h o with
  | Some i => match ft_class (i_fit i) with KNSGA2 => Ok (ft_crowding (i_fit i)) | _ => Raise AttributeError end
  | None => Raise AttributeError
  end.
Definition crowding_checker (threshold : num) : user_checker := fun stored pop h _ _ =>
  rbind (rmap (fun s => rmap (crowding_attr h) (inds_of s)) pop) (fun cs =>
  rbind (crowding_terminate threshold cs) (fun b => Ok (b, stored))).

(** nsga2_evolution.py 92-106: [front_rank == 1] *)
Definition pareto_front (h : heap) (inds : list oid) : list oid :=
  filter (fun o => neq_num (heap_field ft_rank h o) (Fin 1)) inds.

(** moe_best_worst_statistics.py 70-79; [members] are (rank, crowding, objectives).  [set] of tuples: equal
    tuples collapse. *)
Fixpoint dedup (l : list (list num)) : list (list num) :=
  match l with
  | [] => []
  | x :: l' => if existsb (list_eqn x) l' then dedup l' else x :: dedup l'
  end.

Definition get_corners (rank : num) (members : list (num * num * list num)) : res (list (list num)) :=
  let r := dedup (map snd (filter (fun m => match m with
                                            | (rk, c, _) => neq_num rk rank && neq_num c PInf
                                            end) members)) in
  if (length r =? 1) || (length r =? 2) then Ok r else Raise AssertionError.

(** moe_best_worst_statistics.py 31-68, one subpopulation: the corners of front 1, the last rank, its corners and the size
    of front 1, which are formatted and printed.  [sorted(list(set(ranks)))[-1]] is the greatest rank.  The percentage is
    a function of the size. *)
Definition moe_statistics (members : list (num * num * list num))
  : res (list (list num) * num * list (list num) * nat) :=
  rbind (get_corners (Fin 1) members) (fun first =>
  match map (fun m => fst (fst m)) members with
  | [] => Raise IndexError
  | r :: ranks =>
      let last_rank := fold_left max_num ranks r in
      rbind (get_corners last_rank members) (fun lst =>
      Ok (first, last_rank, lst, length (filter (fun m => neq_num (fst (fst m)) (Fin 1)) members)))
  end).

Section Nsga2Gen.
  Variable ev : genome -> res fval.
  Variable sched : nat -> list nat.
  Variable setorder : nat -> list nat -> list nat.

  (** nsga2_evolution.py 78-90, with the NSGA2Breeder ([doubling]) or the default SimpleBreeder.  The return value of
      the evaluator is dropped: best_of_run_ keeps the individual of the initialisation. *)
  Definition nsga2_generation (doubling : bool) : A unit :=
    a <- algo_get ;;
    pop <- liftM (if doubling then mapM nsga2_breed_subpop (a_pop a) else breed (a_pop a)) ;;
    algo_mod (set_pop pop) ;;;
    algo_mod (add_trace TBreed) ;;;
    _ <- act_evaluator ev sched ;;
    pop' <- liftM (select_for_population setorder pop 0) ;;
    algo_mod (set_pop pop').

  (** nsga2_evolution.py 152-158: the executor is not shut down; shows best_of_run_ and reads its fitness. *)
  Definition nsga2_finish : A unit :=
    show_best ;;;
    a <- algo_get ;;
    match a_best_run a with
    | None => raise AttributeError
    | Some o => _ <- liftM (pure_fitness o) ;; ret tt
    end.

  Definition nsga2_evolve (doubling : bool) (n_stats : nat) : A unit :=
    evolve_with ev sched (nsga2_generation doubling) nsga2_finish n_stats.
End Nsga2Gen.
