(** * Individuals, the object heap, and cloning.

    Cites: eckity/individual.py 39-80.

    The heap is a list of individual records; an object reference is a position in it.  Objects are never
    freed.  [w_next_id] is the class attribute [Individual.id]. *)
From Verif.Model Require Export Base Num Rng Fitness Vector Tree.
Open Scope nat_scope.
Open Scope list_scope.

Inductive genome := GVec (v : vec) | GTree (t : tree).

(** individual.py 41-53.  [i_parents] only exists in Python when [i_update_parents]; it is empty otherwise. *)
Record ind := mkInd {
  i_id : Z;
  i_gen : nat;
  i_fit : fitness;
  i_cloned_from : Z;
  i_selected_by : list string;
  i_applied : list string;
  i_update_parents : bool;
  i_parents : list Z;
  i_genome : genome
}.

Definition oid := nat.
Definition heap := list ind.

Record world := mkWorld {
  w_heap : heap;
  w_next_id : Z;
  w_rng : rng
}.

Definition M (A : Type) := SE world A.

(** Run a computation that only uses the random generator. *)
Definition liftR {A} (m : R A) : M A :=
  fun w => match m (w_rng w) with
           | (r, g) => (r, mkWorld (w_heap w) (w_next_id w) g)
           end.

Definition load (o : oid) : M ind :=
  fun w => match nth_error (w_heap w) o with
           | Some i => (Ok i, w)
           | None => (Raise AttributeError, w)
           end.

Definition store (o : oid) (i : ind) : M unit :=
  fun w => if o <? length (w_heap w)
           then (Ok tt, mkWorld (list_set (w_heap w) o i) (w_next_id w) (w_rng w))
           else (Raise AttributeError, w).

Definition alloc (i : ind) : M oid :=
  fun w => (Ok (length (w_heap w)), mkWorld (w_heap w ++ [i]) (w_next_id w) (w_rng w)).

(** individual.py 55-57 *)
Definition fresh_id : M Z :=
  fun w => (Ok (w_next_id w), mkWorld (w_heap w) (w_next_id w + 1)%Z (w_rng w)).

Definition modify (o : oid) (f : ind -> ind) : M unit := i <- load o ;; store o (f i).

(** Record updates. *)
Definition set_fit (f : fitness) (i : ind) : ind :=
  mkInd (i_id i) (i_gen i) f (i_cloned_from i) (i_selected_by i) (i_applied i)
        (i_update_parents i) (i_parents i) (i_genome i).
Definition set_genome (g : genome) (i : ind) : ind :=
  mkInd (i_id i) (i_gen i) (i_fit i) (i_cloned_from i) (i_selected_by i) (i_applied i)
        (i_update_parents i) (i_parents i) g.
Definition set_gen (n : nat) (i : ind) : ind :=
  mkInd (i_id i) n (i_fit i) (i_cloned_from i) (i_selected_by i) (i_applied i)
        (i_update_parents i) (i_parents i) (i_genome i).
Definition add_selected (s : string) (i : ind) : ind :=
  mkInd (i_id i) (i_gen i) (i_fit i) (i_cloned_from i) (i_selected_by i ++ [s]) (i_applied i)
        (i_update_parents i) (i_parents i) (i_genome i).
Definition add_applied (s : string) (i : ind) : ind :=
  mkInd (i_id i) (i_gen i) (i_fit i) (i_cloned_from i) (i_selected_by i) (i_applied i ++ [s])
        (i_update_parents i) (i_parents i) (i_genome i).
Definition add_parents (ps : list Z) (i : ind) : ind :=
  mkInd (i_id i) (i_gen i) (i_fit i) (i_cloned_from i) (i_selected_by i) (i_applied i)
        (i_update_parents i) (i_parents i ++ ps) (i_genome i).

(** [individual.size()] *)
Definition genome_size (g : genome) : nat :=
  match g with GVec v => vsize v | GTree t => tsize t end.
Definition isize (i : ind) : nat := genome_size (i_genome i).

(** individual.py 41-53: a new individual. *)
Definition new_individual (f : fitness) (upd : bool) (g : genome) : M oid :=
  id <- fresh_id ;;
  alloc (mkInd id 0 f (-1)%Z [] [] upd [] g).

(** individual.py 62-68: [deepcopy] uses the fitness' [__getstate__]. *)
Definition clone (o : oid) : M oid :=
  i <- load o ;;
  id <- fresh_id ;;
  alloc (mkInd id (i_gen i) (fit_getstate (i_fit i)) (i_id i) (i_selected_by i) (i_applied i)
               (i_update_parents i) (if i_update_parents i then [] else i_parents i) (i_genome i)).

(** individual.py 59-60 *)
Definition set_fitness_not_evaluated (o : oid) : M unit :=
  modify o (fun i => set_fit (set_not_evaluated (i_fit i)) i).

(** individual.py 73-74 *)
Definition ind_augmented (i : ind) : res fval := get_augmented_fitness (i_fit i) (isize i).

Definition augmented (o : oid) : M fval := i <- load o ;; lift (ind_augmented i).
Definition pure_fitness (o : oid) : M fval := i <- load o ;; lift (get_pure_fitness (i_fit i)).

(** individual.py 76-80, both individuals given. *)
Definition ind_better_than (a b : oid) : M bool :=
  x <- load a ;; y <- load b ;;
  liftR (better_than (i_fit x) (isize x) (i_fit y) (isize y)).

Definition load_vec (o : oid) : M vec :=
  i <- load o ;; match i_genome i with GVec v => ret v | GTree _ => raise AttributeError end.
Definition load_tree (o : oid) : M tree :=
  i <- load o ;; match i_genome i with GTree t => ret t | GVec _ => raise AttributeError end.
Definition put_genome (o : oid) (g : genome) : M unit := modify o (set_genome g).

(** [for ind in population: ind.fitness.set_fitness(v)], one individual *)
Definition ind_set_fitness (o : oid) (v : fval) : M unit :=
  i <- load o ;;
  let r := set_fitness (i_fit i) v in
  store o (set_fit (snd r) i) ;;; lift (fst r).
