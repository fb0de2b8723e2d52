(** * Fitness objects.

    Cites: eckity/fitness/fitness.py 28-129, eckity/fitness/simple_fitness.py 28-157,
    eckity/fitness/gp_fitness.py 35-78, eckity/multi_objective_evolution/nsga2_fitness.py 11-140.

    A fitness object is a record; the class is a tag.  The value is dynamic, as in Python: absent,
    a number, a list of objectives, or (after the 'submit' evaluation path) some other object. *)
From Verif.Model Require Export Base Num Rng.

Inductive fval :=
| VNone
| VNum (x : num)
| VList (l : list num)
| VObj (o : nat).   (** an object that supports no arithmetic and no ordering *)

Inductive fclass :=
| KSimple
| KGP (bloat_weight : num)
| KNSGA2.

(** [higher_is_better]: one flag, or one flag per objective. *)
Inductive hibv := HB (b : bool) | HL (l : list bool).

Record fitness := mkFit {
  ft_class : fclass;
  ft_value : fval;
  ft_evaluated : bool;      (* _is_evaluated *)
  ft_hib : hibv;
  ft_cache : bool;
  ft_relative : bool;
  ft_crowding : num;        (* NSGA2 only *)
  ft_rank : num             (* NSGA2 only: front_rank *)
}.

(** simple_fitness.py 28-42 and fitness.py 28-40; gp_fitness.py 35-49.  [hib = None] is a missing flag. *)
Definition simple_fitness_init (c : fclass) (v : fval) (hib : option bool) (cache relative : bool)
  : res fitness :=
  match hib with
  | None => Raise ValueError
  | Some b =>
      Ok (mkFit c v (match v with VNone => false | _ => true end) (HB b)
                (if relative then false else cache) relative (Fin 0) PInf)
  end.

Definition with_value (f : fitness) (v : fval) (e : bool) : fitness :=
  mkFit (ft_class f) v e (ft_hib f) (ft_cache f) (ft_relative f) (ft_crowding f) (ft_rank f).

Definition with_hib (f : fitness) (h : hibv) : fitness :=
  mkFit (ft_class f) (ft_value f) (ft_evaluated f) h (ft_cache f) (ft_relative f)
        (ft_crowding f) (ft_rank f).

Definition with_moo (f : fitness) (crowd rank : num) : fitness :=
  mkFit (ft_class f) (ft_value f) (ft_evaluated f) (ft_hib f) (ft_cache f) (ft_relative f)
        crowd rank.

(** nsga2_fitness.py 12-29: a given list of objectives expands a single flag at once; [len] of a number raises. *)
Definition nsga2_fitness_init (v : fval) (hib : option hibv) (cache relative : bool) : res fitness :=
  match hib with
  | None => Raise ValueError
  | Some h =>
      let f h' := Ok (mkFit KNSGA2 v (match v with VNone => false | _ => true end) h'
                            (if relative then false else cache) relative (Fin 0) PInf) in
      match v, h with
      | VNone, _ => f h
      | _, HL _ => f h
      | VList l, HB b => f (HL (repeat b (length l)))
      | _, HB _ => Raise TypeError
      end
  end.

(** simple_fitness.py 44-54; nsga2_fitness.py 31-37 (refuses a second evaluation, and expands a
    single flag to one flag per objective: [len(fitness)] needs a list).
    The result pairs the new state with the exception, since the state is changed first. *)
Definition set_fitness (f : fitness) (v : fval) : res unit * fitness :=
  match ft_class f with
  | KNSGA2 =>
      if ft_evaluated f then (Raise AttributeError, f)
      else let f1 := with_value f v true in
           match ft_hib f with
           | HB b => match v with
                     | VList l => (Ok tt, with_hib f1 (HL (repeat b (length l))))
                     | _ => (Raise TypeError, f1)
                     end
           | HL _ => (Ok tt, f1)
           end
  | _ => (Ok tt, with_value f v true)
  end.

(** simple_fitness.py 70-76; nsga2_fitness.py 45-50 (also resets crowding and rank). *)
Definition set_not_evaluated (f : fitness) : fitness :=
  match ft_class f with
  | KNSGA2 => with_moo (with_value f VNone false) (Fin 0) PInf
  | _ => with_value f VNone false
  end.

(** simple_fitness.py 56-68; nsga2_fitness.py 39-43. *)
Definition get_pure_fitness (f : fitness) : res fval :=
  if ft_evaluated f then Ok (ft_value f) else Raise ValueError.

(** Truth value of [higher_is_better]: a non-empty list is truthy. *)
Definition hib_truthy (h : hibv) : bool :=
  match h with HB b => b | HL l => negb (length l =? 0) end.

(** fitness.py 49-64 (default: the pure fitness); gp_fitness.py 51-78.
    [size] is [individual.size()]. *)
Definition get_augmented_fitness (f : fitness) (size : nat) : res fval :=
  rbind (get_pure_fitness f) (fun score =>
  match ft_class f with
  | KGP w =>
      if neq_num w (Fin 0) then Ok score
      else match score with
           | VNum s => if hib_truthy (ft_hib f)
                       then Ok (VNum (nsub s (nmul w (nof_nat size))))
                       else Ok (VNum (nadd s (nmul w (nof_nat size))))
           | _ => Raise TypeError
           end
  | _ => Ok score
  end).

(** fitness.py 118-129. *)
Definition is_fitness_evaluated (f : fitness) : bool :=
  if ft_relative f then true else ft_evaluated f.

(** Python's [<] on fitness values: numbers, or lists (lexicographic); else TypeError. *)
Definition fval_lt (a b : fval) : res bool :=
  match a, b with
  | VNum x, VNum y => Ok (nlt x y)
  | VList x, VList y => Ok (list_lt x y)
  | _, _ => Raise TypeError
  end.

(** Python's [==] never raises. *)
Definition fval_eq (a b : fval) : bool :=
  match a, b with
  | VNum x, VNum y => neq_num x y
  | VList x, VList y => list_eqn x y
  | VNone, VNone => true
  | VObj x, VObj y => Nat.eqb x y
  | _, _ => false
  end.

Definition is_simple_class (c : fclass) : bool :=
  match c with KNSGA2 => false | _ => true end.

(** simple_fitness.py 78-92. *)
Definition check_comparable (f g : fitness) : res unit :=
  if negb (is_simple_class (ft_class g)) then Raise TypeError
  else if negb (is_fitness_evaluated f) || negb (is_fitness_evaluated g) then Raise ValueError
  else Ok tt.

(** simple_fitness.py 95-123 ([>] is [<] with swapped operands). *)
Definition simple_better_than (f : fitness) (size : nat) (g : fitness) (gsize : nat) : res bool :=
  rbind (check_comparable f g) (fun _ =>
  rbind (get_augmented_fitness f size) (fun a =>
  rbind (get_augmented_fitness g gsize) (fun b =>
  if hib_truthy (ft_hib f) then fval_lt b a else fval_lt a b))).

(** simple_fitness.py 126-150. *)
Definition simple_equal_to (f : fitness) (size : nat) (g : fitness) (gsize : nat) : res bool :=
  rbind (check_comparable f g) (fun _ =>
  rbind (get_augmented_fitness f size) (fun a =>
  rbind (get_augmented_fitness g gsize) (fun b => Ok (fval_eq a b)))).

(** nsga2_fitness.py 52-64. *)
Definition nsga2_check_comparable (f g : fitness) (gsize size : nat) : res unit :=
  if is_simple_class (ft_class g) then Raise TypeError
  else if negb (is_fitness_evaluated f) || negb (is_fitness_evaluated g) then Raise ValueError
  else rbind (get_augmented_fitness g gsize) (fun b =>
       rbind (get_augmented_fitness f size) (fun a =>
       match b, a with
       | VList lb, VList la => if length lb =? length la then Ok tt else Raise ValueError
       | _, _ => Raise TypeError
       end)).

(** nsga2_fitness.py 66-85: with an infinite own rank the answer is a random bit. *)
Definition nsga2_better_than (f : fitness) (size : nat) (g : fitness) (gsize : nat) : R bool :=
  if neq_num (ft_rank f) PInf then random_bool
  else lift (nsga2_check_comparable f g gsize size) ;;;
       if neq_num (ft_rank f) (ft_rank g) then ret (nlt (ft_crowding g) (ft_crowding f))
       else ret (nlt (ft_rank g) (ft_rank f)).

(** nsga2_fitness.py 87-91: neither the objectives nor their evaluation are looked at. *)
Definition nsga2_equal_to (f g : fitness) : bool :=
  neq_num (ft_rank f) (ft_rank g) && neq_num (ft_crowding f) (ft_crowding g).

Definition better_than (f : fitness) (size : nat) (g : fitness) (gsize : nat) : R bool :=
  match ft_class f with
  | KNSGA2 => nsga2_better_than f size g gsize
  | _ => lift (simple_better_than f size g gsize)
  end.

(** nsga2_fitness.py 109-143: comparison of one objective. *)
Definition o1_at_least_o2 (o1 o2 : num) (h : bool) : bool := if h then nle o2 o1 else nle o1 o2.
Definition o1_better_o2 (o1 o2 : num) (h : bool) : bool := if h then nlt o2 o1 else nlt o1 o2.

(** [zip] of three lists. *)
Fixpoint zip3 (h : list bool) (a b : list num) : list (bool * num * num) :=
  match h, a, b with
  | x :: h', y :: a', z :: b' => (x, y, z) :: zip3 h' a' b'
  | _, _, _ => []
  end.

(** nsga2_fitness.py 97-107 on objective lists. *)
Definition dominates (h : list bool) (a b : list num) : bool :=
  forallb (fun t => match t with (x, y, z) => o1_at_least_o2 y z x end) (zip3 h a b)
  && existsb (fun t => match t with (x, y, z) => o1_better_o2 y z x end) (zip3 h a b).

(** nsga2_fitness.py 93-107: [zip] over a plain bool raises TypeError. *)
Definition dominate (f : fitness) (size : nat) (g : fitness) (gsize : nat) : res bool :=
  rbind (nsga2_check_comparable f g gsize size) (fun _ =>
  match ft_hib f, ft_value f, ft_value g with
  | HL h, VList a, VList b => Ok (dominates h a b)
  | _, _, _ => Raise TypeError
  end).

(** simple_fitness.py 152-157: what pickling and deepcopy keep.  NSGA2Fitness has the same
    method (nsga2_fitness.py 151-156): crowding and rank are kept. *)
Definition fit_getstate (f : fitness) : fitness :=
  if ft_cache f then f else with_value f VNone false.
