(** * Vocabulary for the fitness properties. *)
From Verif.Model Require Import Base Num Fitness.

(** Calls made on a fitness object. *)
Inductive fop := FSet (v : fval) | FReset.

(** Outcome of a call history, read from the end: [Some (Some v)] the last call stored [v],
    [Some None] the last call was a reset, [None] there was no call. *)
Definition last_effect (h : list fop) : option (option fval) :=
  match rev h with
  | [] => None
  | FSet v :: _ => Some (Some v)
  | FReset :: _ => Some None
  end.

(** The object after the calls. *)
Definition fstep (f : fitness) (o : fop) : fitness :=
  match o with FSet v => snd (set_fitness f v) | FReset => set_not_evaluated f end.
Definition run_calls (h : list fop) (f : fitness) : fitness := fold_left fstep h f.

(** The values stored since the last reset, most recent first, and the oldest of them. *)
Fixpoint leading_sets (h : list fop) : list fval :=
  match h with FSet v :: h' => v :: leading_sets h' | _ => [] end.
Definition since_reset (h : list fop) : list fval := leading_sets (rev h).
Definition first_since_reset (h : list fop) : option fval :=
  match rev (since_reset h) with v :: _ => Some v | [] => None end.

(** An evaluated scalar fitness of a tree/vector of the given size: its augmented value is the number [a]. *)
Definition scores (f : fitness) (size : nat) (a : num) : Prop :=
  is_simple_class (ft_class f) = true /\ ft_evaluated f = true /\
  get_augmented_fitness f size = Ok (VNum a) /\ is_nan a = false.

(** "[a] is better than [b]" for scores, by direction. *)
Definition better_score (higher : bool) (a b : num) : Prop :=
  if higher then nlt b a = true else nlt a b = true.

Definition same_direction (f g : fitness) : Prop := hib_truthy (ft_hib f) = hib_truthy (ft_hib g).

(** What a fitness object keeps for ever: class, caching and evaluation mode, and, for scalar fitness, the direction. *)
Definition fit_kind (f g : fitness) : Prop :=
  ft_class g = ft_class f /\ ft_cache g = ft_cache f /\ ft_relative g = ft_relative f /\
  (is_simple_class (ft_class f) = true -> ft_hib g = ft_hib f).
