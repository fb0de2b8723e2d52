(** * Vocabulary for what the next generation of a run can be. *)
From Verif.Model Require Import Num Rng Vector Tree World Operators Creators Evolution.
From Verif.Spec Require Import WorldSpec VectorSpec TreeSpec ReachSpec MoveSpec.
Open Scope nat_scope.
Open Scope list_scope.

(** The same generators, where Python's generator will give other numbers after it was seeded with [seed]. *)
Definition other_stream (seed : Z) (g g' : rng) : Prop :=
  r_np g' = r_np g /\ r_pyseed g' = r_pyseed g /\ r_pypos g' = r_pypos g /\ r_npseed g' = r_npseed g /\ r_nppos g' = r_nppos g /\
  forall s i, s <> seed -> r_py g' s i = r_py g s i.

(** The seed of generation [k]. *)
Definition seed_at (a : algo) (k : nat) : Z := ((a_gen_seed a + Z.of_nat k) mod 2 ^ 32)%Z.

(** Mutations which draw all cells anew, or may do so. *)
Definition redraws (m : vmut) (n len : nat) : Prop :=
  match m with
  | MUniformOne | MUniformN | MIntN => n = len
  | MIntOne p => can_happen p
  | _ => False
  end.

(** Bit strings of one length. *)
Definition bit_genomes (len : nat) (g : genome) : Prop := exists v, g = GVec v /\ bit_string v /\ vsize v = len.

(** Crossovers with fitting points and bit mutations. *)
Definition bit_operator (len : nat) (op : oper) : Prop :=
  match op_kind op with
  | OKPoint p => op_arity op = 2 /\ p < len
  | OVecMut m n => bit_mut m /\ 1 <= op_attempts op /\ n <= len
  | _ => False
  end.

(** The genome of an individual. *)
Definition genome_now (w : world) (o : oid) : option genome := option_map i_genome (at_ w o).

(** Functions without type hints, and no root type. *)
Definition untyped (t : tree) : Prop := t_root_type t = None /\ forall f, In f (t_fset t) -> f_ret f = None.
