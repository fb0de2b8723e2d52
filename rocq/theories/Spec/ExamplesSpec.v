(** * Vocabulary for the example programs. *)
From Coq Require Import QArith.
From Verif.Spec Require Import WorldSpec VectorSpec EvoSpec MoveSpec.
From Verif.Model Require Import Num Fitness Vector World Evolution Setup.
Open Scope nat_scope.
Open Scope list_scope.

(** A string of [len] bits. *)
Definition bits (len : nat) (c : list num) : Prop := length c = len /\ is_bits c.

(** [n] numbers between 0 and 1. *)
Definition unit_cells (len : nat) (c : list num) : Prop :=
  length c = len /\ Forall (fun x => exists q, x = Fin q /\ (0 <= q <= 1)%Q) c.

(** The individual is a vector with these cells. *)
Definition cells_at (w : world) (o : oid) (c : list num) : Prop := exists v, vec_at w o v /\ v_cells v = c.

(** [total] is the sum of the cells. *)
Definition sums_to (c : list num) (total : Q) : Prop :=
  exists qs, c = map Fin qs /\ (total == fold_right Qplus 0 qs)%Q.

(** The table given to the evaluator. *)
Definition as_items (items : list (Q * Q)) : list (num * num) := map (fun p => (Fin (fst p), Fin (snd p))) items.

(** The total of a column of the table over the rows whose bit is set. *)
Fixpoint chosen (column : Q * Q -> Q) (items : list (Q * Q)) (c : list num) : Q :=
  match items, c with
  | it :: items', x :: c' => (if neq_num x (Fin 1) then column it else 0) + chosen column items' c'
  | _, _ => 0
  end%Q.

(** The bag is not too heavy. *)
Definition feasible (items : list (Q * Q)) (limit : Q) (c : list num) : Prop := (chosen fst items c <= limit)%Q.

(** All evaluated individuals are vectors with cells of the kind [K]; [size] of them in each evaluation; and [k] is the number of generations. *)
Definition evaluated_vectors (K : list num -> Prop) (size k : nat) (tr : list tev) (w : world) : Prop :=
  length (evals tr) = S k /\
  forall l, In l (evals tr) -> length l = size /\ forall o, In o l -> exists c, cells_at w o c /\ K c.
