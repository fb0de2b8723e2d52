(** * Vocabulary for how often random choices are made. *)
From Coq Require Import List QArith Qround Permutation Sorted.
From Verif.Model Require Import Num Rng Vector Tree World Operators.
Import ListNotations.
From Verif.Spec Require Import TreeSpec ReachSpec PressureSpec MoveSpec.
Open Scope nat_scope.
Open Scope list_scope.

(** The numbers that [random()] chooses from, as multiples of 2^-53. *)
Definition unit_draw (k : N) : Prop := (k < 2 ^ 53)%N.
Definition unit_value (k : N) : Q := Z.of_N k # 9007199254740992.

(** How many of them are at most [q]. *)
Definition at_most (q : Q) : Z := Z.max 0 (Z.min (2 ^ 53) (Qfloor (q * inject_Z (2 ^ 53)) + 1)).

(** The same operator, always applied. *)
Definition certain (op : oper) : oper := mkOper (op_kind op) (Fin 1) (op_arity op) (op_attempts op).

(** [m] of the 2^53 numbers is a share of [x] / [total] of them, to less than one. *)
Definition share (m : nat) (x total : Q) : Prop :=
  (inject_Z (2 ^ 53) * x < (inject_Z (Z.of_nat m) + 1) * total /\ (inject_Z (Z.of_nat m) - 1) * total < inject_Z (2 ^ 53) * x)%Q.

Fixpoint qtotal (qs : list Q) : Q := match qs with [] => 0 | q :: r => q + qtotal r end.

(** The sets of [k] cut points strictly inside vectors of [n] cells, in order. *)
Definition cut_points (k n : nat) (pts : list nat) : Prop := length pts = k /\ StronglySorted lt pts /\ forall p, In p pts -> 1 <= p < n.

(** The sets of [k] cells out of [n]. *)
Definition cell_set (k n : nat) (pts : list nat) : Prop := length pts = k /\ NoDup pts /\ forall p, In p pts -> p < n.

(** The generators after [n] more draws of Python's. *)
Definition later (n : nat) (g : rng) : rng := mkRng (r_py g) (r_np g) (r_pyseed g) (r_pypos g + n) (r_npseed g) (r_nppos g).

(** Gaussian mutations fall back on uniform ones, which are applied with the same probability again. *)
Definition no_fallback (op : oper) : Prop :=
  match op_kind op with OVecMut (MGaussOne _ _) _ | OVecMut (MGaussN _ _) _ => False | _ => True end.

(** How often [n] is among the nodes [l]. *)
Definition occurrences (n : node) (l : list node) (m : nat) : Prop := number_of (fun i => nth_error l i = Some n) m.

(** How many positions of [t] hold a node that may be chosen. *)
Definition open_positions (wanted : option ty) (t : tree) (m : nat) : Prop :=
  number_of (fun i => exists root n, hd_error (t_nodes t) = Some root /\ nth_error (t_nodes t) i = Some n /\ eligible root wanted n) m.
