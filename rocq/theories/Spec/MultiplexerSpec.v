(** * Vocabulary for the multiplexer programs. *)
From Coq Require Import QArith String.
From Verif.Spec Require Import WorldSpec.
From Verif.Model Require Import Num Tree World BaseFns Multiplexer.
Open Scope nat_scope.
Open Scope list_scope.

(** Eight data lines follow three select lines; the selected one. *)
Definition mux (i : list bool) : bool :=
  nth (4 * Nat.b2n (nth 0 i false) + 2 * Nat.b2n (nth 1 i false) + Nat.b2n (nth 2 i false)) (skipn 3 i) false.

(** [n] of the inputs are answered correctly. *)
Definition right_answers (out : list bool -> bool) (n : nat) : Prop :=
  exists l, NoDup l /\ (forall i, In i l <-> length i = 11 /\ out i = mux i) /\ length l = n.

(** The keyword arguments. *)
Definition mux_arguments (typed : bool) (i : list bool) : list (string * el) :=
  combine ["s0"; "s1"; "s2"; "d0"; "d1"; "d2"; "d3"; "d4"; "d5"; "d6"; "d7"]%string (map (fun b : bool => if typed then EBool b else EInt (if b then 1 else 0)%Z) i).
Definition mux_answer (typed b : bool) : el := if typed then EBool b else EInt (if b then 1 else 0)%Z.

(** The individual is a tree of [size] nodes that computes [out]. *)
Definition computes (fsem : func -> list el -> res el) (typed : bool) (w : world) (o : oid) (out : list bool -> bool) (size : nat) : Prop :=
  exists t, tree_at w o t /\ length (t_nodes t) = size /\
    forall i, length i = 11 -> execute el fsem el_const t (mux_arguments typed i) = Ok (mux_answer typed (out i)).

(** The share of correct answers. *)
Definition share (n : nat) : Q := inject_Z (Z.of_nat n) / 2048.
