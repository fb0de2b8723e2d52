(** * Vocabulary for the numbers that a run depends on. *)
From Verif.Model Require Import Num Rng World Evolution.
Open Scope nat_scope.

(** The numbers that two states of the generators give after seeding with [z] are the same. *)
Definition same_stream (z : Z) (g1 g2 : rng) : Prop := (forall i, r_py g1 z i = r_py g2 z i) /\ forall i, r_np g1 z i = r_np g2 z i.

(** The same individuals. *)
Definition same_objects (w1 w2 : world) : Prop := w_heap w1 = w_heap w2 /\ w_next_id w1 = w_next_id w2.
