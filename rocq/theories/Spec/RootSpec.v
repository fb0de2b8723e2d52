(** * Roots of the trees of a population. *)
From Verif.Model Require Import Tree World.
From Verif.Spec Require Import WorldSpec.
Open Scope nat_scope.
Open Scope list_scope.

(** The individual is a tree with the root [n]. *)
Definition rooted (w : world) (o : oid) (n : node) : Prop :=
  exists i t l, at_ w o = Some i /\ i_genome i = GTree t /\ t_nodes t = n :: l.

(** The same function, the same variable, or two numbers, of one type. *)
Definition same_symbol (n n' : node) : Prop :=
  n' = n \/ exists b x tag b' x' tag' ty, n = TNode (TNum b x tag) ty /\ n' = TNode (TNum b' x' tag') ty.

(** The node has a type. *)
Definition has_type (n : node) : Prop := exists a, node_type n = Some a.
