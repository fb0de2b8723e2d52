(** * What it means that tree nodes are not shared. *)
From Verif.Model Require Export NodeStore.
Open Scope nat_scope.
Open Scope list_scope.

(** Address [a] is node number [i] of tree number [o]. *)
Definition occurs (s : nstore) (o i a : nat) : Prop :=
  exists p, nth_error (s_trees s) o = Some p /\ nth_error (p_nodes p) i = Some a.

(** Every node object occurs at one place of one tree only. *)
Definition unshared (s : nstore) : Prop :=
  forall a o i o' i', occurs s o i a -> occurs s o' i' a -> o = o' /\ i = i'.

(** All nodes are objects. *)
Definition allocated (s : nstore) : Prop :=
  forall o i a, occurs s o i a -> a < length (s_objs s).

(** The same situation with trees by value: the same random numbers are to come, and each individual's tree looks
    like the corresponding tree of objects. *)
Definition same_view (s : nstore) (w : world) : Prop :=
  w_rng w = s_rng s /\
  length (w_heap w) = length (s_trees s) /\
  forall o p, nth_error (s_trees s) o = Some p ->
    exists i, nth_error (w_heap w) o = Some i /\ i_genome i = GTree (tree_value (s_objs s) p).

(** The individuals an operation is given. *)
Definition op_inds (op : nop) : list nat :=
  match op with
  | NClone o => [o]
  | NCrossover _ _ inds | NMutation _ _ _ inds | NErc _ _ _ inds => inds
  end.

(** The individuals an operation may change. *)
Definition op_changes (op : nop) : list nat :=
  match op with
  | NClone _ => []
  | _ => op_inds op
  end.

(** No individual is given twice. *)
Definition proper_op (op : nop) : Prop := NoDup (op_inds op).
