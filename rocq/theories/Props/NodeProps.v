(** Properties of tree nodes as objects: C28. *)
From Verif.Spec Require Import WorldSpec NodeSpec.
From Verif.Proofs Require NodeP NodeCloneP.
From Verif.Model Require Import NodeStore.
Open Scope nat_scope.
Open Scope list_scope.

(** ** C28 *)

(** Cloning, subtree crossover, subtree mutation and ERC mutation, in any order and number, with failures and
    retries, never make two places (of one or two trees) refer to the same node object. *)
Theorem C28_never_shared : forall ops s, Forall proper_op ops -> unshared s -> allocated s ->
  unshared (snd (run_ops on_objects ops s)) /\ allocated (snd (run_ops on_objects ops s)).
Proof. exact NodeP.C28_never_shared. Qed.
Print Assumptions C28_never_shared.

(** All results, exceptions included, and all trees are those of the model in which trees are copied by value. *)
Theorem C28_like_values : forall ops s w, Forall proper_op ops -> unshared s -> allocated s -> same_view s w ->
  fst (run_ops on_objects ops s) = fst (run_ops on_values ops w) /\
  same_view (snd (run_ops on_objects ops s)) (snd (run_ops on_values ops w)).
Proof. exact NodeP.C28_like_values. Qed.
Print Assumptions C28_like_values.

(** A tree not given to any crossover or mutation keeps its node objects, and what they hold. *)
Theorem C28_others_untouched : forall ops s o p, Forall proper_op ops -> unshared s -> allocated s ->
  nth_error (s_trees s) o = Some p -> (forall op, In op ops -> ~ In o (op_changes op)) ->
  nth_error (s_trees (snd (run_ops on_objects ops s))) o = Some p /\
  tree_value (s_objs (snd (run_ops on_objects ops s))) p = tree_value (s_objs s) p.
Proof. exact NodeP.C28_others_untouched. Qed.
Print Assumptions C28_others_untouched.

(** A clone consists of new objects only and looks like the original; nothing else changes.  Even if the original has one
    object at several places, exactly these places of the clone have one object. *)
Theorem C28_clone : forall s o p, allocated s -> nth_error (s_trees s) o = Some p ->
  exists new p', clone_objects o s = (Ok (length (s_trees s)), mkStore (s_objs s ++ new) (s_trees s ++ [p']) (s_rng s)) /\
    tree_value (s_objs s ++ new) p' = tree_value (s_objs s) p /\
    (forall a, In a (p_nodes p') -> length (s_objs s) <= a) /\
    (forall i j a b a' b', nth_error (p_nodes p) i = Some a -> nth_error (p_nodes p) j = Some b ->
       nth_error (p_nodes p') i = Some a' -> nth_error (p_nodes p') j = Some b' -> (a' = b' <-> a = b)).
Proof. exact NodeCloneP.clone_any. Qed.
Print Assumptions C28_clone.

(** *** Examples *)
Definition plus2 : func := mkFunc 1 "add" [None; None] None.
Definition x_node : node := TNode (TVar "x") None.
Definition c_node (k : Z) : node := TNode (TNum true (Fin (inject_Z k)) 0) None.
Definition of_addrs (l : list nat) : ptree := mkPtree [plus2] [(TVar "x", None)] None None l.

(** add(x, 2) and add(5, x) *)
Definition start (l : list draw) : nstore :=
  mkStore [FNode plus2; x_node; c_node 2; FNode plus2; c_node 5; x_node]
          [of_addrs [0; 1; 2]; of_addrs [3; 4; 5]] (tape l).

Definition names (s : nstore) : list (list nat) := map p_nodes (s_trees s).

Definition history : list nop :=
  [NClone 0; NCrossover 2 1 [0; 1]; NErc (Fin 0) (Fin 1) 1 [1]; NMutation 1 2 1 [2]].

Lemma start_unshared l : unshared (start l) /\ allocated (start l).
Proof.
  apply NodeP.inv_iff. intros a. unfold NodeP.total, start. cbn [s_trees s_objs].
  do 6 (destruct a as [|a]; [vm_compute; split; auto; intros; repeat constructor|]).
  vm_compute. split; auto. intros H. inversion H.
Qed.

(** The clone has new objects; the crossover exchanges the constants, the ERC mutation then changes the constant 2
    where it is now, in tree 1, and not in the clone of tree 0. *)
Example C28_example :
  let s := start [mkDraw 2 0; mkDraw 1 0; mkDraw 0 0; mkDraw 0 (1#1); mkDraw 7 0; mkDraw 0 0; mkDraw 0 0;
                  mkDraw 0 0; mkDraw 0 0; mkDraw 0 0; mkDraw 0 0; mkDraw 0 0; mkDraw 0 0; mkDraw 0 0] in
  let s' := snd (run_ops on_objects history s) in
  Forall proper_op history /\
  names s' = [[0; 1; 4]; [3; 2; 5]; [9; 10; 11]] /\
  map t_nodes (map (tree_value (s_objs s')) (s_trees s')) =
    [[FNode plus2; x_node; c_node 5]; [FNode plus2; TNode (TNum true (Fin (3#1)) 7) None; x_node];
     [FNode plus2; x_node; x_node]].
Proof.
  split.
  - unfold history, proper_op. repeat constructor; cbn; intuition discriminate.
  - vm_compute. auto.
Qed.

(** add(x, x) with one object for both x. *)
Example C28_clone_example :
  let s := mkStore [FNode plus2; x_node] [of_addrs [0; 1; 1]] (tape []) in
  names (snd (clone_objects 0 s)) = [[0; 1; 1]; [2; 3; 3]] /\ s_objs (snd (clone_objects 0 s)) = [FNode plus2; x_node; FNode plus2; x_node].
Proof. vm_compute. auto. Qed.

(** What the theorems do not cover.  If one individual is given twice to a crossover, a node object may end up at two
    places (and the tree need not be a tree any more). *)
Theorem C28_twice_refuted : exists s inds, unshared s /\ allocated s /\
  let s' := snd (run_ops on_objects [NCrossover 2 1 inds] s) in ~ unshared s'.
Proof.
  exists (start [mkDraw 0 0; mkDraw 2 0]), [0; 0].
  split; [apply start_unshared|]. split; [apply start_unshared|].
  intros s' U. assert (E : names s' = [[2; 1; 2]; [3; 4; 5]]) by (vm_compute; reflexivity).
  destruct (U 2 0 0 0 2) as [_ D]; [| |discriminate].
  - exists (of_addrs [2; 1; 2]). split; [vm_compute; reflexivity|reflexivity].
  - exists (of_addrs [2; 1; 2]). split; [vm_compute; reflexivity|reflexivity].
Qed.
Print Assumptions C28_twice_refuted.

(** And if two trees share an object to begin with, a mutation of one is seen in the other. *)
Theorem C28_shared_start_refuted : exists s mu sigma, allocated s /\
  let s' := snd (run_ops on_objects [NErc mu sigma 1 [0]] s) in
  exists p, nth_error (s_trees s) 1 = Some p /\ nth_error (s_trees s') 1 = Some p /\
    tree_value (s_objs s') p <> tree_value (s_objs s) p.
Proof.
  exists (mkStore [c_node 2] [of_addrs [0]; of_addrs [0]] (tape [mkDraw 0 0; mkDraw 0 (1#1)])), (Fin 0), (Fin 1).
  split.
  - intros o i a (p & Ep & Ei). cbn in *. destruct o as [|[|[|o]]]; cbn in Ep; try discriminate; injection Ep as <-;
      destruct i as [|[|i]]; cbn in Ei; try discriminate; injection Ei as <-; auto.
  - exists (of_addrs [0]). split; [reflexivity|]. split; [vm_compute; reflexivity|]. vm_compute. discriminate.
Qed.
Print Assumptions C28_shared_start_refuted.
