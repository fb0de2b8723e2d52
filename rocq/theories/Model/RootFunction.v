(** * The creator of trees with a given root function, of the examples.

    Cites: examples/treegp/sklearn_mode/root_function_creator.py 9-54, eckity/creators/gp_creators/tree_creator.py 53-133. *)
From Verif.Model Require Export Creators.
Open Scope nat_scope.
Open Scope list_scope.

(** root_function_creator.py 36-54: [create_tree] is overridden, so the children that [_add_children] (tree_creator.py 125-133) creates
    come from this method again.  [limit] is the number of nested calls the interpreter allows.  Without a root function (the default)
    the constructor of the node raises TypeError (utils.py 98). *)
Fixpoint root_tree (limit : nat) (root : option func) (t : list node) : res (list node) :=
  match limit with
  | O => Raise RecursionError
  | S n =>
      match root with
      | None => Raise TypeError
      | Some f =>
          rbind (function_node f) (fun _ =>
          (fix children (k : nat) (t : list node) : res (list node) :=
             match k with O => Ok t | S k' => rbind (root_tree n root t) (children k') end) (arity f) t)
      end
  end.

(** tree_creator.py 53-78 *)
Definition create_root_trees (limit : nat) (root : option func) (p : gp_params) (n : nat) (h : hibv) : M (list oid) :=
  inds <- repeatM n (new_tree_individual p h) ;;
  iterM (fun o => t <- load_tree o ;; l <- lift (root_tree limit root (t_nodes t)) ;;
                  put_genome o (GTree (with_nodes t l))) inds ;;;
  ret inds.
