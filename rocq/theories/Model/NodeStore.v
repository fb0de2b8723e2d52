(** * Tree nodes as objects.

    Cites: eckity/genetic_encodings/gp/tree/tree_individual.py 89, 311-377, tree_node.py 37-102,
    genetic_operators/crossovers/subtree_crossover.py 22-105, mutations/subtree_mutation.py 26-80,
    mutations/erc_mutation.py 24-47, individual.py 62-68.

    The other model files copy trees by value.  In Python a tree is a list of references to node objects;
    SubtreeCrossover moves references from one tree to another, and ERCMutation assigns to the [value] of a node
    object.  Here a tree is a list of addresses into a store of node objects.  Only the trees of the individuals are
    kept (not id, fitness, lineage); objects are never freed.  Lists themselves are not objects: no operation below
    changes a list in place ([replace_subtree] assigns a new one). *)
From Verif.Model Require Export Operators.
Open Scope nat_scope.
Open Scope list_scope.

(** tree_individual.py 72-89; the nodes are addresses. *)
Record ptree := mkPtree {
  p_fset : list func;
  p_tset : list (tval * option ty);
  p_erc : option erc;
  p_root_type : option ty;
  p_nodes : list nat
}.

Definition with_addrs (p : ptree) (l : list nat) : ptree :=
  mkPtree (p_fset p) (p_tset p) (p_erc p) (p_root_type p) l.

(** The node objects, the trees of all individuals (by position), and the random generator. *)
Record nstore := mkStore {
  s_objs : list node;
  s_trees : list ptree;
  s_rng : rng
}.

Definition H (A : Type) := SE nstore A.

(** The contents of an object.  Every address in a tree is that of an object. *)
Definition node_at (objs : list node) (a : nat) : node := nth a objs (TNode (TVar "") None).

(** What a tree looks like from outside. *)
Definition tree_value (objs : list node) (p : ptree) : tree :=
  mkTree (p_fset p) (p_tset p) (p_erc p) (p_root_type p) (map (node_at objs) (p_nodes p)).

Definition liftN {A} (m : R A) : H A :=
  fun s => match m (s_rng s) with (r, g) => (r, mkStore (s_objs s) (s_trees s) g) end.

Definition objects : H (list node) := fun s => (Ok (s_objs s), s).

Definition load_ptree (o : nat) : H ptree :=
  fun s => match nth_error (s_trees s) o with
           | Some p => (Ok p, s)
           | None => (Raise AttributeError, s)
           end.

(** [individual.tree = l] *)
Definition put_addrs (o : nat) (l : list nat) : H unit :=
  p <- load_ptree o ;;
  fun s => (Ok tt, mkStore (s_objs s) (list_set (s_trees s) o (with_addrs p l)) (s_rng s)).

(** A new node object. *)
Definition new_node (n : node) : H nat :=
  fun s => (Ok (length (s_objs s)), mkStore (s_objs s ++ [n]) (s_trees s) (s_rng s)).

(** Assignment to an attribute of a node object. *)
Definition write_node (a : nat) (n : node) : H unit :=
  fun s => (Ok tt, mkStore (list_set (s_objs s) a n) (s_trees s) (s_rng s)).

(** [list.index]: the same object, or an equal one. *)
Definition same_node (objs : list node) (a b : nat) : bool :=
  (a =? b) || node_eqb (node_at objs a) (node_at objs b).

(** tree_individual.py 350-357 *)
Definition subtree_at (objs : list node) (p : ptree) (a : nat) : res (list nat) :=
  match find_index (fun x => same_node objs x a) (p_nodes p) with
  | None => Raise ValueError
  | Some 0 => Ok (p_nodes p)
  | Some i => rbind (find_subtree_end (S (length (p_nodes p))) (p_fset p) (map (node_at objs) (p_nodes p)) i)
                (fun r => Ok (py_slice (p_nodes p) (Z.of_nat i) (Z.of_nat (snd r) + 1)))
  end.

(** tree_individual.py 331-348 *)
Definition pick_addrs (nt : option ty) (o : nat) : H (option (list nat)) :=
  p <- load_ptree o ;;
  objs <- objects ;;
  match p_nodes p with
  | [] => ret None
  | root :: _ =>
      match filter (fun a => subtree_candidate (node_at objs root) nt (node_at objs a)) (p_nodes p) with
      | [] => ret None
      | cands => a <- liftN (choice cands) ;; s <- lift (subtree_at objs p a) ;; ret (Some s)
      end
  end.

(** tree_individual.py 359-377 *)
Definition replace_addrs (objs : list node) (p : ptree) (old new : list nat) : res (list nat) :=
  match old with
  | [] => Raise IndexError
  | o :: _ =>
      match find_index (fun x => same_node objs x o) (p_nodes p) with
      | None => Raise ValueError
      | Some i => Ok (firstn i (p_nodes p) ++ new ++ skipn (i + length old) (p_nodes p))
      end
  end.

(** subtree_crossover.py 66-87 *)
Definition pick_all_addrs (inds : list nat) : H (option (list (list nat))) :=
  match inds with
  | [] => raise IndexError
  | a :: rest =>
      s <- pick_addrs None a ;;
      match s with
      | None => ret None
      | Some [] => raise IndexError
      | Some (n :: l) =>
          objs <- objects ;;
          rs <- mapM (pick_addrs (node_type (node_at objs n))) rest ;;
          ret (match all_somes rs with
               | None => None
               | Some ss => Some ((n :: l) :: ss)
               end)
      end
  end.

(** subtree_crossover.py 90-105 *)
Definition swap_one_addrs (subtrees : list (list nat)) (oi : nat * nat) : H unit :=
  match oi with
  | (i, o) =>
      old <- lift (py_get subtrees (Z.of_nat i)) ;;
      new <- lift (py_get subtrees (Z.of_nat i - 1)) ;;
      p <- load_ptree o ;;
      objs <- objects ;;
      l <- lift (replace_addrs objs p old new) ;;
      put_addrs o l
  end.

(** subtree_crossover.py 22-63 *)
Definition xo_objects (arity : nat) (inds : list nat) : H bool :=
  if negb (length inds =? arity) then raise ValueError
  else ss <- pick_all_addrs inds ;;
       match ss with
       | None => ret false
       | Some subtrees =>
           iterM (swap_one_addrs subtrees) (rev (combine (seq 0 (length inds)) inds)) ;;; ret true
       end.

(** subtree_mutation.py 50-80: [create_tree] appends one new node object after the other; the objects are made
    here after the whole tree has been drawn. *)
Definition mut_one_objects (mn mx : nat) (oi : nat * list nat) : H unit :=
  match oi with
  | (o, old) =>
      p <- load_ptree o ;;
      match old with
      | [] => raise IndexError
      | n :: _ =>
          objs <- objects ;;
          new <- liftN (grow_tree (grow_fuel mn mx 0) (tree_value objs p) mn mx (Fin (1 # 2)) 0
                                  (node_type (node_at objs n))) ;;
          addrs <- mapM new_node new ;;
          objs' <- objects ;;
          l <- lift (replace_addrs objs' p old addrs) ;;
          put_addrs o l
      end
  end.

(** subtree_mutation.py 26-48 *)
Definition mut_objects (mn mx : nat) (inds : list nat) : H bool :=
  olds <- mapM (pick_addrs None) inds ;;
  match all_somes olds with
  | None => ret false
  | Some ss => iterM (mut_one_objects mn mx) (combine inds ss) ;;; ret true
  end.

(** tree_individual.py 311-329: the object itself. *)
Definition numeric_object (o : nat) : H (option nat) :=
  p <- load_ptree o ;;
  objs <- objects ;;
  match filter (fun a => is_numeric_node (node_at objs a)) (p_nodes p) with
  | [] => ret None
  | l => a <- liftN (choice l) ;; ret (Some a)
  end.

(** erc_mutation.py 43-44 *)
Definition erc_one_object (mu sigma : num) (a : nat) : H unit :=
  g <- liftN (gauss mu sigma) ;;
  d <- liftN next_draw ;;
  objs <- objects ;;
  write_node a (add_noise g (d_n d) (node_at objs a)).

(** erc_mutation.py 24-47 *)
Definition erc_objects (mu sigma : num) (inds : list nat) : H bool :=
  leaves <- mapM numeric_object inds ;;
  match all_somes leaves with
  | None => ret false
  | Some l => iterM (erc_one_object mu sigma) l ;;; ret true
  end.

(** [deepcopy] of the list of nodes: an object that was already copied is not copied again ([memo]). *)
Fixpoint memo_get (a : nat) (memo : list (nat * nat)) : option nat :=
  match memo with
  | [] => None
  | (k, b) :: memo' => if a =? k then Some b else memo_get a memo'
  end.

Fixpoint copy_addrs (memo : list (nat * nat)) (l : list nat) : H (list nat) :=
  match l with
  | [] => ret []
  | a :: l' =>
      match memo_get a memo with
      | Some b => bs <- copy_addrs memo l' ;; ret (b :: bs)
      | None => objs <- objects ;;
                b <- new_node (node_at objs a) ;;
                bs <- copy_addrs ((a, b) :: memo) l' ;; ret (b :: bs)
      end
  end.

(** individual.py 62-68 *)
Definition clone_objects (o : nat) : H nat :=
  p <- load_ptree o ;;
  l <- copy_addrs [] (p_nodes p) ;;
  fun s => (Ok (length (s_trees s)), mkStore (s_objs s) (s_trees s ++ [with_addrs p l]) (s_rng s)).

(** ** Sequences of operations.  Operators are retried [attempts] times (failable_operator.py 43-69). *)
Inductive nop :=
| NClone (o : nat)
| NCrossover (arity attempts : nat) (inds : list nat)
| NMutation (mn mx attempts : nat) (inds : list nat)
| NErc (mu sigma : num) (attempts : nat) (inds : list nat).

(** With node objects.  The result is that of the operation (an individual or the payload). *)
Definition on_objects (op : nop) : H (list nat) :=
  let failable attempts (attempt : H bool) inds :=
    failable_apply attempts (fun _ => ok <- attempt ;; ret (ok, inds)) (ret inds) in
  match op with
  | NClone o => c <- clone_objects o ;; ret [c]
  | NCrossover k n inds => failable n (xo_objects k inds) inds
  | NMutation mn mx n inds => failable n (mut_objects mn mx inds) inds
  | NErc mu sigma n inds => failable n (erc_objects mu sigma inds) inds
  end.

(** With trees copied by value (World.v, Operators.v). *)
Definition on_values (op : nop) : M (list nat) :=
  let failable attempts (attempt : M bool) inds :=
    failable_apply attempts (fun _ => ok <- attempt ;; ret (ok, inds)) (ret inds) in
  match op with
  | NClone o => c <- clone o ;; ret [c]
  | NCrossover k n inds => failable n (xo_attempt k inds) inds
  | NMutation mn mx n inds => failable n (mut_attempt mn mx inds) inds
  | NErc mu sigma n inds => failable n (erc_attempt mu sigma inds) inds
  end.

(** One operation after the other; an exception ends one operation, not the sequence.  The results of all
    operations are collected. *)
Fixpoint run_ops {S} (step : nop -> SE S (list nat)) (ops : list nop) (s : S) : list (res (list nat)) * S :=
  match ops with
  | [] => ([], s)
  | op :: ops' =>
      let '(r, s1) := step op s in
      let '(rs, s2) := run_ops step ops' s1 in
      (r :: rs, s2)
  end.
