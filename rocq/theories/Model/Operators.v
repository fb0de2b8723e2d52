(** * Genetic operators on individuals.

    Cites: eckity/genetic_operators/genetic_operator.py 25-59, failable_operator.py 30-110,
    crossovers/*.py, mutations/*.py. *)
From Verif.Model Require Export World.
Open Scope nat_scope.
Open Scope list_scope.

(** failable_operator.py 43-69, generic in the state: [attempt i] gives (succeeded, result). *)
Fixpoint failable_from {S A} (attempt : nat -> SE S (bool * A)) (on_fail : SE S A) (i n : nat) : SE S A :=
  match n with
  | O => on_fail
  | Datatypes.S n' => r <- attempt i ;;
                      if fst r then ret (snd r) else failable_from attempt on_fail (Datatypes.S i) n'
  end.

Definition failable_apply {S A} (attempts : nat) (attempt : nat -> SE S (bool * A)) (on_fail : SE S A)
  : SE S A := failable_from attempt on_fail 0 attempts.

(** failable_operator.py 30-41: fewer than one attempt is rejected.  [attempts] is an integer. *)
Definition failable_init (attempts : Z) : res nat :=
  if (attempts <? 1)%Z then Raise ValueError else Ok (Z.to_nat attempts).

(** The built-in operators. *)
Inductive okind :=
| OKPoint (k : nat)                         (* VectorKPointsCrossover *)
| OVecMut (m : vmut) (n : nat)              (* VectorNPointMutation and its subclasses *)
| OSubtreeXO                                (* SubtreeCrossover *)
| OSubtreeMut (mn mx : nat)                 (* SubtreeMutation with init_depth *)
| OErc (mu sigma : num)                     (* ERCMutation *)
| OIdentity.                                (* IdentityTransformation *)

Record oper := mkOper {
  op_kind : okind;
  op_prob : num;
  op_arity : nat;
  op_attempts : nat
}.

(** [type(self).__name__] *)
Definition vmut_name (m : vmut) : string :=
  match m with
  | MUniformOne => "FloatVectorUniformOnePointMutation"
  | MUniformN => "FloatVectorUniformNPointMutation"
  | MGaussOne _ _ => "FloatVectorGaussOnePointMutation"
  | MGaussN _ _ => "FloatVectorGaussNPointMutation"
  | MIntOne _ => "IntVectorOnePointMutation"
  | MIntN => "IntVectorNPointMutation"
  | MBitFlip => "BitStringVectorFlipMutation"
  | MBitNFlip _ => "BitStringVectorNFlipMutation"
  | MBase => "VectorNPointMutation"
  end%string.

Definition okind_name (k : okind) : string :=
  match k with
  | OKPoint _ => "VectorKPointsCrossover"
  | OVecMut m _ => vmut_name m
  | OSubtreeXO => "SubtreeCrossover"
  | OSubtreeMut _ _ => "SubtreeMutation"
  | OErc _ _ => "ERCMutation"
  | OIdentity => "IdentityTransformation"
  end%string.

(** vector_k_point_crossover.py 36-57.  Needs two individuals ([individuals[1]]: IndexError). *)
Definition kpoint_apply (k : nat) (inds : list oid) : M (list oid) :=
  match inds with
  | a :: rest =>
      va <- load_vec a ;;
      pts <- liftR (xo_points k (vsize va)) ;;
      match rest with
      | [] => raise IndexError
      | b :: _ =>
          vb <- load_vec b ;;
          cs <- lift (swap_vector_parts k (v_cells va) (v_cells vb) pts) ;;
          put_genome a (GVec (with_cells va (fst cs))) ;;;
          put_genome b (GVec (with_cells vb (snd cs))) ;;;
          ret inds
      end
  | [] => raise IndexError
  end.

(** vector_n_point_mutation.py 82-125: one attempt.  The loop stops at the first individual that ends out of
    bounds; this one is restored, earlier ones stay mutated. *)
Fixpoint vec_attempt (m : vmut) (n : nat) (inds : list oid) : M bool :=
  match inds with
  | [] => ret true
  | o :: rest =>
      _ <- clone o ;;
      v <- load_vec o ;;
      pts <- liftR (cell_selector m n v) ;;
      vals <- liftR (mapM (mut_val m v) pts) ;;
      let v' := with_cells v (set_cells (v_cells v) pts vals) in
      put_genome o (GVec v') ;;;
      ok <- lift (check_if_in_bounds v') ;;
      if ok then vec_attempt m n rest
      else put_genome o (GVec (set_vector v' (v_cells v))) ;;; ret false
  end.

(** genetic_operator.py 29-59 around an [apply] function; [None] is Python's None. *)
Definition record_applied (name : string) (inputs : list oid) (o : oid) : M unit :=
  i <- load o ;;
  store o (add_applied name i) ;;;
  if i_update_parents i
  then ids <- mapM (fun p => x <- load p ;; ret (i_id x)) inputs ;; modify o (add_parents ids)
  else ret tt.

Definition with_probability (name : string) (p : num) (apply : list oid -> M (option (list oid)))
  (inds : list oid) : M (list oid) :=
  u <- liftR random_unit ;;
  if nle u p then
    iterM set_fitness_not_evaluated inds ;;;
    r <- apply inds ;;
    match r with
    | None => raise TypeError                      (* for ind in None *)
    | Some l => iterM (record_applied name inds) l ;;; ret l
    end
  else ret inds.

(** vector_n_point_mutation.py 127-136: on_fail returns None. *)
Definition vec_apply_plain (m : vmut) (n attempts : nat) (inds : list oid) : M (option (list oid)) :=
  failable_apply attempts
    (fun _ => ok <- vec_attempt m n inds ;; ret (ok, Some inds))
    (ret None).

(** vector_random_mutation.py 129-136, 187-194: the Gauss mutations fall back on the uniform one (a new
    operator with 5 attempts and the same probability). *)
Definition vec_apply (m : vmut) (n attempts : nat) (p : num) (inds : list oid) : M (option (list oid)) :=
  let fallback m' n' :=
    r <- with_probability (vmut_name m') p (vec_apply_plain m' n' 5) inds ;; ret (Some r) in
  failable_apply attempts
    (fun _ => ok <- vec_attempt m n inds ;; ret (ok, Some inds))
    (match m with
     | MGaussOne _ _ => fallback MUniformOne 1
     | MGaussN _ _ => fallback MUniformN n
     | _ => ret None
     end).

(** subtree_crossover.py 66-87 *)
Definition pick_subtree (nt : option ty) (o : oid) : M (option (list node)) :=
  t <- load_tree o ;; liftR (random_subtree t nt).

Fixpoint all_somes {A} (l : list (option A)) : option (list A) :=
  match l with
  | [] => Some []
  | None :: _ => None
  | Some x :: l' => match all_somes l' with Some xs => Some (x :: xs) | None => None end
  end.

Definition pick_subtrees (inds : list oid) : M (option (list (list node))) :=
  match inds with
  | [] => raise IndexError
  | a :: rest =>
      s <- pick_subtree None a ;;
      match s with
      | None => ret None
      | Some [] => raise IndexError
      | Some (n :: l) =>
          rs <- mapM (pick_subtree (node_type n)) rest ;;
          ret (match all_somes rs with
               | None => None
               | Some ss => Some ((n :: l) :: ss)
               end)
      end
  end.

(** subtree_crossover.py 90-105: from the last individual down to the first, each gets its predecessor's
    subtree; the first gets the last one's. *)
Definition swap_one (subtrees : list (list node)) (oi : nat * oid) : M unit :=
  match oi with
  | (i, o) =>
      old <- lift (py_get subtrees (Z.of_nat i)) ;;
      new <- lift (py_get subtrees (Z.of_nat i - 1)) ;;
      t <- load_tree o ;;
      t' <- lift (replace_subtree t old new) ;;
      put_genome o (GTree t')
  end.

Definition swap_subtrees (inds : list oid) (subtrees : list (list node)) : M unit :=
  iterM (swap_one subtrees) (rev (combine (seq 0 (length inds)) inds)).

(** subtree_crossover.py 22-63 *)
Definition xo_attempt (arity : nat) (inds : list oid) : M bool :=
  if negb (length inds =? arity) then raise ValueError
  else ss <- pick_subtrees inds ;;
       match ss with
       | None => ret false
       | Some subtrees => swap_subtrees inds subtrees ;;; ret true
       end.

(** subtree_mutation.py 26-80.  The cached creator only uses its depth range, so it is not part of the state. *)
Definition mut_one (mn mx : nat) (oi : oid * list node) : M unit :=
  match oi with
  | (o, old) =>
      t <- load_tree o ;;
      match old with
      | [] => raise IndexError
      | n :: _ =>
          new <- liftR (grow_tree (grow_fuel mn mx 0) t mn mx (Fin (1 # 2)) 0 (node_type n)) ;;
          t' <- lift (replace_subtree t old new) ;;
          put_genome o (GTree t')
      end
  end.

Definition mut_attempt (mn mx : nat) (inds : list oid) : M bool :=
  olds <- mapM (pick_subtree None) inds ;;
  match all_somes olds with
  | None => ret false
  | Some ss => iterM (mut_one mn mx) (combine inds ss) ;;; ret true
  end.

(** erc_mutation.py 24-47.  Adding a float to an int gives a float. *)
Definition add_noise (g : num) (tag : N) (n : node) : node :=
  match n with
  | TNode (TNum _ x _) t => TNode (TNum true (nadd x g) tag) t
  | _ => n
  end.

Definition erc_one (mu sigma : num) (oi : oid * nat) : M unit :=
  match oi with
  | (o, p) =>
      t <- load_tree o ;;
      g <- liftR (gauss mu sigma) ;;
      d <- liftR next_draw ;;
      match nth_error (t_nodes t) p with
      | None => raise IndexError
      | Some n => put_genome o (GTree (with_nodes t (list_set (t_nodes t) p (add_noise g (d_n d) n))))
      end
  end.

Definition erc_attempt (mu sigma : num) (inds : list oid) : M bool :=
  leaves <- mapM (fun o => t <- load_tree o ;; liftR (get_random_numeric_node t)) inds ;;
  match all_somes leaves with
  | None => ret false
  | Some ps => iterM (erc_one mu sigma) (combine inds ps) ;;; ret true
  end.

(** [apply] of each operator; the default [on_fail] returns the payload (failable_operator.py 93-110). *)
Definition op_apply (o : oper) (inds : list oid) : M (option (list oid)) :=
  let failable (attempt : M bool) :=
    failable_apply (op_attempts o) (fun _ => ok <- attempt ;; ret (ok, Some inds)) (ret (Some inds)) in
  match op_kind o with
  | OKPoint k => r <- kpoint_apply k inds ;; ret (Some r)
  | OVecMut m n => vec_apply m n (op_attempts o) (op_prob o) inds
  | OSubtreeXO => failable (xo_attempt (op_arity o) inds)
  | OSubtreeMut mn mx => failable (mut_attempt mn mx inds)
  | OErc mu sigma => failable (erc_attempt mu sigma inds)
  | OIdentity => ret (Some inds)
  end.

(** genetic_operator.py 29-59 *)
Definition apply_operator (o : oper) (inds : list oid) : M (list oid) :=
  with_probability (okind_name (op_kind o)) (op_prob o) (op_apply o) inds.
