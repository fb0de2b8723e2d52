(** * Program trees in prefix order.

    Cites: eckity/genetic_encodings/gp/tree/tree_individual.py, tree_node.py, utils.py.

    Functions are records (identity, name, parameter and return hints); what they compute is a
    parameter of [execute].  Terminal values are variable names or numbers; a number carries a tag
    for its object identity, since [TerminalNode.__eq__] compares with [is]. *)
From Verif.Model Require Export Base Num Rng.
Open Scope nat_scope.
Open Scope list_scope.

(** Python types used as node types.  [TyOther n b]: any other type; [b] says that it is a subclass of Number. *)
Inductive ty := TyInt | TyFloat | TyBool | TyStr | TyOther (n : nat) (number : bool).

Definition ty_eqb (a b : ty) : bool :=
  match a, b with
  | TyInt, TyInt | TyFloat, TyFloat | TyBool, TyBool | TyStr, TyStr => true
  | TyOther n x, TyOther m y => Nat.eqb n m && Bool.eqb x y
  | _, _ => false
  end.

Definition oty_eqb (a b : option ty) : bool :=
  match a, b with
  | None, None => true
  | Some x, Some y => ty_eqb x y
  | _, _ => false
  end.

(** [issubclass(t, Number)]: bool is a subclass of int. *)
Definition is_number_type (t : ty) : bool :=
  match t with
  | TyInt | TyFloat | TyBool => true
  | TyStr => false
  | TyOther _ b => b
  end.

(** A Python function: identity, [__name__], type hint of each parameter, return hint. *)
Record func := mkFunc {
  f_id : nat;
  f_name : string;
  f_params : list (option ty);
  f_ret : option ty
}.

(** base/utils.py: [arity] is the number of parameters. *)
Definition arity (f : func) : nat := length (f_params f).

Fixpoint otys_eqb (a b : list (option ty)) : bool :=
  match a, b with
  | [], [] => true
  | x :: a', y :: b' => oty_eqb x y && otys_eqb a' b'
  | _, _ => false
  end.

(** Function objects are compared by identity; the record is compared as a whole. *)
Definition func_eqb (f g : func) : bool :=
  Nat.eqb (f_id f) (f_id g) && String.eqb (f_name f) (f_name g)
  && otys_eqb (f_params f) (f_params g) && oty_eqb (f_ret f) (f_ret g).

(** utils.py 69-103: all type hints in order (parameters, then return); for a function without any
    hint a list of [arity+1] Nones. *)
Definition somes (l : list (option ty)) : list (option ty) :=
  filter (fun o => match o with Some _ => true | None => false end) l.

Definition get_func_types (f : func) : list (option ty) :=
  match somes (f_params f ++ [f_ret f]) with
  | [] => repeat None (arity f + 1)
  | l => l
  end.

(** utils.py 106-107 *)
Definition get_return_type (f : func) : option ty := f_ret f.

(** Terminal values: a variable name, or a number object (float or int) with its identity tag. *)
Inductive tval :=
| TVar (s : string)
| TNum (is_float : bool) (x : num) (tag : N).

Definition Q_eqb (a b : Q) : bool := Z.eqb (Qnum a) (Qnum b) && Pos.eqb (Qden a) (Qden b).

Definition num_same (a b : num) : bool :=
  match a, b with
  | Fin x, Fin y => Q_eqb x y
  | PInf, PInf | NInf, NInf | NaN, NaN => true
  | _, _ => false
  end.

(** [a is b] *)
Definition tval_is (a b : tval) : bool :=
  match a, b with
  | TVar s, TVar t => String.eqb s t
  | TNum f x i, TNum g y j => Bool.eqb f g && num_same x y && N.eqb i j
  | _, _ => false
  end.

(** [a == b] (dictionary lookup) *)
Definition tval_eq (a b : tval) : bool :=
  match a, b with
  | TVar s, TVar t => String.eqb s t
  | TNum _ x _, TNum _ y _ => neq_num x y
  | _, _ => false
  end.

(** [type(v)] *)
Definition tval_type (v : tval) : ty :=
  match v with
  | TVar _ => TyStr
  | TNum true _ _ => TyFloat
  | TNum false _ _ => TyInt
  end.

Definition is_num_tval (v : tval) : bool := match v with TNum _ _ _ => true | _ => false end.

(** tree_node.py 37-102 *)
Inductive node :=
| FNode (f : func)
| TNode (v : tval) (t : option ty).

(** tree_node.py 43-55: constructor of a FunctionNode; rejects partial type hints. *)
Definition function_node (f : func) : res node :=
  if (0 <? length (get_func_types f)) && (length (get_func_types f) <? arity f + 1)
  then Raise ValueError
  else Ok (FNode f).

(** [node.node_type]: of a function node the last of the function types (tree_node.py 43-44, 53). *)
Definition node_type (n : node) : option ty :=
  match n with
  | FNode f => last (get_func_types f) None
  | TNode _ t => t
  end.

(** tree_node.py 28-31, 58-77, 94-99 *)
Definition node_eqb (a b : node) : bool :=
  match a, b with
  | FNode f, FNode g => oty_eqb (node_type a) (node_type b) && func_eqb f g
  | TNode v s, TNode w t => oty_eqb s t && tval_is v w
  | _, _ => false
  end.

Definition n_args (n : node) : nat := match n with FNode f => arity f | TNode _ _ => 0 end.

Inductive erc := ErcFloat (lo hi : num) | ErcInt (lo hi : num).

(** tree_individual.py 95-97 *)
Definition erc_type (e : erc) : ty := match e with ErcFloat _ _ => TyFloat | ErcInt _ _ => TyInt end.

(** A Tree individual without the Individual part (tree_individual.py 72-89).  [t_tset] is the terminal
    dictionary in insertion order; in the untyped case all types are None. *)
Record tree := mkTree {
  t_fset : list func;
  t_tset : list (tval * option ty);
  t_erc : option erc;
  t_root_type : option ty;
  t_nodes : list node
}.

Definition with_nodes (t : tree) (l : list node) : tree :=
  mkTree (t_fset t) (t_tset t) (t_erc t) (t_root_type t) l.

(** tree_individual.py 99-108 *)
Definition tsize (t : tree) : nat := length (t_nodes t).

(** ** Index recursions.  [pos] is the value of the one-element list [pos[0]]; every recursive function
    returns the new position.  [S (length nodes)] units of fuel always suffice on complete trees. *)

(** [for _ in range(n): pos += 1; r = f(pos)], collecting the results. *)
Fixpoint iter_pos {A} (f : nat -> res (A * nat)) (n : nat) (pos : nat) : res (list A * nat) :=
  match n with
  | O => Ok ([], pos)
  | S n' => rbind (f (S pos)) (fun r =>
            rbind (iter_pos f n' (snd r)) (fun rs => Ok (fst r :: fst rs, snd rs)))
  end.

Fixpoint max_list (l : list nat) : nat :=
  match l with [] => 0 | x :: l' => Nat.max x (max_list l') end.

(** tree_individual.py 157-172 ([max] of an empty list raises ValueError). *)
Fixpoint depth_at (fuel : nat) (l : list node) (pos : nat) : res (nat * nat) :=
  match fuel with
  | O => Raise OutOfFuel
  | S fuel' =>
      match nth_error l pos with
      | None => Raise IndexError
      | Some (TNode _ _) => Ok (0, pos)
      | Some (FNode f) =>
          rbind (iter_pos (depth_at fuel' l) (arity f) pos) (fun r =>
          match fst r with
          | [] => Raise ValueError
          | ds => Ok (max_list (map S ds), snd r)
          end)
      end
  end.

(** tree_individual.py 146-155 *)
Definition depth (t : tree) : res nat :=
  rbind (depth_at (S (tsize t)) (t_nodes t) 0) (fun r => Ok (fst r)).

(** tree_individual.py 379-394: position of the last node of the subtree that starts at [pos]. *)
Fixpoint find_subtree_end (fuel : nat) (fset : list func) (l : list node) (pos : nat) : res (unit * nat) :=
  match fuel with
  | O => Raise OutOfFuel
  | S fuel' =>
      match nth_error l pos with
      | None => Raise IndexError
      | Some (TNode _ _) => Ok (tt, pos)
      | Some (FNode f) =>
          if existsb (func_eqb f) fset
          then rbind (iter_pos (find_subtree_end fuel' fset l) (arity f) pos)
                     (fun r => Ok (tt, snd r))
          else Ok (tt, pos)
      end
  end.

Section Execute.
  (** Values computed by the program, the meaning of the functions (may raise), and of constants. *)
  Variable val : Type.
  Variable fsem : func -> list val -> res val.
  Variable const : tval -> val.

  Fixpoint assoc (s : string) (kw : list (string * val)) : option val :=
    match kw with
    | [] => None
    | (k, v) :: kw' => if String.eqb s k then Some v else assoc s kw'
    end.

  (** tree_individual.py 285-306 *)
  Fixpoint execute_at (fuel : nat) (l : list node) (kw : list (string * val)) (pos : nat)
    : res (val * nat) :=
    match fuel with
    | O => Raise OutOfFuel
    | S fuel' =>
        match nth_error l pos with
        | None => Raise IndexError
        | Some (FNode f) =>
            rbind (iter_pos (execute_at fuel' l kw) (arity f) pos) (fun r =>
            rbind (fsem f (fst r)) (fun v => Ok (v, snd r)))
        | Some (TNode v _) =>
            match v with
            | TVar s => match assoc s kw with
                        | Some x => Ok (x, pos)
                        | None => Ok (const v, pos)
                        end
            | TNum _ _ _ => Ok (const v, pos)
            end
        end
    end.

  (** tree_individual.py 264-276: keys of kwargs are strings. *)
  Definition key_in_tset (s : string) (t : tree) : bool :=
    existsb (fun e => match fst e with TVar x => String.eqb x s | _ => false end) (t_tset t).

  Definition term_in_kw (v : tval) (kw : list (string * val)) : bool :=
    match v with
    | TVar s => match assoc s kw with Some _ => true | None => false end
    | TNum _ _ _ => false
    end.

  (** tree_individual.py 227-283 with keyword arguments. *)
  Definition execute (t : tree) (kw : list (string * val)) : res val :=
    match t_nodes t with
    | [] => Raise ValueError
    | _ =>
        if existsb (fun e => negb (key_in_tset (fst e) t)) kw then Raise ValueError
        else if existsb (fun e => negb (term_in_kw (fst e) kw)) (t_tset t) then Raise ValueError
        else rbind (execute_at (S (tsize t)) (t_nodes t) kw 0) (fun r => Ok (fst r))
    end.
End Execute.

(** *** Execution on a two-dimensional numpy array.

    [X] is given by the columns, the kind of its element type ([a_float]: floats, otherwise integers) and the
    number of rows.  Values are scalars and one-dimensional arrays; other numpy shapes are not modelled. *)
Record array := mkArray { a_float : bool; a_rows : nat; a_cols : list (list num) }.

Inductive nval := Scalar (x : num) | Column (l : list num).

(** Decimal notation of a natural number (the name of column i is "x" followed by i). *)
Definition digit (n : nat) : string :=
  match n with
  | 0 => "0" | 1 => "1" | 2 => "2" | 3 => "3" | 4 => "4"
  | 5 => "5" | 6 => "6" | 7 => "7" | 8 => "8" | _ => "9"
  end%string.

Fixpoint decimal_aux (fuel n : nat) (acc : string) : string :=
  match fuel with
  | O => acc
  | S fuel' =>
      let acc' := (digit (n mod 10) ++ acc)%string in
      if n <? 10 then acc' else decimal_aux fuel' (n / 10) acc'
  end.

Definition decimal (n : nat) : string := decimal_aux (S n) n "".

(** utils.py 11-36 (untyped), 39-66 *)
Definition column_name (i : nat) : string := ("x" ++ decimal i)%string.

Definition create_terminal_set (X : array) : list tval :=
  map (fun i => TVar (column_name i)) (seq 0 (length (a_cols X))).

Definition generate_args (X : array) : list (string * nval) :=
  combine (map column_name (seq 0 (length (a_cols X)))) (map Column (a_cols X)).

(** [np.full_like(X[:, 0], res)]: the element type is that of X, so a float is cut off towards zero if X
    holds integers.  [unspecified]: the integer numpy makes of nan and infinities. *)
Definition full_like (unspecified : num -> num) (X : array) (x : num) : list num :=
  repeat (if a_float X then x
          else match x with
               | Fin q => nof_Z (Z.quot (Qnum q) (Zpos (Qden q)))
               | _ => unspecified x
               end) (a_rows X).

(** tree_individual.py 253-283 with a positional argument. *)
Definition execute_array (fsem : func -> list nval -> res nval) (const : tval -> nval)
  (unspecified : num -> num) (t : tree) (X : array) : res nval :=
  rbind (execute nval fsem const t (generate_args X)) (fun r =>
  match r with
  | Scalar x => match a_cols X with
                | [] => Raise IndexError
                | _ => Ok (Column (full_like unspecified X x))
                end
  | Column l => Ok (Column l)
  end).

(** ** Adding a node by hand *)

(** tree_individual.py 120-141.  [None] is Python's None (the subtree is complete).  In the recursive call
    the node of the tree, not the new node, is passed on. *)
Fixpoint should_add (fuel : nat) (l : list node) (pos : nat) (new : node) : res (option bool * nat) :=
  match fuel with
  | O => Raise OutOfFuel
  | S fuel' =>
      if pos =? length l then Ok (Some true, pos)
      else match nth_error l pos with
           | None => Raise IndexError
           | Some (TNode v ty) => Ok (None, pos)
           | Some (FNode f) =>
               (fix loop (types : list (option ty)) (n : nat) (p : nat) : res (option bool * nat) :=
                  match n with
                  | O => Ok (None, p)
                  | S n' =>
                      rbind (should_add fuel' l (S p) (FNode f)) (fun r =>
                      match r with
                      | (Some true, p') =>
                          match types with
                          | [] => Raise IndexError
                          | a :: _ => Ok (Some (oty_eqb a (node_type new)), p')
                          end
                      | (Some false, p') => Ok (Some false, p')
                      | (None, p') => loop (tl types) n' p'
                      end)
                  end) (get_func_types f) (arity f) pos
           end
  end.

(** tree_individual.py 110-118 *)
Definition add_tree (t : tree) (n : node) : res tree :=
  if (tsize t =? 0) && oty_eqb (node_type n) (t_root_type t)
  then Ok (with_nodes t (t_nodes t ++ [n]))
  else rbind (should_add (S (S (tsize t))) (t_nodes t) 0 n) (fun r =>
       match fst r with
       | Some true => Ok (with_nodes t (t_nodes t ++ [n]))
       | _ => Raise ValueError
       end).

(** ** Random nodes *)

(** tree_individual.py 174-192 *)
Definition random_function (t : tree) (nt : option ty) : R (option node) :=
  match filter (fun f => oty_eqb (get_return_type f) nt) (t_fset t) with
  | [] => ret None
  | fs => f <- choice fs ;; n <- lift (function_node f) ;; ret (Some n)
  end.

(** A new number object: its identity tag comes from the tape (small ints may be shared objects). *)
Definition new_number (is_float : bool) (x : num) : R tval :=
  d <- next_draw ;; ret (TNum is_float x (d_n d)).

(** tree_individual.py 205-212 *)
Definition erc_applies (t : tree) (nt : option ty) : option erc :=
  match t_erc t with
  | None => None
  | Some e => match nt with
              | None => Some e
              | Some ty => if is_number_type ty then Some e else None
              end
  end.

Definition draw_erc (e : erc) : R tval :=
  match e with
  | ErcFloat lo hi => x <- uniform lo hi ;; new_number true x
  | ErcInt lo hi => x <- randint lo hi ;; new_number false x
  end.

(** [self.terminal_set.get(terminal, default_type)] *)
Fixpoint tset_get (v : tval) (l : list (tval * option ty)) (default : option ty) : option ty :=
  match l with
  | [] => default
  | (k, t) :: l' => if tval_eq v k then t else tset_get v l' default
  end.

(** tree_individual.py 194-225 *)
Definition random_terminal (t : tree) (nt : option ty) : R (option node) :=
  let relevant := map fst (filter (fun e => oty_eqb (snd e) nt) (t_tset t)) in
  relevant' <- match erc_applies t nt with
               | None => ret relevant
               | Some e => c <- draw_erc e ;; ret (relevant ++ [c])
               end ;;
  match relevant' with
  | [] => ret None
  | _ =>
      v <- choice relevant' ;;
      let default := match nt with None => None | Some _ => Some (tval_type v) end in
      ret (Some (TNode v (tset_get v (t_tset t) default)))
  end.

(** tree_individual.py 311-329: the position of a random numeric terminal (the node object, which is
    then changed in place by ERCMutation, is identified by its position). *)
Definition is_numeric_node (n : node) : bool :=
  match n with TNode v _ => is_num_tval v | FNode _ => false end.

Fixpoint positions_from {A} (p : A -> bool) (i : nat) (l : list A) : list nat :=
  match l with
  | [] => []
  | x :: l' => if p x then i :: positions_from p (S i) l' else positions_from p (S i) l'
  end.

Definition get_random_numeric_node (t : tree) : R (option nat) :=
  match positions_from is_numeric_node 0 (t_nodes t) with
  | [] => ret None
  | ps => p <- choice ps ;; ret (Some p)
  end.

(** tree_individual.py 335-343 *)
Definition subtree_candidate (root : node) (nt : option ty) (n : node) : bool :=
  match node_type n with
  | None => true
  | Some _ =>
      (match nt with None => true | Some _ => false end && negb (node_eqb n root))
      || (oty_eqb (node_type n) nt && negb (node_eqb n root))
  end.

(** tree_individual.py 350-357 *)
Definition get_subtree_by_root (t : tree) (n : node) : res (list node) :=
  match find_index (fun x => node_eqb x n) (t_nodes t) with
  | None => Raise ValueError
  | Some 0 => Ok (t_nodes t)
  | Some i => rbind (find_subtree_end (S (tsize t)) (t_fset t) (t_nodes t) i) (fun r =>
              Ok (py_slice (t_nodes t) (Z.of_nat i) (Z.of_nat (snd r) + 1)))
  end.

(** tree_individual.py 331-348 ([self.root] of an empty tree is only reached for a node, hence never). *)
Definition random_subtree (t : tree) (nt : option ty) : R (option (list node)) :=
  match t_nodes t with
  | [] => ret None
  | root :: _ =>
      match filter (subtree_candidate root nt) (t_nodes t) with
      | [] => ret None
      | cands => n <- choice cands ;; s <- lift (get_subtree_by_root t n) ;; ret (Some s)
      end
  end.

(** tree_individual.py 359-377 *)
Definition replace_subtree (t : tree) (old new : list node) : res tree :=
  match old with
  | [] => Raise IndexError
  | o :: _ =>
      match find_index (fun x => node_eqb x o) (t_nodes t) with
      | None => Raise ValueError
      | Some i => Ok (with_nodes t (firstn i (t_nodes t) ++ new ++ skipn (i + length old) (t_nodes t)))
      end
  end.

(** tree_individual.py 396-471: validation in the constructor.  [typed = false] is a terminal list,
    [typed = true] a dictionary of types. *)
Definition has_hints (f : func) : bool :=
  match somes (f_params f ++ [f_ret f]) with [] => false | _ => true end.

Definition oty_in (a : option ty) (l : list (option ty)) : bool := existsb (oty_eqb a) l.

Definition handle_input_types (fset : list func) (terms : list (tval * option ty)) (typed : bool)
  (e : option erc) (root_type : option ty) : res (list (tval * option ty)) :=
  if typed then
    if existsb (fun x => match snd x with None => true | Some _ => false end) terms
    then Raise ValueError
    else
    let rets := map get_return_type fset in
    if negb (oty_in root_type rets) then Raise ValueError
    else if match e with Some r => negb (oty_in (Some (erc_type r)) rets) | None => false end
    then Raise ValueError
    else
    let args := flat_map (fun f => removelast (get_func_types f)) fset in
    let tts := map snd terms ++ match e with Some r => [Some (erc_type r)] | None => [] end in
    if forallb (fun a => oty_in a tts) args && forallb (fun a => oty_in a args) tts
    then Ok terms else Raise ValueError
  else if existsb has_hints fset then Raise ValueError
  else Ok (map (fun x => (fst x, None)) terms).

(** ** Creation *)

(** tree_creator.py 101-133 with grow.py 62-118: the nodes appended by [create_tree]. *)
Fixpoint grow_tree (fuel : nat) (t : tree) (mn mx : nat) (p_prune : num) (d : nat) (nt : option ty)
  : R (list node) :=
  match fuel with
  | O => raise OutOfFuel
  | S fuel' =>
      let terminal := random_terminal t nt in
      let function := random_function t nt in
      n <- (if d <? mn then function
            else if mx <=? d then terminal
            else u <- random_unit ;; if nlt u p_prune then terminal else function) ;;
      match n with
      | None => raise ValueError                                (* _assert_node_created *)
      | Some (TNode v ty) => ret [TNode v ty]
      | Some (FNode f) =>
          children <- mapM (fun a => grow_tree fuel' t mn mx p_prune (S d) a)
                           (firstn (arity f) (get_func_types f)) ;;
          ret (FNode f :: List.concat children)
      end
  end.

(** full.py 56-102 *)
Fixpoint full_tree (fuel : nat) (t : tree) (mx : nat) (d : nat) (nt : option ty) : R (list node) :=
  match fuel with
  | O => raise OutOfFuel
  | S fuel' =>
      if mx <=? d then
        n <- random_terminal t nt ;;
        match n with None => raise ValueError | Some n => ret [n] end
      else
        n <- random_function t nt ;;
        match n with
        | None => raise ValueError
        | Some (TNode v ty) => raise AttributeError            (* not reachable *)
        | Some (FNode f) =>
            children <- mapM (fun a => full_tree fuel' t mx (S d) a)
                             (removelast (get_func_types f)) ;;
            ret (FNode f :: List.concat children)
        end
  end.

Definition grow_fuel (mn mx d : nat) : nat := S (Nat.max mn mx - d).
