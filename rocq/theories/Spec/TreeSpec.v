(** * What a prefix list of nodes denotes.

    A vocabulary of ordinary trees, independent of the index arithmetic of the program. *)
From Verif.Model Require Import Tree World Creators.
From Verif.Spec Require Import WorldSpec.

(** A node with its subtrees, from left to right. *)
Inductive rtree := Rose (n : node) (kids : list rtree).

Definition label (t : rtree) : node := match t with Rose n _ => n end.

(** Prefix order. *)
Fixpoint flatten (t : rtree) : list node :=
  match t with Rose n ks => n :: flat_map flatten ks end.

Section Lists.
  Context {A : Type}.
  Variable P : A -> Prop.
  Fixpoint All (l : list A) : Prop := match l with [] => True | x :: l' => P x /\ All l' end.
End Lists.

(** Every function has as many subtrees as parameters, and terminals have none. *)
Fixpoint saturated (t : rtree) : Prop :=
  match t with Rose n ks => length ks = n_args n /\ All saturated ks end.

(** [l] is the prefix traversal of a complete tree. *)
Definition complete (l : list node) : Prop := exists t, saturated t /\ flatten t = l.

Fixpoint height (t : rtree) : nat :=
  match t with
  | Rose _ [] => 0
  | Rose _ ks => S (fold_right Nat.max 0 (map height ks))
  end.

(** Depths of the leaves, the root being at depth [d]. *)
Fixpoint leaf_depths (d : nat) (t : rtree) : list nat :=
  match t with
  | Rose _ [] => [d]
  | Rose _ ks => flat_map (leaf_depths (S d)) ks
  end.

(** The functions in the list belong to the function set. *)
Definition over (fset : list func) (l : list node) : Prop := forall f, In (FNode f) l -> In f fset.

(** No function without parameters. *)
Definition positive_arities (fset : list func) : Prop := forall f, In f fset -> 0 < arity f.

(** Hints for all parameters and the result, or none at all (what the constructor of a function node accepts). *)
Definition hinted (f : func) : Prop :=
  (forall o, In o (f_params f ++ [f_ret f]) -> o <> None) \/
  (forall o, In o (f_params f ++ [f_ret f]) -> o = None).

(** The type that a node delivers. *)
Definition delivers (n : node) : option ty :=
  match n with FNode f => f_ret f | TNode _ t => t end.

(** Each argument delivers the type of its parameter. *)
Fixpoint well_typed (t : rtree) : Prop :=
  match t with
  | Rose n ks =>
      match n with
      | FNode f => hinted f /\ map (fun k => delivers (label k)) ks = f_params f
      | TNode _ _ => ks = []
      end /\ All well_typed ks
  end.

(** Recursive evaluation, arguments from left to right; [Raise] is an exception of a function. *)
Section Eval.
  Variable val : Type.
  Variable fsem : func -> list val -> res val.
  Variable const : tval -> val.
  Variable env : string -> option val.

  Definition eval_terminal (v : tval) : val :=
    match v with
    | TVar s => match env s with Some x => x | None => const v end
    | TNum _ _ _ => const v
    end.

  (** The first exception, or all the values. *)
  Fixpoint collect (l : list (res val)) : res (list val) :=
    match l with
    | [] => Ok []
    | Raise e :: _ => Raise e
    | Ok v :: l' => match collect l' with Ok vs => Ok (v :: vs) | Raise e => Raise e end
    end.

  Fixpoint eval (t : rtree) : res val :=
    match t with
    | Rose (FNode f) ks => match collect (map eval ks) with
                           | Ok vs => fsem f vs
                           | Raise e => Raise e
                           end
    | Rose (TNode v _) _ => Ok (eval_terminal v)
    end.
End Eval.

(** [subtree_at t pre s post]: [s] is a subtree of [t]; [pre] are the nodes before it in prefix order, and
    [post] those after it. *)
Inductive subtree_at : rtree -> list node -> rtree -> list node -> Prop :=
| Here : forall t, subtree_at t [] t []
| Below : forall n before k after pre s post,
    subtree_at k pre s post ->
    subtree_at (Rose n (before ++ k :: after))
               (n :: flat_map flatten before ++ pre) s (post ++ flat_map flatten after).

Fixpoint node_count (t : rtree) : nat :=
  match t with Rose _ ks => S (fold_right Nat.add 0 (map node_count ks)) end.

(** What [random_subtree] may choose: any node without a type; among the typed ones those that differ from the
    root and have the wanted type, if one is wanted. *)
Definition eligible (root : node) (wanted : option ty) (n : node) : Prop :=
  delivers n = None \/ (n <> root /\ (wanted = None \/ delivers n = wanted)).

(** A number that an ERC range can give. *)
Definition erc_number (e : erc) (v : tval) : Prop :=
  match e with
  | ErcFloat lo hi =>
      exists x tag, v = TNum true x tag /\
        forall a b, lo = Fin a -> hi = Fin b -> (a <= b)%Q -> exists q, x = Fin q /\ (a <= q <= b)%Q
  | ErcInt lo hi =>
      exists x tag, v = TNum false x tag /\
        forall a b, lo = nof_Z a -> hi = nof_Z b -> exists z, x = nof_Z z /\ (a <= z <= b)%Z
  end.

(** The node belongs to the primitives of the individual. *)
Definition primitive (t : tree) (n : node) : Prop :=
  match n with
  | FNode f => In f (t_fset t)
  | TNode v _ => (exists a, In (v, a) (t_tset t)) \/ (exists e, t_erc t = Some e /\ erc_number e v)
  end.

(** The types for which nodes are asked when a tree with root type [nt] is created. *)
Definition requested (t : tree) (nt a : option ty) : Prop :=
  a = nt \/ exists f, In f (t_fset t) /\ In a (f_params f).

(** The terminal set is a dictionary: equal keys have equal types, and each key equals itself. *)
Definition dictionary (l : list (tval * option ty)) : Prop :=
  forall k a, In (k, a) l -> tval_eq k k = true /\ forall k' b, In (k', b) l -> tval_eq k k' = true -> a = b.

(** The conditions under which the terminals given out have the requested type: there are no types at all, or the
    terminal set is a dictionary, and an ERC range comes without other numeric terminals and is of the only numeric type
    that is asked for. *)
Definition typed_terminals (t : tree) (nt : option ty) : Prop :=
  ((forall a, requested t nt a -> a = None) /\ forall k a, In (k, a) (t_tset t) -> a = None) \/
  dictionary (t_tset t) /\
  forall e, t_erc t = Some e ->
    (forall k a, In (k, a) (t_tset t) -> is_num_tval k = false) /\
    (forall a, requested t nt (Some a) -> is_number_type a = true -> a = erc_type e).

(** Integer ERC ranges need two integers in order. *)
Definition erc_valid (e : erc) : Prop :=
  match e with
  | ErcFloat _ _ => True
  | ErcInt lo hi => exists a b, lo = nof_Z a /\ hi = nof_Z b /\ (a <= b)%Z
  end.

(** Every requested type has a function that returns it, and a terminal or the ERC. *)
Definition supplied (t : tree) (nt : option ty) : Prop :=
  (forall f, In f (t_fset t) -> hinted f) /\
  (forall e, t_erc t = Some e -> erc_valid e) /\
  forall a, requested t nt a ->
    (exists f, In f (t_fset t) /\ f_ret f = a) /\
    ((exists v, In (v, a) (t_tset t)) \/
     (t_erc t <> None /\ match a with None => True | Some b => is_number_type b = true end)).

(** All leaves are at depths from [lo] to [hi]. *)
Definition leaves_within (lo hi : nat) (rt : rtree) : Prop := forall x, In x (leaf_depths 0 rt) -> lo <= x <= hi.

(** The shape that the two methods promise: for Full all leaves at the maximal depth. *)
Definition shape (m : gp_method) (p : gp_params) (rt : rtree) : Prop :=
  match m with
  | Grow => leaves_within (g_min p) (Nat.max (g_min p) (g_max p)) rt
  | Full => leaves_within (g_max p) (g_max p) rt
  end.

(** [l] is the prefix form of exactly one complete tree over the primitives of [t], of the promised shape if no
    function is without parameters. *)
Definition created_nodes (m : gp_method) (p : gp_params) (t : tree) (l : list node) : Prop :=
  exists rt, saturated rt /\ flatten rt = l /\ (forall u, saturated u -> flatten u = l -> u = rt) /\
    (forall n, In n l -> primitive t n) /\ (forall f, In (FNode f) l -> hinted f) /\
    (positive_arities (t_fset t) -> shape m p rt) /\
    (typed_terminals t (g_root p) -> well_typed rt /\ delivers (label rt) = g_root p).

(** A new individual made by method [m] with parameters [p]: not evaluated, generation 0, the given
    bloat weight and direction. *)
Definition created_by (m : gp_method) (p : gp_params) (h : hibv) (w : world) (o : oid) : Prop :=
  exists i t, at_ w o = Some i /\ i_genome i = GTree t /\
    i_fit i = unmeasured (KGP (g_bloat p)) h /\ i_update_parents i = g_upd p /\ i_gen i = 0 /\
    t_fset t = g_fset p /\ t_erc t = g_erc p /\ t_root_type t = g_root p /\
    t_tset t = (if g_typed p then g_terms p else map (fun x => (fst x, None)) (g_terms p)) /\
    created_nodes m p t (t_nodes t).

(** Method and maximal depth of each individual of ramped half-and-half: for every depth [n / (2 * #depths)] grown and
    as many full trees, and at the end full trees of the maximal depth for what is missing. *)
Definition half_plan (mn mx n : nat) : list (gp_method * nat) :=
  let q := n / (2 * (mx + 1 - mn)) in
  flat_map (fun d => repeat (Grow, d) q ++ repeat (Full, d) q) (seq mn (mx + 1 - mn))
  ++ repeat (Full, mx) (n - 2 * q * (mx + 1 - mn)).

(** The new individual, before its tree is made. *)
Definition blank_tree (p : gp_params) (tset : list (tval * option ty)) : tree :=
  mkTree (g_fset p) tset (g_erc p) (g_root p) [].

(** [o] was made as the plan says. *)
Definition planned (mn : nat) (grow full : gp_params) (h : hibv) (w : world) (k : gp_method * nat) (o : oid) : Prop :=
  created_by (fst k) (with_depth (match fst k with Grow => grow | Full => full end) mn (snd k)) h w o.

(** ** Tree operators *)

(** The trees of the individuals. *)
Definition trees_at (w : world) (inds : list oid) (ts : list tree) : Prop := Forall2 (tree_at w) inds ts.

(** A complete tree over the function set of the individual. *)
Definition complete_tree (t : tree) : Prop :=
  over (t_fset t) (t_nodes t) /\ (forall f, In f (t_fset t) -> hinted f) /\ complete (t_nodes t).

(** A place in a tree: the nodes before, the subtree, the nodes after. *)
Record place := mkPlace { p_before : list node; p_sub : rtree; p_after : list node }.

Definition place_in (t : tree) (c : place) : Prop :=
  exists rt, saturated rt /\ flatten rt = t_nodes t /\ subtree_at rt (p_before c) (p_sub c) (p_after c).

Definition filled (t : tree) (c : place) (s : rtree) : tree :=
  with_nodes t (p_before c ++ flatten s ++ p_after c).

(** The last element goes to the front. *)
Definition rotate {A} (l : list A) : list A := match rev l with [] => [] | x :: r => x :: rev r end.

Fixpoint filled_all (ts : list tree) (cs : list place) (ss : list rtree) : list tree :=
  match ts, cs, ss with
  | t :: ts', c :: cs', s :: ss' => filled t c s :: filled_all ts' cs' ss'
  | _, _, _ => []
  end.

(** One place is chosen in each tree, and each tree gets the subtree of its predecessor, the first one that of the last. *)
Definition crossed (ts ts' : list tree) : Prop :=
  exists cs, Forall2 place_in ts cs /\ ts' = filled_all ts cs (rotate (map p_sub cs)).

Definition nodes_of (ts : list tree) : list node := flat_map t_nodes ts.

(** All nodes have a type, or none has. *)
Definition uniform_types (ts : list tree) : Prop :=
  (forall t n, In t ts -> In n (t_nodes t) -> delivers n <> None) \/
  (forall t n, In t ts -> In n (t_nodes t) -> delivers n = None).

Definition well_typed_tree (t : tree) : Prop :=
  exists rt, saturated rt /\ flatten rt = t_nodes t /\ well_typed rt.

Definition root_type_of (t : tree) : option (option ty) := option_map delivers (hd_error (t_nodes t)).

(** One place of [t] is filled with a new tree over the primitives of [t], at most as high as the depth range says,
    and whose root has the type of what was there. *)
Definition mutated (mn mx : nat) (t t' : tree) : Prop :=
  exists c s, place_in t c /\ t' = filled t c s /\ saturated s /\
    (forall n, In n (flatten s) -> primitive t n) /\ (forall f, In (FNode f) (flatten s) -> hinted f) /\
    height s <= Nat.max mn mx /\
    (positive_arities (t_fset t) -> leaves_within mn (Nat.max mn mx) s) /\
    (typed_terminals t (delivers (label (p_sub c))) ->
       well_typed s /\ delivers (label s) = delivers (label (p_sub c))).

(** Whatever subtree is removed, a tree of its type can be created. *)
Definition replaceable (t : tree) : Prop := forall c, place_in t c -> supplied t (delivers (label (p_sub c))).

(** Exactly one numeric terminal changes: the noise [mu + z * sigma] is added to its value, which becomes a new float. *)
Definition noised (mu sigma : num) (t t' : tree) : Prop :=
  exists before is_float x tag a after z tag',
    t_nodes t = before ++ TNode (TNum is_float x tag) a :: after /\
    t' = with_nodes t (before ++ TNode (TNum true (nadd x (nadd mu (nmul (Fin z) sigma))) tag') a :: after).

Definition has_number (t : tree) : Prop := exists b x tag a, In (TNode (TNum b x tag) a) (t_nodes t).

(** [random_subtree] for the wanted type has something to choose. *)
Definition open_for (wanted : option ty) (t : tree) : Prop :=
  exists root n, hd_error (t_nodes t) = Some root /\ In n (t_nodes t) /\ eligible root wanted n.

(** Whatever is chosen in the first tree, the others have a counterpart. *)
Definition matchable (ts : list tree) : Prop :=
  match ts with
  | [] => False
  | t :: rest => open_for None t /\
      forall root n, hd_error (t_nodes t) = Some root -> In n (t_nodes t) -> eligible root None n ->
        Forall (open_for (delivers n)) rest
  end.

(** ** Execution *)

(** The keyword arguments are exactly the terminals, all of which are variables. *)
Definition exact_arguments {val} (t : tree) (kw : list (string * val)) : Prop :=
  (forall s, In s (map fst kw) -> In (TVar s) (map fst (t_tset t))) /\
  (forall v, In v (map fst (t_tset t)) -> exists s, v = TVar s /\ In s (map fst kw)).

(** The first argument of that name. *)
Fixpoint argument {val} (kw : list (string * val)) (s : string) : option val :=
  match kw with
  | [] => None
  | (k, v) :: rest => if String.eqb s k then Some v else argument rest s
  end.

(** Rows of numpy values with [n] rows. *)
Definition row (r : nat) (v : nval) : option num := match v with Scalar x => Some x | Column l => nth_error l r end.
Definition rows_ok (n : nat) (v : nval) : Prop := match v with Scalar _ => True | Column l => length l = n end.

(** Given as many arguments as they take, the functions of the tree apply the scalar function [fs] to each row. *)
Definition elementwise (t : tree) (n : nat) (fsem : func -> list nval -> res nval) (fs : func -> list num -> num) : Prop :=
  forall f args, In (FNode f) (t_nodes t) -> length args = arity f -> Forall (rows_ok n) args ->
    exists v, fsem f args = Ok v /\ rows_ok n v /\
      forall r xs, r < n -> map (row r) args = map Some xs -> row r v = Some (fs f xs).

(** The variables of row [r] of [X]. *)
Definition row_env (X : array) (r : nat) (s : string) : option num :=
  match find (fun i => String.eqb s (column_name i)) (seq 0 (length (a_cols X))) with
  | Some i => match nth_error (a_cols X) i with Some c => nth_error c r | None => None end
  | None => None
  end.

(** ** Node lists that can be continued to a complete tree *)
Definition unfinished (l : list node) : Prop := exists r, r <> [] /\ complete (l ++ r).

Definition untyped (n : node) : Prop :=
  match n with FNode f => forall o, In o (f_params f ++ [f_ret f]) -> o = None | TNode _ a => a = None end.
