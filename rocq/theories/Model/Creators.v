(** * Creators: initial individuals.

    Cites: eckity/creators/ga_creators/simple_vector_creator.py 7-53,
    eckity/creators/gp_creators/tree_creator.py 19-78, grow.py, full.py, half.py 11-141. *)
From Verif.Model Require Export World.
Open Scope nat_scope.
Open Scope list_scope.

(** Parameters of a GP creator (tree_creator.py 19-50).  [g_terms] with [g_typed]: a list of terminals
    ([false]: the types are ignored) or a dictionary of types ([true]). *)
Record gp_params := mkGP {
  g_min : nat; g_max : nat;            (* init_depth *)
  g_fset : list func;
  g_terms : list (tval * option ty);
  g_typed : bool;
  g_erc : option erc;
  g_bloat : num;
  g_root : option ty;
  g_upd : bool;
  g_prune : num                        (* GrowCreator.p_prune *)
}.

Definition with_depth (p : gp_params) (mn mx : nat) : gp_params :=
  mkGP mn mx (g_fset p) (g_terms p) (g_typed p) (g_erc p) (g_bloat p) (g_root p) (g_upd p) (g_prune p).

Inductive gp_method := Grow | Full.

Inductive creator :=
| CVector (len : nat) (b : bounds) (k : vkind) (fc : fclass) (upd : bool)
| CGP (m : gp_method) (p : gp_params)
| CHalf (mn mx : nat) (grow full : gp_params).

(** half.py 11-81: the default sub-creators get function set, terminal set, root type and ERC range of the
    HalfCreator, but neither its bloat weight nor [update_parents]: those keep the defaults 0.0 and False. *)
Definition half_creator (p : gp_params) : creator :=
  let sub := mkGP (g_min p) (g_max p) (g_fset p) (g_terms p) (g_typed p) (g_erc p)
                  (Fin 0) (g_root p) false (Fin (1 # 2)) in
  CHalf (g_min p) (g_max p) sub sub.

(** A fresh fitness object of the given class, not evaluated. *)
Definition new_fitness (c : fclass) (h : hibv) : fitness :=
  mkFit c VNone false h false false (Fin 0) PInf.

(** simple_vector_creator.py 30-53: first all individuals are constructed, then their cells are drawn. *)
Definition create_vectors (len : nat) (b : bounds) (k : vkind) (fc : fclass) (upd : bool)
  (n : nat) (h : hibv) : M (list oid) :=
  inds <- repeatM n (v <- lift (vector_init k b len None) ;;
                     new_individual (new_fitness fc h) upd (GVec v)) ;;
  iterM (fun o => v <- load_vec o ;; v' <- liftR (create_vector len v) ;; put_genome o (GVec v')) inds ;;;
  ret inds.

(** tree_creator.py 53-78.  The id is taken before the types are validated (tree_individual.py 72-78). *)
Definition new_tree_individual (p : gp_params) (h : hibv) : M oid :=
  id <- fresh_id ;;
  tset <- lift (handle_input_types (g_fset p) (g_terms p) (g_typed p) (g_erc p) (g_root p)) ;;
  alloc (mkInd id 0 (new_fitness (KGP (g_bloat p)) h) (-1)%Z [] [] (g_upd p) []
               (GTree (mkTree (g_fset p) tset (g_erc p) (g_root p) []))).

Definition create_tree (m : gp_method) (p : gp_params) (t : tree) : R (list node) :=
  match m with
  | Grow => grow_tree (grow_fuel (g_min p) (g_max p) 0) t (g_min p) (g_max p) (g_prune p) 0 (g_root p)
  | Full => full_tree (S (g_max p)) t (g_max p) 0 (g_root p)
  end.

Definition create_trees (m : gp_method) (p : gp_params) (n : nat) (h : hibv) : M (list oid) :=
  inds <- repeatM n (new_tree_individual p h) ;;
  iterM (fun o => t <- load_tree o ;; l <- liftR (create_tree m p t) ;;
                  put_genome o (GTree (with_nodes t l))) inds ;;;
  ret inds.

(** half.py 84-141.  [n_groups] is [2 * (max+1-min)]; if it is negative the quotient rounded towards zero
    is zero or negative, and in the second case no depth is visited, so that all individuals come from the Full creator
    with its own depth range.  The float division is taken to be exact. *)
Definition create_half (mn mx : nat) (grow full : gp_params) (n : nat) (h : hibv) : M (list oid) :=
  let n_groups := 2 * (mx + 1 - mn) in
  if mx + 1 =? mn then raise ZeroDivisionError
  else if mx + 1 <? mn then
    if n <? 2 * (mn - (mx + 1)) then raise ValueError
    else create_trees Full full n h
  else
    let group := n / n_groups in
    if group =? 0 then raise ValueError
    else
      parts <- mapM (fun d =>
                 a <- create_trees Grow (with_depth grow mn d) group h ;;
                 b <- create_trees Full (with_depth full mn d) group h ;;
                 ret (a ++ b))
               (seq mn (mx + 1 - mn)) ;;
      let inds := List.concat parts in
      let missing := n - length inds in
      if missing =? 0 then ret inds
      else rest <- create_trees Full (with_depth full mn mx) missing h ;; ret (inds ++ rest).

Definition create_individuals (c : creator) (n : nat) (h : hibv) : M (list oid) :=
  match c with
  | CVector len b k fc upd => create_vectors len b k fc upd n h
  | CGP m p => create_trees m p n h
  | CHalf mn mx grow full => create_half mn mx grow full n h
  end.
