(** * Vocabulary for configurations whose runs complete. *)
From Coq Require Import QArith.
From Verif.Model Require Import Tree Creators.
From Verif.Model Require Import Evolution.
From Verif.Spec Require Import WorldSpec FitnessSpec VectorSpec TreeSpec EvoSpec Nsga2Spec.
Open Scope nat_scope.

(** The genomes of the individuals belong to [G]. *)
Definition genomes_in (G : genome -> Prop) (l : list oid) (w : world) : Prop :=
  forall o, In o l -> exists i, at_ w o = Some i /\ G (i_genome i).

(** Given as many distinct individuals as its arity says, with genomes from [G], the operator returns them, whatever is
    drawn, and their genomes are still from [G]. *)
Definition closed_operator (G : genome -> Prop) (op : oper) : Prop :=
  forall l w, length l = op_arity op -> NoDup l -> genomes_in G l w ->
  exists w', apply_operator op l w = (Ok l, w') /\ genomes_in G l w'.

(** The creator makes [n] individuals with genomes from [G], whatever is drawn. *)
Definition closed_creator (G : genome -> Prop) (n : nat) (h : hibv) (c : creator) : Prop :=
  forall w, exists l w', create_individuals c n h w = (Ok l, w') /\ genomes_in G l w'.

(** [o] is an individual with a fitness value. *)
Definition valued (hp : heap) (o : oid) : Prop := exists i v, nth_error hp o = Some i /\ get_pure_fitness (i_fit i) = Ok v.

(** A user's checker that answers if the individuals it is given have fitness values. *)
Definition answers (f : user_checker) : Prop := forall stored pop hp best gen,
  valued hp best -> (forall o, In o (flat_map inds_of pop) -> valued hp o) -> exists b stored', f stored pop hp best gen = Ok (b, stored').

(** A checker that does not raise: a user's checker answers; a stagnation checker remembers numbers, if anything. *)
Definition calm (c : checker) : Prop :=
  match c with
  | CkThreshold _ _ => True
  | CkStagnation _ best _ => forall l, best = Some l -> Forall (fun v => exists x, v = VNum x) l
  | CkUser f _ => answers f
  end.

(** A tournament selection of one individual, for a population of [n]. *)
Definition tournament_for (n : nat) (sel : selection) : Prop :=
  match sel with
  | SelTournament k replace a => 1 <= k /\ (replace = false -> k <= n) /\ a = 1
  | SelFP _ _ => False
  end.

(** The same for a population of individuals with multi-objective fitness. *)
Definition moo_answers (f : user_checker) : Prop := forall stored pop hp best gen,
  pop <> [] -> valued hp best ->
  (forall o, In o (flat_map inds_of pop) -> valued hp o /\ exists i, nth_error hp o = Some i /\ ft_class (i_fit i) = KNSGA2) ->
  exists b stored', f stored pop hp best gen = Ok (b, stored').

(** What can be checked about an algorithm before its run: one subpopulation [s], all arities divide its size, the first
    selection method is a tournament, the individuals are given or the creators have probabilities, the fitness is a
    number to be compared in direction [h]. *)
Record configured (h : bool) (a : algo) (w : world) (s : subpop) : Prop := {
  cf_pop : a_pop a = [s];
  cf_hib : sp_hib s = HB h;
  cf_size : 1 <= sp_size s;
  cf_arities : forall n, In n (map sel_arity (sp_sels s) ++ map op_arity (sp_ops s)) -> n <> 0 /\ Nat.divide n (sp_size s);
  cf_sel : exists sel sels, sp_sels s = sel :: sels /\ tournament_for (sp_size s) sel;
  cf_inds : match sp_inds s with
            | Some l => length l = sp_size s /\ forall o, In o l -> scalar_at w h o
            | None => length (sp_creators s) = length (sp_pcr s) /\ (exists q, nsum (sp_pcr s) = Fin q /\ (0 < q)%Q) /\
                      forall c, In c (sp_creators s) -> scalar_creator c
            end;
  cf_checkers : Forall calm (a_checkers a);
  cf_method : a_method a = ByMap;
  cf_alive : a_alive a = true
}.

(** The genomes stay in the class [G]: those of the given individuals or of the created ones, and by all operators. *)
Definition closed_under (G : genome -> Prop) (w : world) (s : subpop) : Prop :=
  Forall (closed_operator G) (sp_ops s) /\
  match sp_inds s with
  | Some l => genomes_in G l w
  | None => forall c, In c (sp_creators s) -> closed_creator G (sp_size s) (sp_hib s) c
  end.

(** The fitness function gives every genome of the class a number. *)
Definition total_on (G : genome -> Prop) (ev : genome -> res fval) : Prop := forall g, G g -> exists v, ev g = Ok v.

(** ** Vectors *)

(** In-bounds vectors of one kind, length and bounds. *)
Definition vectors (k : vkind) (b : bounds) (len : nat) (g : genome) : Prop :=
  exists v, g = GVec v /\ sound_vec v /\ v_kind v = k /\ v_bounds v = b /\ vsize v = len.

(** Operators for such vectors: the points of a crossover fit into the vectors; a mutation draws inside the bounds and
    makes at least one attempt, or it is a Gaussian mutation of float vectors. *)
Definition vector_operator (k : vkind) (b : bounds) (len : nat) (op : oper) : Prop :=
  match op_kind op with
  | OIdentity => True
  | OKPoint p => op_arity op = 2 /\ p < len
  | OVecMut m n =>
      (1 <= op_attempts op /\ draws_inside m (mkVec k b len []) /\ match m with MIntOne _ => True | _ => n <= len end) \/
      (is_gauss m /\ finite_params m /\ 1 <= n <= len /\ k = KFloat)
  | _ => False
  end.

(** A vector creator for such vectors. *)
Definition vector_creator (k : vkind) (b : bounds) (len : nat) (c : creator) : Prop :=
  match c with
  | CVector len' b' k' _ _ => len' = len /\ b' = b /\ k' = k /\ creatable len b k /\ match b with BCells l => length l <> 2 | _ => True end
  | _ => False
  end.

(** ** Trees *)

(** The tree has the primitives and the root type of [t0]. *)
Definition same_primitives (t0 t : tree) : Prop :=
  t_fset t = t_fset t0 /\ t_tset t = t_tset t0 /\ t_erc t = t_erc t0 /\ t_root_type t = t_root_type t0.

(** Well-typed trees over these primitives that deliver the root type. *)
Definition trees (t0 : tree) (g : genome) : Prop :=
  exists t rt, g = GTree t /\ same_primitives t0 t /\ over (t_fset t) (t_nodes t) /\
    saturated rt /\ flatten rt = t_nodes t /\ well_typed rt /\ delivers (label rt) = t_root_type t0.

Definition tree_operator (op : oper) : Prop :=
  match op_kind op with OIdentity | OSubtreeXO | OSubtreeMut _ _ | OErc _ _ => True | _ => False end.

(** Such trees, all of whose nodes are of the kind [Q]. *)
Definition trees_of (t0 : tree) (Q : node -> Prop) (g : genome) : Prop :=
  trees t0 g /\ forall t n, g = GTree t -> In n (t_nodes t) -> Q n.

(** A kind of nodes: the primitives are of it, and noise on a number of this kind gives one of this kind. *)
Definition node_kind (t0 : tree) (ops : list oper) (Q : node -> Prop) : Prop :=
  (forall n, primitive t0 n -> Q n) /\
  forall op mu sigma, In op ops -> op_kind op = OErc mu sigma ->
    forall b x tag a z tag', Q (TNode (TNum b x tag) a) -> Q (TNode (TNum true (nadd x (nadd mu (nmul (Fin z) sigma))) tag') a).

(** The node is a function, a variable from the terminal set or a finite number. *)
Definition program_node (t0 : tree) (n : node) : Prop :=
  match n with
  | FNode f => In f (t_fset t0)
  | TNode (TVar s) _ => In (TVar s) (map fst (t_tset t0))
  | TNode (TNum _ x _) _ => is_fin x = true
  end.

(** The parameters of a tree creator are those of [t0], and its constructor accepts them. *)
Definition gp_for (t0 : tree) (p : gp_params) : Prop :=
  handle_input_types (g_fset p) (g_terms p) (g_typed p) (g_erc p) (g_root p) = Ok (t_tset t0) /\
  g_fset p = t_fset t0 /\ g_erc p = t_erc t0 /\ g_root p = t_root_type t0.

Definition tree_creator (t0 : tree) (n : nat) (c : creator) : Prop :=
  match c with
  | CGP _ p => gp_for t0 p
  | CHalf mn mx grow full => gp_for t0 grow /\ gp_for t0 full /\ mn <= mx /\ 2 * (mx + 1 - mn) <= n
  | _ => False
  end.

(** ** Fitness classes *)

(** All individuals that exist have a fitness of these classes. *)
Definition all_kinds (P : fclass -> Prop) (w : world) : Prop := forall i, In i (w_heap w) -> P (ft_class (i_fit i)).

(** The creator makes individuals with a fitness of these classes. *)
Definition made_with (P : fclass -> Prop) (c : creator) : Prop :=
  match c with
  | CVector _ _ _ fc _ => P fc
  | CGP _ p => P (KGP (g_bloat p))
  | CHalf _ _ p q => P (KGP (g_bloat p)) /\ P (KGP (g_bloat q))
  end.

(** ** Multi-objective runs *)

(** What can be checked about a multi-objective algorithm with the doubling breeder before its run: one subpopulation [s]
    without elites, all operator arities divide its size, the first selection method is a tournament (it will have nothing
    to select), the individuals are given, distinct and not evaluated yet, or the creators make vectors and have
    probabilities, the directions of the objectives are [h], the only checkers are a user's and do not raise. *)
Record moo_configured (h : list bool) (a : algo) (w : world) (s : subpop) : Prop := {
  mc_pop : a_pop a = [s];
  mc_size : 1 <= sp_size s;
  mc_elite : sp_n_elite s = 0;
  mc_arities : forall op, In op (sp_ops s) -> op_arity op <> 0 /\ Nat.divide (op_arity op) (sp_size s);
  mc_sel : exists k replace n sels, sp_sels s = SelTournament k replace n :: sels /\ n <> 0 /\ (replace = false -> k <= sp_size s);
  mc_inds : match sp_inds s with
            | Some l => length l = sp_size s /\ NoDup l /\ forall o, In o l -> moo_at w h o /\ unevaluated w o
            | None => length (sp_creators s) = length (sp_pcr s) /\ (exists q, nsum (sp_pcr s) = Fin q /\ (0 < q)%Q) /\
                      directed (sp_hib s) h /\
                      forall c, In c (sp_creators s) -> exists len b k upd, c = CVector len b k KNSGA2 upd
            end;
  mc_checkers : Forall (fun c => exists f stored, c = CkUser f stored /\ moo_answers f) (a_checkers a);
  mc_method : a_method a = ByMap;
  mc_alive : a_alive a = true
}.

(** [n] individuals are evaluated first, and [m] in each later evaluation. *)
Definition evaluations (n m : nat) (ls : list (list oid)) : Prop :=
  exists first later, ls = first :: later /\ length first = n /\ Forall (fun l => length l = m) later.
