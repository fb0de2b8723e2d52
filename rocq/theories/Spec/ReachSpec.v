(** * Vocabulary for what creators can make. *)
From Verif.Model Require Import Num Rng Vector Tree World Creators.
From Verif.Spec Require Import WorldSpec VectorSpec TreeSpec.
Open Scope nat_scope.
Open Scope list_scope.

(** The next numbers that Python's generator will give. *)
Definition ahead (g : rng) (ds : list N) : Prop :=
  forall i d, nth_error ds i = Some d -> d_n (r_py g (r_pyseed g) (r_pypos g + i)) = d.

(** ** Vectors *)

(** How many values a cell between integers, respectively a cell of floats, can get. *)
Definition values_in (k : vkind) (lo hi : num) (n : N) : Prop :=
  match k with
  | KFloat => n = (2 ^ 53)%N
  | _ => exists a b, lo = nof_Z a /\ hi = nof_Z b /\ Z.of_N n = (b - a + 1)%Z
  end.

(** The cell values: all the integers from [lo] to [hi]; or the floats at the 2^53 equidistant places from [lo] on, before [hi]. *)
Definition on_grid (k : vkind) (lo hi x : num) : Prop :=
  match k with
  | KFloat => exists a b j, lo = Fin a /\ hi = Fin b /\ (j < 2 ^ 53)%N /\ x = Fin (a + (b - a) * (Z.of_N j # 9007199254740992))
  | _ => exists a b z, lo = nof_Z a /\ hi = nof_Z b /\ (a <= z <= b)%Z /\ x = nof_Z z
  end.

(** One number for each cell, below the number of its values. *)
Definition cell_draws (k : vkind) (b : bounds) (len : nat) (ds : list N) : Prop :=
  length ds = len /\ forall i d, nth_error ds i = Some d ->
    exists lo hi n, bound_at b i = Some (lo, hi) /\ values_in k lo hi n /\ (d < n)%N.

(** The vectors of this length within the bounds. *)
Definition search_space (k : vkind) (b : bounds) (len : nat) (cells : list num) : Prop :=
  length cells = len /\ forall i x, nth_error cells i = Some x -> exists lo hi, bound_at b i = Some (lo, hi) /\ on_grid k lo hi x.

(** Float intervals with more than one point. *)
Definition wide (b : bounds) : Prop :=
  match b with
  | BPair lo hi => nlt lo hi = true
  | BCells l => Forall (fun p => nlt (fst p) (snd p) = true) l
  end.

(** ** Trees *)

(** The numbers an ERC range gives (with whatever identity as objects). *)
Definition erc_gives (e : erc) (v : tval) : Prop :=
  match e with
  | ErcFloat lo hi => exists x tag, on_grid KFloat lo hi x /\ v = TNum true x tag
  | ErcInt lo hi => exists x tag, on_grid KInt lo hi x /\ v = TNum false x tag
  end.

Definition erc_proper (e : erc) : Prop :=
  match e with
  | ErcFloat lo hi => is_fin lo = true /\ is_fin hi = true
  | ErcInt lo hi => exists a b, lo = nof_Z a /\ hi = nof_Z b /\ (a <= b)%Z
  end.

(** The terminals for a place where type [a] is wanted: those of that type, and for numbers those of the ERC range. *)
Inductive terminal_for (t : tree) (a : option ty) : node -> Prop :=
| Listed : forall v, In (v, a) (t_tset t) -> terminal_for t a (TNode v a)
| Untyped_number : forall e v, t_erc t = Some e -> erc_gives e v -> a = None -> terminal_for t a (TNode v None)
| Typed_number : forall e v b, t_erc t = Some e -> erc_gives e v -> a = Some b -> is_number_type b = true ->
    terminal_for t a (TNode v (Some (erc_type e))).

(** The programs of type [a] over the primitives of [t], whose root is at depth [d], with functions only above depth [hi] and
    terminals only from depth [lo] on. *)
Inductive program (t : tree) (lo hi : nat) : nat -> option ty -> rtree -> Prop :=
| Terminal : forall d a n, terminal_for t a n -> lo <= d -> program t lo hi d a (Rose n [])
| Call : forall d a f ks, In f (t_fset t) -> hinted f -> f_ret f = a -> d < hi ->
    Forall2 (program t lo hi (S d)) (f_params f) ks -> program t lo hi d a (Rose (FNode f) ks).

(** The depths that the methods promise. *)
Definition program_of (m : gp_method) (p : gp_params) (t : tree) (r : rtree) : Prop :=
  match m with
  | Grow => program t (g_min p) (Nat.max (g_min p) (g_max p)) 0 (g_root p) r
  | Full => program t (g_max p) (g_max p) 0 (g_root p) r
  end.

(** There are no types; or the terminals are a dictionary, and there are no numbers among them if there is an ERC range. *)
Definition clear_terminals (t : tree) (root : option ty) : Prop :=
  ((forall a, requested t root a -> a = None) /\ forall k a, In (k, a) (t_tset t) -> a = None) \/
  dictionary (t_tset t) /\ (t_erc t <> None -> forall k a, In (k, a) (t_tset t) -> is_num_tval k = false).

(** Grow stops early with a probability that is neither 0 nor 1 (the largest float below 1 is 1 - 2^-53). *)
Definition undecided (p : num) : Prop := exists q, p = Fin q /\ (0 < q)%Q /\ (q <= 9007199254740991 # 9007199254740992)%Q.

(** The nodes of the trees. *)
Definition has_nodes (w : world) (o : oid) (l : list node) : Prop := exists t, tree_at w o t /\ t_nodes t = l.

(** What ramped half-and-half promises for an individual made by this method with this maximal depth; [tg], [tf]: the terminals of the two
    creators with their types. *)
Definition plan_program (mn : nat) (grow full : gp_params) (tg tf : list (tval * option ty)) (k : gp_method * nat) (r : rtree) : Prop :=
  match k with
  | (Grow, d) => program_of Grow (with_depth grow mn d) (blank_tree grow tg) r
  | (Full, d) => program_of Full (with_depth full mn d) (blank_tree full tf) r
  end.

(** These programs, in this order, are what the creator promises for a population over the primitives of [t0]. *)
Definition can_make (t0 : tree) (c : creator) (rs : list rtree) : Prop :=
  match c with
  | CGP m p => (m = Grow -> undecided (g_prune p)) /\ Forall (program_of m p (blank_tree p (t_tset t0))) rs
  | CHalf mn mx grow full => undecided (g_prune grow) /\ Forall2 (plan_program mn grow full (t_tset t0) (t_tset t0)) (half_plan mn mx (length rs)) rs
  | _ => False
  end.
