(** * Vocabulary for operators and creators made by their constructors. *)
From Verif.Spec Require Import CompleteSpec SetupSpec.
From Verif.Model Require Import Make Setup.
Open Scope nat_scope.
Open Scope string_scope.
Open Scope list_scope.

(** Every argument that is given is one the class has. *)
Definition takes (a : op_args) (c : op_name) : Prop :=
  (oa_arity a <> None -> c <> NIdentity) /\
  (oa_n a <> None -> In c [NBase; NUniformN; NGaussN; NIntN; NBitNFlip]) /\
  (oa_k a <> None -> c = NKPoints) /\
  (oa_mu a <> None \/ oa_sigma a <> None -> In c [NGaussOne; NGaussN; NErc]) /\
  (oa_each a <> None -> In c [NIntOne; NBitNFlip]) /\
  (oa_attempts a <> None -> In c [NBase; NGaussOne; NGaussN; NSubtreeXO; NSubtreeMut]) /\
  (oa_depth a <> None -> c = NSubtreeMut).

(** The default probability and arity. *)
Definition usual_probability (c : op_name) : num := match c with NIntOne => Fin (1 # 2) | _ => Fin 1 end.
Definition usual_arity (c : op_name) : nat := match c with NKPoints | NSubtreeXO => 2 | _ => 1 end.

(** The attribute is the argument, or the default. *)
Definition set_by {X} (arg : option X) (usual x : X) : Prop := arg = Some x \/ arg = None /\ x = usual.

(** What the operator made by the call does, with the parameters that were given or the defaults. *)
Definition does (c : op_name) (a : op_args) (k : okind) : Prop :=
  match k with
  | OKPoint p => c = NKPoints /\ set_by (oa_k a) 1 p
  | OVecMut m n =>
      (match c with NUniformOne | NIntOne | NBitFlip | NGaussOne => n = 1 | _ => set_by (oa_n a) 1 n end) /\
      match m with
      | MUniformOne => c = NUniformOne
      | MUniformN => c = NUniformN
      | MGaussOne mu sigma => c = NGaussOne /\ set_by (oa_mu a) (Fin 0) mu /\ set_by (oa_sigma a) (Fin 1) sigma
      | MGaussN mu sigma => c = NGaussN /\ set_by (oa_mu a) (Fin 0) mu /\ set_by (oa_sigma a) (Fin 1) sigma
      | MIntOne p => c = NIntOne /\ set_by (oa_each a) (Fin (1 # 10)) p
      | MIntN => c = NIntN
      | MBitFlip => c = NBitFlip
      | MBitNFlip p => c = NBitNFlip /\ set_by (oa_each a) (Fin (1 # 5)) p
      | MBase => c = NBase
      end
  | OSubtreeXO => c = NSubtreeXO
  | OSubtreeMut mn mx => c = NSubtreeMut /\ set_by (oa_depth a) (2, 4) (mn, mx)
  | OErc mu sigma => c = NErc /\ set_by (oa_mu a) (Fin 0) mu /\ set_by (oa_sigma a) (Fin 1) sigma
  | OIdentity => c = NIdentity
  end.

(** Default attempts. *)
Definition usual_attempts (c : op_name) : Z := match c with NSubtreeXO | NSubtreeMut | NErc | NIdentity | NKPoints => 1 | _ => 5 end.

(** Classes for vectors of a kind, and for trees. *)
Definition for_vectors (k : vkind) (c : op_name) : Prop :=
  match c with
  | NKPoints | NIdentity => True
  | NUniformOne | NUniformN | NIntOne | NIntN => True
  | NGaussOne | NGaussN => k = KFloat
  | NBitFlip | NBitNFlip => k = KBit
  | _ => False
  end.
Definition for_trees (c : op_name) : Prop :=
  match c with NSubtreeXO | NSubtreeMut | NErc | NIdentity => True | _ => False end.

(** The numbers of points and cells fit into vectors of this length; a crossover is of two vectors; noise is finite. *)
Definition fitting (len : nat) (c : op_name) (a : op_args) : Prop :=
  match c with
  | NKPoints => (forall ar, oa_arity a = Some ar -> ar = 2) /\ forall k, set_by (oa_k a) 1 k -> k < len
  | NIdentity | NIntOne => True
  | NUniformOne | NBitFlip => 1 <= len
  | _ => (forall n, set_by (oa_n a) 1 n -> 1 <= n <= len) /\
         (forall x, oa_mu a = Some x -> is_fin x = true) /\ (forall x, oa_sigma a = Some x -> is_fin x = true)
  end.

(** The arity of the call divides the size. *)
Definition arity_divides (size : nat) (c : op_name) (a : op_args) : Prop :=
  forall ar, set_by (oa_arity a) (usual_arity c) ar -> ar <> 0 /\ Nat.divide ar size.

(** The arguments are for trees over the primitives of [t0]; half and half on [size] individuals makes every kind of tree. *)
Definition args_for (t0 : tree) (a : gp_args) : Prop :=
  (exists ts typed, ga_functions a = Some (t_fset t0) /\ ga_terminals a = Some (ts, typed) /\
     handle_input_types (t_fset t0) ts typed (t_erc t0) (t_root_type t0) = Ok (t_tset t0)) /\
  ga_erc a = t_erc t0 /\ ga_root a = t_root_type t0 /\ (forall w, ga_bloat a = Some w -> is_fin w = true).
Definition made_for (t0 : tree) (size : nat) (c : creator) : Prop :=
  exists a, args_for t0 a /\
    (new_grow a = Ok c \/ new_full a = Ok c \/
     new_half a = Ok c /\ exists mn mx, set_by (ga_depth a) (2, 4) (mn, mx) /\ mn <= mx /\ 2 * (mx + 1 - mn) <= size).

(** A call that makes an operator for vectors of this kind and length in a subpopulation of this size; the same for trees. *)
Definition vector_call (k : vkind) (len size : nat) (c : op_name) (a : op_args) : Prop :=
  for_vectors k c /\ takes a c /\ (forall z, oa_attempts a = Some z -> (1 <= z)%Z) /\ fitting len c a /\ arity_divides size c a.
Definition tree_call (size : nat) (c : op_name) (a : op_args) : Prop :=
  for_trees c /\ takes a c /\ (forall z, oa_attempts a = Some z -> (1 <= z)%Z) /\ arity_divides size c a /\
  (forall x, oa_mu a = Some x -> is_fin x = true) /\ (forall x, oa_sigma a = Some x -> is_fin x = true).

(** SimpleEvolution takes the arguments, given the population. *)
Definition other_arguments (x : evolution_args) : Prop :=
  ea_breeder x <> BrOther /\ (ea_executor x = "thread" \/ ea_executor x = "process") /\ (exists k, given_statistics (ea_statistics x) k) /\
  given_evaluator (ea_evaluator x) ByMap /\ Forall calm (ea_checkers x).
