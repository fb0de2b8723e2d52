(** * Vocabulary for the text of program trees. *)
From Coq Require Import Ascii.
From Verif.Model Require Import Tree World.
From Verif.Spec Require Import TreeSpec.
Open Scope nat_scope.

Definition blank (c : ascii) : bool := (Ascii.eqb c (ascii_of_nat 32) || Ascii.eqb c (ascii_of_nat 10))%bool.

(** A string without its blanks and line breaks. *)
Fixpoint squash (s : string) : string :=
  match s with
  | EmptyString => EmptyString
  | String c s' => if blank c then squash s' else String c (squash s')
  end.

(** Characters with a meaning in an expression. *)
Definition punctuation (c : ascii) : bool := (Ascii.eqb c "(" || Ascii.eqb c ")" || Ascii.eqb c ",")%bool.

(** A name: not empty, without blanks and punctuation. *)
Fixpoint no_special (s : string) : bool :=
  match s with
  | EmptyString => true
  | String c s' => negb (blank c || punctuation c) && no_special s'
  end.
Definition plain (s : string) : Prop := s <> EmptyString /\ no_special s = true.

Section Expression.
  (** The text of a number. *)
  Variable num_text : bool -> num -> string.

  Definition node_text (n : node) : string :=
    match n with FNode f => f_name f | TNode (TVar s) _ => s | TNode (TNum b x _) _ => num_text b x end.

  (** x1,...,xn *)
  Fixpoint listed (l : list string) : string :=
    match l with [] => "" | [x] => x | x :: l' => x ++ "," ++ listed l' end%string.

  (** The usual notation: f(x1,...,xn). *)
  Fixpoint expression (t : rtree) : string :=
    match t with
    | Rose (FNode f) ks => (f_name f ++ "(" ++ listed (map expression ks) ++ ")")%string
    | Rose n _ => node_text n
    end.

  (** The names and numbers in these nodes are plain; different functions, variables and numbers have different texts. *)
  Definition distinct_texts (l : list node) : Prop :=
    (forall n, In n l -> plain (node_text n)) /\
    (forall f g, In (FNode f) l -> In (FNode g) l -> f_name f = f_name g -> f = g) /\
    (forall s ty b x k ty', In (TNode (TVar s) ty) l -> In (TNode (TNum b x k) ty') l -> s <> num_text b x) /\
    (forall b x k ty b' x' k' ty', In (TNode (TNum b x k) ty) l -> In (TNode (TNum b' x' k') ty') l ->
       num_text b x = num_text b' x' -> b = b' /\ x = x').
End Expression.

(** The same function, variable or number. *)
Definition same_symbol (n m : node) : Prop :=
  match n, m with
  | FNode f, FNode g => f = g
  | TNode (TVar s) _, TNode (TVar s') _ => s = s'
  | TNode (TNum b x _) _, TNode (TNum b' x' _) _ => b = b' /\ x = x'
  | _, _ => False
  end.

(** Some terminal has no type. *)
Definition untyped_terminal (l : list (tval * option ty)) : Prop := exists k, In (k, None) l.

(** What the textual form needs: with an untyped terminal, all terminals are names; otherwise, the root has a type. *)
Definition printable_tree (t : tree) : Prop :=
  (untyped_terminal (t_tset t) -> forall k ty, In (k, ty) (t_tset t) -> exists s, k = TVar s) /\
  (~ untyped_terminal (t_tset t) -> exists n l ty, t_nodes t = n :: l /\ node_type n = Some ty).

Definition printable (g : genome) : Prop := match g with GVec _ => True | GTree t => complete (t_nodes t) /\ printable_tree t end.

(** The same, of a primitive set with its root type. *)
Definition printable_terminals (t : tree) : Prop :=
  (untyped_terminal (t_tset t) -> forall k ty, In (k, ty) (t_tset t) -> exists s, k = TVar s) /\
  (~ untyped_terminal (t_tset t) -> t_root_type t <> None).

(** The parameter list of the printed function. *)
Definition parameter_text (num_text : bool -> num -> string) (type_name : ty -> string) (typed : bool) (e : tval * option ty) (s : string) : Prop :=
  match typed, snd e with
  | true, Some ty => s = (node_text num_text (TNode (fst e) None) ++ ": " ++ type_name ty)%string
  | true, None => False
  | false, _ => fst e = TVar s
  end.

Definition heading (id : string) (ps : string) (hint : string) : string :=
  ("def func_" ++ id ++ "(" ++ ps ++ ")" ++ hint ++ ":" ++ String (ascii_of_nat 10) ("  return "))%string.

Fixpoint comma_separated (l : list string) : string :=
  match l with [] => "" | [x] => x | x :: l' => x ++ ", " ++ comma_separated l' end%string.

(** The text of the tree, up to the layout of the expression. *)
Definition reads_as (num_text : bool -> num -> string) (type_name : ty -> string) (id : string) (t : tree) (rt : rtree) (s : string) : Prop :=
  exists typed ps hint body,
    (typed = true <-> ~ untyped_terminal (t_tset t)) /\
    Forall2 (parameter_text num_text type_name typed) (t_tset t) ps /\
    (if typed then exists ty, node_type (label rt) = Some ty /\ hint = (" -> " ++ type_name ty)%string else hint = EmptyString) /\
    s = (heading id (comma_separated ps) hint ++ body)%string /\
    squash body = squash (expression num_text rt).

(** ** Lines *)

Fixpoint one_line (s : string) : bool :=
  match s with
  | EmptyString => true
  | String c s' => negb (Ascii.eqb c (ascii_of_nat 10)) && one_line s'
  end.

(** What comes after the first line. *)
Fixpoint after_first_line (s : string) : string :=
  match s with
  | EmptyString => EmptyString
  | String c s' => if Ascii.eqb c (ascii_of_nat 10) then s' else after_first_line s'
  end.

(** The texts that make up the first line are without line breaks. *)
Definition one_line_heading (num_text : bool -> num -> string) (type_name : ty -> string) (id : string) (t : tree) : Prop :=
  one_line id = true /\ (forall ty, one_line (type_name ty) = true) /\
  forall k ty, In (k, ty) (t_tset t) -> one_line (node_text num_text (TNode k None)) = true.
