(** * Vocabulary for the functions offered for program trees. *)
From Coq Require Import QArith Qabs.
From Verif.Model Require Import BaseFns.
From Verif.Spec Require Import TreeSpec.
Open Scope string_scope.

(** A finite integer or float (not a boolean). *)
Definition number (a : el) : Prop := match a with EInt _ => True | EFloat (Fin _) => True | _ => False end.

(** The numeric functions and how many arguments they take. *)
Definition numeric : list (string * nat) :=
  [ ("f_add", 2); ("f_sub", 2); ("f_mul", 2); ("f_div", 2); ("f_sqrt", 1); ("f_log", 1); ("f_abs", 1); ("f_neg", 1);
    ("f_inv", 1); ("f_max", 2); ("f_min", 2); ("f_sin", 1); ("f_cos", 1); ("f_tan", 1); ("f_iflte0", 3); ("f_ifgt0", 3);
    ("f_iflte", 4); ("f_ifgt", 4); ("f_not", 1); ("f_if_then_else", 3);
    ("add2floats", 2); ("sub2floats", 2); ("mul2floats", 2); ("div2floats", 2); ("sqrt_float", 1); ("log_float", 1);
    ("abs_float", 1); ("neg_float", 1); ("inv_float", 1); ("max2floats", 2); ("min2floats", 2); ("sin_float", 1);
    ("cos_float", 1); ("tan_float", 1); ("iflte0_floats", 3); ("ifgt0_floats", 3); ("iflte_floats", 4); ("ifgt_floats", 4);
    ("not2floats", 1); ("if_then_else", 3); ("argmax2floats", 2); ("not2ints", 1); ("if_then_else3ints", 3) ]%nat.

(** The library functions are finite where they are defined. *)
Record finite_functions (u_sqrt u_log u_sin u_cos u_tan : num -> num) : Prop := {
  ff_sqrt : forall x, (0 <= x)%Q -> exists y, u_sqrt (Fin x) = Fin y;
  ff_log : forall x, (0 < x)%Q -> exists y, u_log (Fin x) = Fin y;
  ff_sin : forall x, exists y, u_sin (Fin x) = Fin y;
  ff_cos : forall x, exists y, u_cos (Fin x) = Fin y;
  ff_tan : forall x, exists y, u_tan (Fin x) = Fin y
}.

(** All numbers in the tree are finite. *)
Definition finite_constants (t : tree) : Prop :=
  forall b x tag a, In (TNode (TNum b x tag) a) (t_nodes t) -> is_fin x = true.

(** ** What the functions compute on rational numbers *)

(** A finite integer or float of value [x]. *)
Definition is_number (a : el) (x : Q) : Prop := number a /\ exists q, el_num a = Fin q /\ (q == x)%Q.

Definition arg (l : list Q) (k : nat) : Q := nth k l 0%Q.
Definition protected_quotient (x y : Q) : Q := if Qle_bool (Qabs.Qabs y) c0001 then 0%Q else (x / y)%Q.
Definition at_most (x y a b : Q) : Q := if Qle_bool x y then a else b.

(** Name, number of arguments, result. *)
Definition meanings : list (string * (nat * (list Q -> Q))) :=
  flat_map (fun e => match e with (names, n, g) => map (fun s => (s, (n, g))) names end)
  [ (["f_add"; "add2floats"], 2%nat, fun l => arg l 0 + arg l 1)%Q;
    (["f_sub"; "sub2floats"], 2%nat, fun l => arg l 0 - arg l 1)%Q;
    (["f_mul"; "mul2floats"], 2%nat, fun l => arg l 0 * arg l 1)%Q;
    (["f_div"; "div2floats"], 2%nat, fun l => protected_quotient (arg l 0) (arg l 1));
    (["f_inv"; "inv_float"], 1%nat, fun l => protected_quotient 1 (arg l 0));
    (["f_abs"; "abs_float"], 1%nat, fun l => Qabs.Qabs (arg l 0));
    (["f_neg"; "neg_float"], 1%nat, fun l => - arg l 0)%Q;
    (["f_max"; "max2floats"], 2%nat, fun l => at_most (arg l 0) (arg l 1) (arg l 1) (arg l 0));
    (["f_min"; "min2floats"], 2%nat, fun l => at_most (arg l 0) (arg l 1) (arg l 0) (arg l 1));
    (["f_iflte0"; "iflte0_floats"], 3%nat, fun l => at_most (arg l 0) 0 (arg l 1) (arg l 2));
    (["f_ifgt0"; "ifgt0_floats"], 3%nat, fun l => at_most (arg l 0) 0 (arg l 2) (arg l 1));
    (["f_iflte"; "iflte_floats"], 4%nat, fun l => at_most (arg l 0) (arg l 1) (arg l 2) (arg l 3));
    (["f_ifgt"; "ifgt_floats"], 4%nat, fun l => at_most (arg l 0) (arg l 1) (arg l 3) (arg l 2));
    (["f_not"; "not2floats"; "not2ints"], 1%nat, fun l => if Qeq_bool (arg l 0) 0 then 1%Q else 0%Q);
    (["f_if_then_else"; "if_then_else"; "if_then_else3ints"], 3%nat, fun l => if Qeq_bool (arg l 0) 0 then arg l 2 else arg l 1);
    (["argmax2floats"], 2%nat, fun l => at_most (arg l 1) (arg l 0) 0 1) ].

Fixpoint meaning_in (l : list (string * (nat * (list Q -> Q)))) (s : string) : option (nat * (list Q -> Q)) :=
  match l with [] => None | (k, m) :: r => if String.eqb s k then Some m else meaning_in r s end.
Definition meaning : string -> option (nat * (list Q -> Q)) := meaning_in meanings.

(** The value of an expression. *)
Fixpoint worth (env : string -> Q) (t : rtree) : Q :=
  match t with
  | Rose (FNode f) ks => match meaning (f_name f) with Some (_, g) => g (map (worth env) ks) | None => 0%Q end
  | Rose (TNode (TVar s) _) _ => env s
  | Rose (TNode (TNum _ (Fin q) _) _) _ => q
  | Rose (TNode (TNum _ _ _) _) _ => 0%Q
  end.

(** ** Booleans *)

Definition bit (l : list bool) (k : nat) : bool := nth k l false.

(** Name, number of arguments, result on Booleans; [None] stands for TypeError. *)
Definition boolean_meanings : list (string * (nat * (list bool -> option bool))) :=
  flat_map (fun e => match e with (names, n, g) => map (fun s => (s, (n, g))) names end)
  [ (["f_or"; "or2floats"; "or2ints"; "or2bools"; "f_add"; "add2floats"; "f_max"; "max2floats"], 2%nat, fun l => Some (bit l 0 || bit l 1));
    (["f_and"; "and2floats"; "and2ints"; "and2bools"; "f_mul"; "mul2floats"; "f_min"; "min2floats"], 2%nat, fun l => Some (bit l 0 && bit l 1));
    (["not2bools"], 1%nat, fun l => Some (negb (bit l 0)));
    (["f_abs"; "abs_float"], 1%nat, fun l => Some (bit l 0));
    (["f_if_then_else"; "if_then_else"; "if_then_else3ints"; "if_then_else3bools"], 3%nat, fun l => Some (if bit l 0 then bit l 1 else bit l 2));
    (["f_sub"; "sub2floats"], 2%nat, fun _ => None);
    (["f_neg"; "neg_float"], 1%nat, fun _ => None) ]%bool.
Fixpoint boolean_meaning_in (l : list (string * (nat * (list bool -> option bool)))) (s : string) : option (nat * (list bool -> option bool)) :=
  match l with [] => None | (k, m) :: r => if String.eqb s k then Some m else boolean_meaning_in r s end.
Definition boolean_meaning := boolean_meaning_in boolean_meanings.

(** A Boolean as the number 0 or 1. *)
Definition as_number (a : el) : el := match a with EBool true => EInt 1 | EBool false => EInt 0 | _ => a end.
Definition not_boolean (a : el) : Prop := forall b, a <> EBool b.

(** Functions that take a Boolean beside a number for a number, and those that always do. *)
Definition mixing : list string :=
  ["f_add"; "f_sub"; "f_mul"; "f_max"; "f_min"; "f_and"; "f_or"; "add2floats"; "sub2floats"; "mul2floats"; "max2floats"; "min2floats"].
Definition counting : list string :=
  ["f_div"; "f_inv"; "f_sqrt"; "f_log"; "f_sin"; "f_cos"; "f_tan"; "f_not"; "div2floats"; "inv_float"; "sqrt_float"; "log_float";
   "sin_float"; "cos_float"; "tan_float"; "not2floats"; "not2ints"; "and2floats"; "or2floats"; "and2ints"; "or2ints"; "argmax2floats"].

(** ** Numbers of arguments *)

(** All functions on offer, with their numbers of parameters. *)
Definition offered : list (string * nat) :=
  numeric ++ [ ("f_and", 2); ("f_or", 2); ("and2floats", 2); ("or2floats", 2); ("and2ints", 2); ("or2ints", 2); ("and2bools", 2); ("or2bools", 2);
               ("not2bools", 1); ("if_then_else3bools", 3) ]%nat.

(** ** Infinities *)

Definition inf (up : bool) : el := EFloat (if up then PInf else NInf).
Definition nan : el := EFloat NaN.
Definition above_zero (x : Q) : bool := negb (Qle_bool x 0).

(** The function of this name, given these arguments, returns [v]. *)
Definition computes (name : string) (args : list el) (v : el) : Prop :=
  forall us ul usin ucos utan f, f_name f = name -> base_sem us ul usin ucos utan f args = Ok v.
