(** Properties of the textual form of program trees: C66. *)
From Coq Require Import QArith Ascii.
From Verif.Model Require Import Show Evolution.
From Verif.Spec Require Import WorldSpec TreeSpec EvoSpec CompleteSpec ShowSpec.
From Verif.Proofs Require Import ShowP CompleteTreeP.
From Verif.Model Require Import Tree World Show Evolution.
Open Scope string_scope.
Open Scope nat_scope.
Open Scope list_scope.

(** ** C66 *)

(** The text of a complete tree is a heading with the parameters, and, up to layout, the expression. *)
Theorem C66_text : forall num_text type_name id t rt s, saturated rt -> flatten rt = t_nodes t ->
  tree_str num_text type_name id t = Ok s -> reads_as num_text type_name id t rt s.
Proof. exact text_reads. Qed.
Print Assumptions C66_text.

(** There is a text exactly for the printable trees. *)
Theorem C66_printable : forall num_text type_name id t, complete (t_nodes t) ->
  ((exists s, tree_str num_text type_name id t = Ok s) <-> printable_tree t).
Proof. exact text_printable. Qed.
Print Assumptions C66_printable.

(** A number among untyped terminals makes it raise TypeError. *)
Theorem C66_numbers : forall num_text type_name id t k ty, complete (t_nodes t) -> untyped_terminal (t_tset t) ->
  In (k, ty) (t_tset t) -> (forall s, k <> TVar s) -> tree_str num_text type_name id t = Raise TypeError.
Proof. exact text_numbers. Qed.
Print Assumptions C66_numbers.

(** Trees with the same text, up to name, parameters and layout, consist of the same functions, variables and numbers. *)
Theorem C66_unambiguous : forall num_text type_name id id' t t' s s',
  complete (t_nodes t) -> complete (t_nodes t') -> distinct_texts num_text (t_nodes t ++ t_nodes t') ->
  one_line_heading num_text type_name id t -> one_line_heading num_text type_name id' t' ->
  tree_str num_text type_name id t = Ok s -> tree_str num_text type_name id' t' = Ok s' ->
  squash (after_first_line s) = squash (after_first_line s') ->
  Forall2 same_symbol (t_nodes t) (t_nodes t').
Proof. exact text_unambiguous. Qed.
Print Assumptions C66_unambiguous.

(** They compute the same. *)
Theorem C66_determines_value : forall num_text type_name id id' t t' s s' val fsem const kw,
  complete (t_nodes t) -> complete (t_nodes t') -> distinct_texts num_text (t_nodes t ++ t_nodes t') ->
  one_line_heading num_text type_name id t -> one_line_heading num_text type_name id' t' ->
  tree_str num_text type_name id t = Ok s -> tree_str num_text type_name id' t' = Ok s' ->
  squash (after_first_line s) = squash (after_first_line s') ->
  t_tset t = t_tset t' -> (forall b x k k', const (TNum b x k) = const (TNum b x k')) ->
  execute val fsem const t kw = execute val fsem const t' kw.
Proof. exact text_determines_value. Qed.
Print Assumptions C66_determines_value.

(** f(x, g(1.0)), untyped. *)
Definition fxy : func := mkFunc 1 "f_add" [None; None] None.
Definition gx : func := mkFunc 2 "f_neg" [None] None.
Definition digits (b : bool) (x : num) : string := match x with Fin q => if Qeq_bool q 1 then "1.0" else "0.5" | _ => "nan" end.
Definition type_name (t : ty) : string := "float".
Definition small_expr : rtree :=
  Rose (FNode fxy) [Rose (TNode (TVar "x") None) []; Rose (FNode gx) [Rose (TNode (TNum true (Fin 1) 7) None) []]].
Definition small_text (names : list (tval * option ty)) : tree := mkTree [fxy; gx] names None None (flatten small_expr).
Definition nl : string := String (ascii_of_nat 10) "".

Example C66_text_example : saturated small_expr /\ printable_tree (small_text [(TVar "x", None); (TVar "y", None)]) /\
  tree_str digits type_name "3" (small_text [(TVar "x", None); (TVar "y", None)]) =
    Ok ("def func_3(x, y):" ++ nl ++ "  return f_add(" ++ nl ++ "    x," ++ nl ++ "    f_neg(" ++ nl ++ "      1.0    )" ++ nl ++ "  )")%string.
Proof.
  split; [repeat split|]. split; [|vm_compute; reflexivity]. split; cbn.
  - intros _ k ty [[= <- <-]|[[= <- <-]|[]]]; eauto.
  - intros H. destruct H. exists (TVar "x"). cbn. auto.
Qed.

(** With a type, the parameters and the result get hints. *)
Example C66_typed_example :
  tree_str digits type_name "3" (mkTree [] [(TVar "x", Some TyFloat)] None (Some TyFloat) [TNode (TVar "x") (Some TyFloat)]) =
    Ok ("def func_3(x: float) -> float:" ++ nl ++ "  return x")%string.
Proof. vm_compute. reflexivity. Qed.

Example C66_numbers_example :
  untyped_terminal (t_tset (small_text [(TVar "x", None); (TNum false (Fin 1) 0, None)])) /\
  tree_str digits type_name "3" (small_text [(TVar "x", None); (TNum false (Fin 1) 0, None)]) = Raise TypeError.
Proof. split; [exists (TVar "x"); cbn; auto|vm_compute; reflexivity]. Qed.

(** The hypotheses of the theorem on reading back hold for this tree and a copy with another number object. *)
Definition other_object : tree :=
  mkTree [fxy; gx] [(TVar "x", None); (TVar "y", None)] None None [FNode fxy; TNode (TVar "x") None; FNode gx; TNode (TNum true (Fin 1) 8) None].
Example C66_unambiguous_example :
  distinct_texts digits (t_nodes (small_text [(TVar "x", None); (TVar "y", None)]) ++ t_nodes other_object) /\
  one_line_heading digits type_name "3" other_object /\
  exists s s', tree_str digits type_name "3" (small_text [(TVar "x", None); (TVar "y", None)]) = Ok s /\
    tree_str digits type_name "4" other_object = Ok s' /\ s <> s' /\ squash (after_first_line s) = squash (after_first_line s').
Proof.
  split; [|split].
  - split; [|split; [|split]].
    + intros n [<-|[<-|[<-|[<-|[<-|[<-|[<-|[<-|[]]]]]]]]]; (split; [discriminate|reflexivity]).
    + intros f g [[= <-]|[?|[[= <-]|[?|[[= <-]|[?|[[= <-]|[?|[]]]]]]]]] [[= <-]|[?|[[= <-]|[?|[[= <-]|[?|[[= <-]|[?|[]]]]]]]]] E; try discriminate; reflexivity.
    + intros s ty b x k ty' H1 H2. assert (s = "x") as -> by (repeat (destruct H1 as [H1|H1]; [first [discriminate H1|injection H1; intros; subst; auto]|]); destruct H1).
      assert (x = Fin 1) as -> by (repeat (destruct H2 as [H2|H2]; [first [discriminate H2|injection H2; intros; subst; auto]|]); destruct H2).
      vm_compute. discriminate.
    + intros b x k ty b' x' k' ty' H1 H2 _.
      assert (b = true /\ x = Fin 1) as [-> ->] by (repeat (destruct H1 as [H1|H1]; [first [discriminate H1|injection H1; intros; subst; auto]|]); destruct H1).
      assert (b' = true /\ x' = Fin 1) as [-> ->] by (repeat (destruct H2 as [H2|H2]; [first [discriminate H2|injection H2; intros; subst; auto]|]); destruct H2).
      auto.
  - split; [reflexivity|]. split; [reflexivity|]. cbn. intros k ty [[= <- <-]|[[= <- <-]|[]]]; reflexivity.
  - eexists _, _. split; [vm_compute; reflexivity|]. split; [vm_compute; reflexivity|]. split; [discriminate|vm_compute; reflexivity].
Qed.
