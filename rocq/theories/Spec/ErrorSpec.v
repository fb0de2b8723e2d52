(** * Vocabulary for set-ups that cannot work. *)
From Verif.Model Require Import Fitness World Operators Selection Evolution.
From Verif.Spec Require Import WorldSpec.
Open Scope string_scope.
Open Scope nat_scope.
Open Scope list_scope.

(** A subpopulation that can be bred: there is a selection method, and the size is a multiple of all arities. *)
Definition ready (s : subpop) : Prop :=
  sp_sels s <> [] /\ forall a, In a (map sel_arity (sp_sels s) ++ map op_arity (sp_ops s)) -> a <> 0 /\ Nat.divide a (sp_size s).

(** The (augmented) fitness of an individual. *)
Definition keyed (w : world) (o : oid) (v : fval) : Prop := exists i, at_ w o = Some i /\ ind_augmented i = Ok v.

(** All individuals are still there, with the genomes they had. *)
Definition same_genomes (w w' : world) : Prop :=
  forall o i, at_ w o = Some i -> exists i', at_ w' o = Some i' /\ i_genome i' = i_genome i.

(** The parameters of the given functions: untyped_functions.py, typed_functions.py. *)
Definition parameter_counts : list (nat * list string) :=
  [ (1, ["f_sqrt"; "f_log"; "f_abs"; "f_neg"; "f_inv"; "f_sin"; "f_cos"; "f_tan"; "f_not"; "sqrt_float"; "log_float"; "abs_float"; "neg_float"; "inv_float";
         "sin_float"; "cos_float"; "tan_float"; "not2floats"; "not2ints"; "not2bools"]);
    (2, ["f_add"; "f_sub"; "f_mul"; "f_div"; "f_max"; "f_min"; "f_and"; "f_or"; "add2floats"; "sub2floats"; "mul2floats"; "div2floats"; "max2floats"; "min2floats";
         "and2floats"; "or2floats"; "argmax2floats"; "and2ints"; "or2ints"; "and2bools"; "or2bools"]);
    (3, ["f_iflte0"; "f_ifgt0"; "f_if_then_else"; "iflte0_floats"; "ifgt0_floats"; "if_then_else"; "if_then_else3ints"; "if_then_else3bools"]);
    (4, ["f_iflte"; "f_ifgt"; "iflte_floats"; "ifgt_floats"]) ]%string.

(** The operators on trees, for this many individuals. *)
Definition for_trees (op : oper) (n : nat) : Prop :=
  match op_kind op with OSubtreeXO => op_arity op = n | OSubtreeMut _ _ | OErc _ _ => True | _ => False end.
