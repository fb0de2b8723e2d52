(** * Vocabulary for regression. *)
From Coq Require Import QArith Qabs.
From Verif.Model Require Import Regressor World Evolution.
From Verif.Spec Require Import WorldSpec FitnessSpec TreeSpec EvoSpec CompleteSpec BaseSpec.
Open Scope nat_scope.

(** [m] times the number of samples is the sum of the absolute differences. *)
Fixpoint total_difference (y p : list Q) : Q :=
  match y, p with a :: y', b :: p' => Qabs (a - b) + total_difference y' p' | _, _ => 0 end.
Definition mean_of (total : Q) (n : nat) (m : Q) : Prop := (m * inject_Z (Z.of_nat n) == total)%Q.

(** A table of finite floats with at least one row and one column. *)
Definition float_table (X : array) : Prop :=
  a_float X = true /\ a_cols X <> [] /\ 0 < a_rows X /\
  forall c, In c (a_cols X) -> length c = a_rows X /\ Forall (fun x => is_fin x = true) c.

(** As many finite target values as rows. *)
Definition targets (X : array) (y : list num) : Prop := length y = a_rows X /\ Forall (fun x => is_fin x = true) y.

(** Only numeric functions, each with its number of parameters. *)
Definition numeric_functions (fset : list func) : Prop := forall f, In f fset -> In (f_name f, arity f) numeric.

(** A fitness class without size penalty. *)
Definition no_penalty (c : fclass) : Prop :=
  match c with KSimple => True | KGP w => neq_num w (Fin 0) = true | KNSGA2 => False end.

(** The scalar version of the functions. *)
Definition base_scalar (us ul usin ucos utan : num -> num) (f : func) (xs : list num) : num :=
  match base_sem us ul usin ucos utan f (map EFloat xs) with Ok e => el_num e | Raise _ => NaN end.
