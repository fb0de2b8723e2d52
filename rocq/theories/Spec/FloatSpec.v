(** * Vocabulary for program trees in double precision. *)
From Coq Require Import QArith Qabs.
From Verif.Model Require Import Double Num Fitness Tree World Regressor Float.
From Verif.Spec Require Import TreeSpec WorldSpec FitnessSpec CompleteSpec StatSpec RegSpec SkClassifierSpec.
Open Scope nat_scope.
Open Scope list_scope.

(** The exact result, rounded. *)
Definition double_scalar (us ul usin ucos utan : num -> num) (f : func) (xs : list num) : num := rounded (base_scalar us ul usin ucos utan f xs).

(** A double: a finite number of 53 binary digits below 2^1024, or an infinity or NaN. *)
Definition is_double (x : num) : Prop :=
  forall q, x = Fin q -> exists m e, (0 <= m <= 2 ^ 53)%Z /\ (-1074 <= e <= 971)%Z /\ (q == inject_Z m * 2 ^ e \/ q == - (inject_Z m * 2 ^ e))%Q /\
    (Qabs q < too_large)%Q.

(** Whatever the numbers, the functions [fset] give numbers, row by row as [fs] does. *)
Definition row_functions (fset : list func) (fsem : func -> list nval -> res nval) (fs : func -> list num -> num) : Prop :=
  forall t n, (forall f, In (FNode f) (t_nodes t) -> In f fset) -> elementwise t n fsem fs.

(** What the program [rt] computes from the rows of the table. *)
Definition answers (fs : func -> list num -> num) (rt : rtree) (X : array) (p : list num) : Prop :=
  length p = a_rows X /\ forall r, r < a_rows X -> exists x, nth_error p r = Some x /\
    eval num (fun f xs => Ok (fs f xs)) number_const (row_env X r) rt = Ok x.

(** A measure of errors for the targets [y]: it refuses predictions of another number or that are not finite. *)
Definition error_measure (metric : list num -> list num -> res num) (y : list num) : Prop :=
  forall p, (length p <> length y \/ (exists x, In x p /\ is_fin x = false) -> metric y p = Raise ValueError) /\
    (length p = length y -> Forall (fun x => is_fin x = true) p -> exists m, metric y p = Ok m /\ is_nan m = false).

(** The individual [o] is a program [rt] of the primitives of [t0] that computes [p] from the table; its fitness is the measure. *)
Definition trained (fs : func -> list num -> num) (t0 : tree) (metric : list num -> list num -> res num) (X : array) (y : list num)
  (w : world) (o : oid) (rt : rtree) (p : list num) (m : num) : Prop :=
  exists t, tree_at w o t /\ flatten rt = t_nodes t /\ saturated rt /\ (forall nd, In nd (flatten rt) -> program_node t0 nd) /\
    answers fs rt X p /\ Forall (fun x => is_fin x = true) p /\ metric y p = Ok m /\ pure_at w o (VNum m).

(** [m] is the double next to the share of [k] in [n]. *)
Definition rounded_share (k n : nat) (m : Q) : Prop := (m == double (inject_Z (Z.of_nat k) / inject_Z (Z.of_nat n)))%Q.

(** As [judged], with this share. *)
Definition judged_rounded (sg : num -> num) (n : nat) (fs : func -> list num -> num) (t0 : tree) (X : array) (ys : list Z)
  (w : world) (o : oid) (rt : rtree) (l : list nat) (m : Q) : Prop :=
  exists t, tree_at w o t /\ flatten rt = t_nodes t /\ saturated rt /\ (forall nd, In nd (flatten rt) -> program_node t0 nd) /\
    classes sg n fs rt X l /\ rounded_share (hits ys l) (length ys) m /\ pure_at w o (VNum (Fin m)).

(** Numbers that are not negative have a sum. *)
Definition summation (sum : list num -> num) : Prop := forall l, Forall (fun x => nle (Fin 0) x = true) l -> is_nan (sum l) = false.
