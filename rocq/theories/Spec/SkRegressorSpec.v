(** * Vocabulary for fitted regressors. *)
From Coq Require Import QArith.
From Verif.Model Require Import Num Fitness Tree World BaseFns Regressor.
From Verif.Spec Require Import TreeSpec WorldSpec CompleteSpec StatSpec RegSpec.
Open Scope nat_scope.
Open Scope list_scope.

(** The numbers [p] that the program [rt] computes from the rows of the table. *)
Definition computes (fs : func -> list num -> num) (rt : rtree) (X : array) (p : list Q) : Prop :=
  length p = a_rows X /\ forall r, r < a_rows X -> exists q, nth_error p r = Some q /\
    eval num (fun f xs => Ok (fs f xs)) number_const (row_env X r) rt = Ok (Fin q).

(** The individual [o] is a program [rt] of the primitives of [t0] that computes [p]; its fitness [m] is the mean absolute
    difference from the targets. *)
Definition fits_data (fs : func -> list num -> num) (t0 : tree) (X : array) (ys : list Q) (w : world) (o : oid) (rt : rtree) (p : list Q) (m : Q) : Prop :=
  exists t, tree_at w o t /\ flatten rt = t_nodes t /\ saturated rt /\ (forall nd, In nd (flatten rt) -> program_node t0 nd) /\
    computes fs rt X p /\ mean_of (total_difference ys p) (length ys) m /\ pure_at w o (VNum (Fin m)).

(** Polynomials of the variables [v 0], [v 1] and so on. *)
Inductive polynomial (n : nat) : ((nat -> Q) -> Q) -> Prop :=
| PConst c : polynomial n (fun _ => c)
| PVar i : i < n -> polynomial n (fun v => v i)
| PAdd f g : polynomial n f -> polynomial n g -> polynomial n (fun v => f v + g v)%Q
| PSub f g : polynomial n f -> polynomial n g -> polynomial n (fun v => f v - g v)%Q
| PMul f g : polynomial n f -> polynomial n g -> polynomial n (fun v => f v * g v)%Q.

(** The values [v] of the columns in row [r]. *)
Definition row_values (X : array) (r : nat) (v : nat -> Q) : Prop :=
  forall i, i < length (a_cols X) -> exists c, nth_error (a_cols X) i = Some c /\ nth_error c r = Some (Fin (v i)).
