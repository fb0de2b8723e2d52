(** * Vocabulary for fitted classifiers. *)
From Coq Require Import QArith.
From Verif.Model Require Import Num Fitness Tree World BaseFns Regressor.
From Verif.Spec Require Import TreeSpec WorldSpec CompleteSpec StatSpec.
Open Scope nat_scope.
Open Scope list_scope.

(** A class label. *)
Definition label (z : Z) : num := Fin (inject_Z z).

(** Class [k] of [n] for a score [x]: the one whose part of the interval from 0 to 1 has the logistic function of [x]; the last
    class if the score is not a number. *)
Definition class_of (sg : num -> num) (n : nat) (x : num) (k : nat) : Prop :=
  k < n /\ (is_nan x = true -> k = n - 1) /\
  (is_nan x = false -> exists q, sg x = Fin q /\ ((Z.of_nat k # Pos.of_nat n) <= q)%Q /\ (S k < n -> (q < Z.of_nat (S k) # Pos.of_nat n)%Q)).

(** The classes [l] of the rows of the table by the program [rt]. *)
Definition classes (sg : num -> num) (n : nat) (fs : func -> list num -> num) (rt : rtree) (X : array) (l : list nat) : Prop :=
  length l = a_rows X /\ forall r, r < a_rows X -> exists x k,
    eval num (fun f xs => Ok (fs f xs)) number_const (row_env X r) rt = Ok x /\ nth_error l r = Some k /\ class_of sg n x k.

(** The number of right answers, and of labels that there is a class for. *)
Fixpoint hits (ys : list Z) (l : list nat) : nat :=
  match ys, l with y :: ys', k :: l' => (if Z.eq_dec y (Z.of_nat k) then 1 else 0) + hits ys' l' | _, _ => 0 end.
Definition known (n : nat) (ys : list Z) : nat := length (filter (fun y => (0 <=? y) && (y <? Z.of_nat n))%Z ys).

(** [m] is the share of [k] in [n]. *)
Definition share (k n : nat) (m : Q) : Prop := (m * inject_Z (Z.of_nat n) == inject_Z (Z.of_nat k))%Q.

(** The individual [o] is a program [rt] of the primitives of [t0] that gives the rows the classes [l]; its fitness [m] is
    the share of right answers. *)
Definition judged (sg : num -> num) (n : nat) (fs : func -> list num -> num) (t0 : tree) (X : array) (ys : list Z)
  (w : world) (o : oid) (rt : rtree) (l : list nat) (m : Q) : Prop :=
  exists t, tree_at w o t /\ flatten rt = t_nodes t /\ saturated rt /\ (forall nd, In nd (flatten rt) -> program_node t0 nd) /\
    classes sg n fs rt X l /\ share (hits ys l) (length ys) m /\ pure_at w o (VNum (Fin m)).

(** A step in place of the logistic function, for examples. *)
Definition step (x : num) : num :=
  match x with Fin q => if Qle_bool q 0 then Fin 0 else Fin 1 | PInf => Fin 1 | NInf => Fin 0 | NaN => NaN end.
