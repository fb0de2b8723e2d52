(** * Vocabulary for classification. *)
From Verif.Model Require Import Classifier.
Open Scope nat_scope.

(** What is used of the logistic function: values between 0 and 1, monotone; NaN stays NaN. *)
Definition sigmoid_like (sg : num -> num) : Prop :=
  (forall x, is_nan x = false -> exists q, sg x = Fin q /\ (0 <= q <= 1)%Q) /\
  (forall x y, is_nan x = false -> is_nan y = false -> nlt y x = false -> nlt (sg y) (sg x) = false) /\
  sg NaN = NaN.
