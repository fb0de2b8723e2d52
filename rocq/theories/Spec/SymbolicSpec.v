(** * Vocabulary for the symbolic regression programs. *)
From Coq Require Import QArith Qabs String.
From Verif.Spec Require Import WorldSpec.
From Verif.Model Require Import Num Tree World BaseFns.
Open Scope nat_scope.
Open Scope list_scope.

(** The sum of the deviations of [out] from x + 2y + 3z. *)
Definition deviation (out : Q -> Q -> Q -> Q) (r : Q * Q * Q) : Q :=
  match r with (x, y, z) => Qabs (out x y z - (x + 2 * y + 3 * z)) end.
Definition deviations (out : Q -> Q -> Q -> Q) (data : list (Q * Q * Q)) : Q := fold_right (fun r t => deviation out r + t)%Q 0%Q data.

(** [m] is their mean. *)
Definition mean_deviation (out : Q -> Q -> Q -> Q) (data : list (Q * Q * Q)) (m : Q) : Prop :=
  (m * inject_Z (Z.of_nat (length data)) == deviations out data)%Q.

(** The program computes [out] on floats. *)
Definition calculates (fsem : func -> list el -> res el) (w : world) (o : oid) (out : Q -> Q -> Q -> Q) : Prop :=
  exists t, tree_at w o t /\ forall x y z,
    execute el fsem el_const t [("x", EFloat (Fin x)); ("y", EFloat (Fin y)); ("z", EFloat (Fin z))]%string = Ok (EFloat (Fin (out x y z))).
