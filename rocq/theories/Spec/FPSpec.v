(** * Vocabulary for fitness proportionate selection. *)
From Verif.Model Require Import FP.
Open Scope Q_scope.

(** What is used of the exponential function: it may underflow to zero, but is monotone with value one at zero. *)
Definition exp_like (ex : Q -> Q) : Prop :=
  (forall x, 0 <= ex x) /\ (forall x y, x <= y -> ex x <= ex y) /\ ex 0 == 1.

Definition total (l : list Q) : Q := fold_right Qplus 0 l.

(** Probabilities for [n] alternatives. *)
Definition distribution (n : nat) (ps : list Q) : Prop :=
  length ps = n /\ (forall p, In p ps -> 0 <= p) /\ total ps == 1.

(** A fitness score that can be used. *)
Definition usable (higher : bool) (x : num) : Prop :=
  match x with Fin q => 0 <= q | PInf => higher = false | _ => False end.

(** The world with other numpy draws. *)
Definition remap (f : draw -> draw) (w : world) : world :=
  let g := w_rng w in
  mkWorld (w_heap w) (w_next_id w)
    (mkRng (r_py g) (fun s k => f (r_np g s k)) (r_pyseed g) (r_pypos g) (r_npseed g) (r_nppos g)).
