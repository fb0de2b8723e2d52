(** * Vocabulary for the multi-objective example programs. *)
From Coq Require Import QArith.
From Verif.Spec Require Import WorldSpec FitnessSpec VectorSpec EvoSpec Nsga2Spec StatSpec ExamplesSpec.
From Verif.Model Require Import Num Fitness Vector World Evolution Execute MooExamples.
Open Scope nat_scope.
Open Scope list_scope.

(** The second objectives of the ZDT problems. *)
Definition zdt_curve (sqrt sin : Q -> Q) (pi : Q) (z : zdt_name) (x r : Q) : Q :=
  match z with
  | Zdt1 => 1 - sqrt r
  | Zdt2 => 1 - r * r
  | Zdt3 => 1 - sqrt r - r * sin (10 * pi * x)
  end%Q.

(** Three numbers between 0 and 1 and their objectives. *)
Definition zdt_point (sqrt sin : Q -> Q) (pi : Q) (z : zdt_name) (c p : list num) : Prop :=
  unit_cells 3 c /\
  exists x y1 y2 r f, c = [Fin x; Fin y1; Fin y2] /\ p = [Fin x; Fin f] /\
    (r == x / (1 + (9 # 2) * (y1 + y2)))%Q /\ (0 <= r <= x)%Q /\ (f == zdt_curve sqrt sin pi z x r)%Q.

(** Three numbers between -4 and 4 and their objectives; [u] is 1 / sqrt(3). *)
Definition basic_point (sqrt exp : Q -> Q) (c p : list num) : Prop :=
  exists x y z f1 f2 d1 d2, c = [Fin x; Fin y; Fin z] /\ (-4 <= x <= 4 /\ -4 <= y <= 4 /\ -4 <= z <= 4)%Q /\ p = [Fin f1; Fin f2] /\
    let u := (1 / sqrt 3)%Q in
    (d1 == - ((x - u) * (x - u) + (y - u) * (y - u) + (z - u) * (z - u)))%Q /\ (f1 == 1 - exp d1)%Q /\
    (d2 == - ((x + u) * (x + u) + (y + u) * (y + u) + (z + u) * (z + u)))%Q /\ (f2 == 1 - exp d2)%Q.

(** A run of [size] individuals with [k] generations, at most [max]: what it leaves.  [K] relates cells and objectives.  The individual
    that [execute] uses is one of the first ones. *)
Definition moo_outcome (ev : genome -> res fval) (K : list num -> list num -> Prop) (size max k : nat) (w1 : world) (a' : algo) (w' : world) : Prop :=
  exists first later s b c p,
    evals (a_trace a') = first :: later /\ length first = size /\ Forall (fun l => length l = 2 * size) later /\ length later = k /\
    (a_final a' = Some k \/ a_final a' = None /\ k = max) /\
    a_pop a' = [s] /\ length (inds_of s) = size /\ NoDup (inds_of s) /\
    (forall o, In o (inds_of s) -> exists c p, cells_at w' o c /\ pure_at w' o (VList p) /\ K c p) /\
    reached_again ev [false; false] w1 first w' (inds_of s) /\
    a_best_run a' = Some b /\ In b first /\ cells_at w' b c /\ pure_at w' b (VList p) /\ K c p /\
    forall val (fsem : func -> list val -> res val) const kw, algorithm_execute val fsem const kw a' w' = Ok (OVector c).
