(** * Vocabulary for counting tournaments. *)
From Coq Require Import List.
From Verif.Model Require Import Rng World.
Open Scope nat_scope.

(** There are exactly [n] things with property [P]. *)
Definition number_of {A} (P : A -> Prop) (n : nat) : Prop :=
  exists L, NoDup L /\ (forall x, In x L <-> P x) /\ length L = n.

(** [f] pairs off the [P]s with the [Q]s. *)
Definition bijection {A B} (P : A -> Prop) (Q : B -> Prop) (f : A -> B) : Prop :=
  (forall x, P x -> Q (f x)) /\ (forall x y, P x -> P y -> f x = f y -> x = y) /\ (forall y, Q y -> exists x, P x /\ f x = y).

(** The integers that a tournament of [k] out of [n] asks for: [k] integers below [n], or, if nobody may take part twice, one
    below [n], the next below [n - 1], and so on. *)
Definition draws_for (replace : bool) (n k : nat) (ds : list nat) : Prop :=
  length ds = k /\ forall i d, nth_error ds i = Some d -> d < (if replace then n else n - i).

(** The next integers that Python's generator will give. *)
Definition upcoming (g : rng) (ds : list nat) : Prop :=
  forall i d, nth_error ds i = Some d -> d_n (r_py g (r_pyseed g) (r_pypos g + i)) = N.of_nat d.

(** n (n - 1) ... (n - k + 1) *)
Fixpoint falling (n k : nat) : nat := match k with O => 1 | S k' => n * falling (n - 1) k' end.

(** The number of tournaments of [k] out of [n], counted with the order of the participants. *)
Definition tournaments (replace : bool) (n k : nat) : nat := if replace then n ^ k else falling n k.
