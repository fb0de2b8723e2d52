(** * C88: the multi-objective example programs. *)
From Coq Require Import QArith Lqa.
From Verif.Props Require Import MooCompleteProps.
From Verif.Model Require Import Double Num Fitness Vector World Evolution Setup Make Nsga2 Statistics MooStat MooExamples.
From Verif.Spec Require Import VectorSpec EvoSpec Nsga2Spec CompleteSpec ExamplesSpec MooStatSpec MooExamplesSpec.
From Verif.Proofs Require Import MooExamplesP.
Open Scope string_scope.
Open Scope nat_scope.
Open Scope list_scope.

(** The ZDT programs, whatever the mathematical functions are: they finish, write one line per generation, and each individual of the
    final population carries the objectives of its own three cells. *)
Theorem C88_zdt : forall sqrt sin pi z sum stamp sched so w, sum = sum_plain \/ sum = sum_compensated -> fair sched -> any_order so ->
  exists su a1 w1 a' w' k, zdt_program sum stamp = Ok su /\ su_stats su = 1 /\
    initialize (zdt sqrt sin pi z) sched 1 (su_algo su, w) = (Ok tt, (a1, w1)) /\
    nsga2_evolve_all (zdt sqrt sin pi z) sched so true (fun _ => []) [SMinimal] ((su_algo su, w), []) = (Ok tt, ((a', w'), map LGeneration (seq 1 k))) /\
    moo_outcome (zdt sqrt sin pi z) (zdt_point sqrt sin pi z) 150 150 k w1 a' w'.
Proof. exact zdt_run. Qed.
Print Assumptions C88_zdt.

(** The basic example, with the statistics of the fronts. *)
Theorem C88_basic : forall sqrt exp sum stamp sched so w, (0 < sqrt 3%Q)%Q -> sum = sum_plain \/ sum = sum_compensated -> fair sched -> any_order so ->
  exists su a1 w1 a' w' blocks, basic_program sum stamp = Ok su /\ su_stats su = 2 /\
    initialize (basic sqrt exp) sched 1 (su_algo su, w) = (Ok tt, (a1, w1)) /\
    nsga2_evolve_all (basic sqrt exp) sched so true fronts_shown [SMinimal] ((su_algo su, w), []) = (Ok tt, ((a', w'), concat blocks)) /\
    (forall g ls, nth_error blocks g = Some ls ->
       fronts_block (vectors KFloat (BPair (Fin (-4)) (Fin 4)) 3) (basic sqrt exp) 150 1 (S g) ls) /\
    moo_outcome (basic sqrt exp) (basic_point sqrt exp) 150 150 (length blocks) w1 a' w'.
Proof. exact basic_run. Qed.
Print Assumptions C88_basic.

(** Rational stand-ins for the mathematical functions. *)
Definition halve (q : Q) : Q := (q / 2)%Q.
Definition cells3 (l : list num) : genome := GVec (mkVec KFloat (BPair (Fin 0) (Fin 1)) 3 l).
Definition same_values (r : res fval) (l : list num) : bool :=
  match r with Ok (VList m) => (length m =? length l) && forallb (fun p => neq_num (fst p) (snd p)) (combine m l) | _ => false end.

Example C88_hypotheses : (0 < halve 3%Q)%Q /\ fair downwards /\ any_order any_set.
Proof. split; [reflexivity|]. destruct (C71_hypotheses []) as (A & B & C & D & _). auto. Qed.

Example C88_zdt_values :
  same_values (zdt halve halve 1 Zdt1 (cells3 [Fin (1 # 2); Fin 1; Fin (1 # 3)])) [Fin (1 # 2); Fin (27 # 28)] = true /\
  same_values (zdt halve halve 1 Zdt2 (cells3 [Fin (1 # 2); Fin 1; Fin (1 # 3)])) [Fin (1 # 2); Fin (195 # 196)] = true /\
  same_values (zdt halve halve 1 Zdt3 (cells3 [Fin (1 # 2); Fin 1; Fin (1 # 3)])) [Fin (1 # 2); Fin (22 # 28)] = true.
Proof. repeat split; vm_compute; reflexivity. Qed.

Example C88_basic_values :
  same_values (basic (fun _ => 2%Q) halve (cells3 [Fin 0; Fin 1; Fin (1 # 2)])) [Fin (5 # 4); Fin (11 # 4)] = true.
Proof. vm_compute. reflexivity. Qed.

(** Vectors of other lengths and negative quotients. *)
Example C88_short :
  zdt halve halve 1 Zdt1 (cells3 []) = Raise IndexError /\ zdt halve halve 1 Zdt1 (cells3 [Fin 1]) = Raise ZeroDivisionError /\
  zdt halve halve 1 Zdt1 (cells3 [Fin (-1); Fin 0; Fin 0]) = Raise ValueError.
Proof. repeat split; vm_compute; reflexivity. Qed.
