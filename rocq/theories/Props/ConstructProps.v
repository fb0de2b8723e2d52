(** Properties of the construction of subpopulations: C45. *)
From Coq Require Import QArith Qabs.
From Verif.Model Require Import Construct.
From Verif.Proofs Require Import ConstructP.
From Verif.Model Require Import Construct.
Open Scope nat_scope.
Open Scope list_scope.

(** Python floats, e.g. 0.1: the double nearest to 1/10. *)
Definition f_01 : Q := 3602879701896397 # 36028797018963968.
Definition f_005 : Q := 3602879701896397 # 72057594037927936.
Definition vectors : creator := CVector 3 (BPair (Fin 0) (Fin 1)) KBit KSimple false.

(** ** C45 *)

(** The elite count is between 0 and the population size. *)
Theorem C45_elites_in_range : forall rate n,
  (0 <= rate <= 1)%Q -> (Z.of_nat n <= 2 ^ 53)%Z -> (0 <= n_elite_of rate n <= Z.of_nat n)%Z.
Proof. exact n_elite_bounds. Qed.
Print Assumptions C45_elites_in_range.

(** It is an integer nearest to the exact product, up to the rounding error of the product. *)
Theorem C45_elites_nearest : forall rate n,
  (0 <= rate)%Q -> (Z.of_nat n <= 2 ^ 53)%Z ->
  (Qabs (inject_Z (n_elite_of rate n) - rate * of_count n) <= (1 # 2) + rate * of_count n * 2 ^ (-53) + 2 ^ (-1075))%Q.
Proof. exact n_elite_near. Qed.
Print Assumptions C45_elites_nearest.

(** A larger rate never gives fewer elites; rate 1 keeps all. *)
Theorem C45_elites_monotone : forall r1 r2 n,
  (0 <= r1)%Q -> (r1 <= r2)%Q -> (Z.of_nat n <= 2 ^ 53)%Z -> (n_elite_of r1 n <= n_elite_of r2 n)%Z.
Proof. exact n_elite_mono. Qed.
Print Assumptions C45_elites_monotone.

Theorem C45_all_elites : forall n, (Z.of_nat n <= 2 ^ 53)%Z -> n_elite_of 1 n = Z.of_nat n.
Proof. exact n_elite_all. Qed.
Print Assumptions C45_all_elites.

(** What the constructor accepts, and what it builds. *)
Theorem C45_accepted : forall sum cs pcr ops sels rate size inds h s,
  subpopulation_init sum (Some cs) pcr ops sels rate size inds h = Ok s <->
  cs <> [] /\
  exists p os, (pcr = Some p \/ pcr = None /\ p = map (fun _ => ddiv 1 (of_count (length cs))) cs) /\
    length p = length cs /\ (sum p == 1)%Q /\ ops = Some os /\
    s = mkSub cs (map Fin p) os (match sels with None => [SelTournament 10 true 1] | Some l => l end) size h
              (Z.to_nat (n_elite_of rate size)) inds.
Proof. exact init_accepts. Qed.
Print Assumptions C45_accepted.

(** One creator, or 2, 4, 8, ... creators, can be used with the default probabilities ... *)
Theorem C45_powers_of_two : forall sum cs ops sels rate size inds h k,
  sum = sum_plain \/ sum = sum_compensated -> k <= 53 -> length cs = 2 ^ k ->
  exists s, subpopulation_init sum (Some cs) None (Some ops) sels rate size inds h = Ok s.
Proof. exact init_powers. Qed.
Print Assumptions C45_powers_of_two.

(** ... but six creators cannot before Python 3.12, and 49 cannot from then on. *)
Theorem C45_six_creators : forall cs ops sels rate size inds h, length cs = 6 ->
  subpopulation_init sum_plain (Some cs) None ops sels rate size inds h = Raise ValueError.
Proof. exact init_six. Qed.
Print Assumptions C45_six_creators.

Theorem C45_49_creators : forall cs ops sels rate size inds h, length cs = 49 ->
  subpopulation_init sum_compensated (Some cs) None ops sels rate size inds h = Raise ValueError.
Proof. exact init_49. Qed.
Print Assumptions C45_49_creators.

(** 0.05 * 50 is 2.5, which gives 2; ten times 0.1 is not 1, unless compensated. *)
Example C45_example :
  n_elite_of f_005 50 = 2%Z /\ n_elite_of f_01 200 = 20%Z /\ n_elite_of (3 # 4) 10 = 8%Z /\
  Qeq_bool (sum_plain (repeat f_01 10)) 1 = false /\ Qeq_bool (sum_compensated (repeat f_01 10)) 1 = true /\
  is_ok (subpopulation_init sum_plain (Some (repeat vectors 4)) None (Some []) None f_01 10 None (HB true)) = true /\
  is_ok (subpopulation_init sum_plain (Some [vectors; vectors]) (Some [1 # 4; 3 # 4]%Q) (Some []) None f_01 10 None (HB true)) = true.
Proof. vm_compute. repeat split. Qed.
