(** * Properties of the example programs (C86, C87). *)
From Coq Require Import QArith Permutation Lia.
From Verif.Spec Require Import WorldSpec FitnessSpec VectorSpec EvoSpec StatSpec MoveSpec SetupSpec ExamplesSpec.
From Verif.Proofs Require Import ExamplesP.
From Verif.Model Require Import Double Num Fitness Vector World Creators Evolution Statistics Execute Setup Make Examples.
Open Scope nat_scope.
Open Scope list_scope.

(** ** C86 *)

(** The program completes, [execute] returns the bits of an individual that it evaluated with most ones, and it stops early
    exactly if these are a hundred. *)
Theorem C86_one_max : forall sum stamp sched w, sum = sum_plain \/ sum = sum_compensated -> fair sched -> w_heap w = [] ->
  exists su a' w' b c k ls, one_max_program sum stamp = Ok su /\ su_stats su = 1 /\
    evolve_all one_max sched (fun _ => []) [SBestAverageWorst] ((su_algo su, w), []) = (Ok tt, ((a', w'), ls)) /\
    a_best_run a' = Some b /\ In b (concat (evals (a_trace a'))) /\ cells_at w' b c /\
    pure_at w' b (VNum (Fin (inject_Z (Z.of_nat (ones c))))) /\
    evaluated_vectors (fun c' => bits 100 c' /\ ones c' <= ones c) 300 k (a_trace a') w' /\
    (c = repeat (Fin 1) 100 /\ a_final a' = Some k \/ ones c < 100 /\ a_final a' = None /\ k = 500) /\
    forall val (fsem : func -> list val -> res val) const kw, algorithm_execute val fsem const kw a' w' = Ok (OVector c).
Proof. exact one_max_run. Qed.
Print Assumptions C86_one_max.

(** On floats between 0 and 1 the fitness is the sum. *)
Theorem C86_one_max_float : forall sum stamp sched w, sum = sum_plain \/ sum = sum_compensated -> fair sched -> w_heap w = [] ->
  exists su a' w' b c q k ls, one_max_float_program sum stamp = Ok su /\ su_stats su = 1 /\
    evolve_all one_max sched (fun _ => []) [SBestAverageWorst] ((su_algo su, w), []) = (Ok tt, ((a', w'), ls)) /\
    a_best_run a' = Some b /\ In b (concat (evals (a_trace a'))) /\ cells_at w' b c /\
    sums_to c q /\ pure_at w' b (VNum (Fin q)) /\
    evaluated_vectors (fun c' => unit_cells 100 c' /\ forall r, sums_to c' r -> (r <= q)%Q) 300 k (a_trace a') w' /\
    ((q == 100)%Q /\ a_final a' = Some k \/ ~ (q == 100)%Q /\ a_final a' = None /\ k = 500) /\
    forall val (fsem : func -> list val -> res val) const kw, algorithm_execute val fsem const kw a' w' = Ok (OVector c).
Proof. exact one_max_float_run. Qed.
Print Assumptions C86_one_max_float.

Example C86_example :
  fair (fun n => rev (seq 0 n)) /\
  (forall sum, sum = sum_plain \/ sum = sum_compensated ->
    match one_max_program sum 1700000000, one_max_float_program sum 1700000000 with
    | Ok su, Ok su' => a_max_gen (su_algo su) = 500 /\ map sp_n_elite (a_pop (su_algo su)) = [1] /\ map sp_size (a_pop (su_algo su')) = [300] /\
        map sp_ops (a_pop (su_algo su')) = [[mkOper (OKPoint 1) (Fin (7 # 10)) 2 1; mkOper (OVecMut MUniformN 50) (Fin (3 # 10)) 1 5]]
    | _, _ => False
    end) /\
  one_max (GVec (mkVec KBit (BPair (Fin 0) (Fin 1)) 4 [Fin 1; Fin 0; Fin 1; Fin 1])) = Ok (VNum (Fin 3)).
Proof.
  split; [intros n; apply Permutation_sym, Permutation_rev|]. split; [|vm_compute; reflexivity].
  intros sum [->| ->]; vm_compute; repeat split.
Qed.

(** ** C87 *)

(** The program completes after 500 generations.  If it met a bag that is light enough, the one it returns is light enough and
    none of those it met is worth more. *)
Theorem C87_knapsack : forall sum stamp sched w items limit, sum = sum_plain \/ sum = sum_compensated -> fair sched -> w_heap w = [] ->
  20 <= length items ->
  exists su a' w' b c ls, knapsack_program sum stamp = Ok su /\ su_stats su = 1 /\
    evolve_all (knapsack (as_items items) (Fin limit)) sched (fun _ => []) [SBestAverageWorst] ((su_algo su, w), []) = (Ok tt, ((a', w'), ls)) /\
    a_best_run a' = Some b /\ In b (concat (evals (a_trace a'))) /\ cells_at w' b c /\
    (feasible items limit c /\ (exists q, pure_at w' b (VNum (Fin q)) /\ (q == chosen snd items c)%Q) \/
     ~ feasible items limit c /\ pure_at w' b (VNum NInf)) /\
    evaluated_vectors (fun c' => bits 20 c' /\
        (feasible items limit c' -> feasible items limit c /\ (chosen snd items c' <= chosen snd items c)%Q)) 50 500 (a_trace a') w' /\
    forall val (fsem : func -> list val -> res val) const kw, algorithm_execute val fsem const kw a' w' = Ok (OVector c).
Proof. exact knapsack_run. Qed.
Print Assumptions C87_knapsack.

Example C87_example :
  let items := repeat (2, 3)%Q 2 ++ repeat (5, 1)%Q 18 in
  let bag l := GVec (mkVec KBit (BPair (Fin 0) (Fin 1)) 20 (l ++ repeat (Fin 0) 17)) in
  20 <= length items /\ fair (fun n => seq 0 n) /\
  knapsack (as_items items) (Fin 8) (bag [Fin 1; Fin 0; Fin 1]) = Ok (VNum (Fin 4)) /\
  knapsack (as_items items) (Fin 7) (bag [Fin 1; Fin 0; Fin 1]) = Ok (VNum (Fin 4)) /\
  knapsack (as_items items) (Fin 8) (bag [Fin 1; Fin 1; Fin 1]) = Ok (VNum NInf) /\
  knapsack (as_items [(2, 3)%Q]) (Fin 8) (bag [Fin 0; Fin 1; Fin 0]) = Raise KeyError /\
  feasible items 8 [Fin 1; Fin 0; Fin 1] /\ ~ feasible items 8 [Fin 1; Fin 1; Fin 1].
Proof.
  cbv zeta. split; [cbn; lia|]. split; [intros n; apply Permutation_refl|]. split; [vm_compute; reflexivity|]. split; [vm_compute; reflexivity|].
  split; [vm_compute; reflexivity|]. split; [vm_compute; reflexivity|]. split; [vm_compute; discriminate|]. intros H. apply H. vm_compute. reflexivity.
Qed.

(** The evaluator takes its items in a list of pairs of a weight and a price, says the message of the exception; but it takes no
    such list except the empty one. *)
Theorem C87_items_refuted : exists pairs : list (num * num), pairs <> [] /\ items_of (ItList (map Some pairs)) = Raise ValueError.
Proof. exact list_refused. Qed.
Print Assumptions C87_items_refuted.

Theorem C87_no_list : items_of (ItList []) = Ok [] /\ forall l, l <> [] -> items_of (ItList l) = Raise ValueError.
Proof. exact items_refused. Qed.
Print Assumptions C87_no_list.
