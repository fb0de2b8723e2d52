(** * Properties of the multiplexer programs (C90). *)
From Coq Require Import QArith Permutation String.
From Verif.Spec Require Import WorldSpec EvoSpec StatSpec MultiplexerSpec.
From Verif.Proofs Require Import MultiplexerP.
From Verif.Model Require Import Double Num Fitness Tree World Creators Evolution Statistics Execute Setup Make BaseFns Multiplexer.
Open Scope nat_scope.
Open Scope list_scope.

(** Both programs complete.  Each individual that they evaluate answers every row of the table by a truth value, and its
    fitness is the share of correct answers.  [execute] answers as an individual does that has the greatest fitness after
    the charge for its size, and the run stops early exactly if this individual answers at least 2028 rows correctly. *)
Theorem C90_multiplexer : forall us ul usin ucos utan typed sum stamp sched w, sum = sum_plain \/ sum = sum_compensated -> fair sched -> w_heap w = [] ->
  exists su a' w' b out n size k ls, mux_program typed sum stamp = Ok su /\ su_stats su = 1 /\
    evolve_all (mux_evaluator us ul usin ucos utan typed) sched (fun _ => []) [SBestAverageWorst] ((su_algo su, w), []) = (Ok tt, ((a', w'), ls)) /\
    a_best_run a' = Some b /\ In b (concat (evals (a_trace a'))) /\
    computes (base_sem us ul usin ucos utan) typed w' b out size /\ right_answers out n /\ pure_at w' b (VNum (Fin (share n))) /\
    length (evals (a_trace a')) = S k /\
    (forall l, In l (evals (a_trace a')) -> length l = 40 /\ forall o, In o l -> exists out' n' size',
       computes (base_sem us ul usin ucos utan) typed w' o out' size' /\ right_answers out' n' /\ pure_at w' o (VNum (Fin (share n'))) /\
       (share n' - double (1 # 100000) * inject_Z (Z.of_nat size') <= share n - double (1 # 100000) * inject_Z (Z.of_nat size))%Q) /\
    (2028 <= n /\ a_final a' = Some k \/ n < 2028 /\ a_final a' = None /\ k = 40) /\
    forall i, length i = 11 -> algorithm_execute el (base_sem us ul usin ucos utan) el_const (mux_arguments typed i) a' w' = Ok (OValue (mux_answer typed (out i))).
Proof. exact mux_run. Qed.
Print Assumptions C90_multiplexer.

(** The tree (if s0 then d4 else d0) is correct on 1280 of the 2048 rows. *)
Definition same (x : num) : num := x.
Definition two_lines (typed : bool) : tree :=
  let f := mkFunc 4 (if typed then "if_then_else3bools" else "f_if_then_else") (repeat (mux_type typed) 3) (mux_type typed) in
  mkTree (mux_functions typed) (map (fun s => (TVar s, mux_type typed)) mux_names) (mux_erc typed) (mux_type typed)
    (FNode f :: map (fun s => TNode (TVar s) (mux_type typed)) ["s0"; "d4"; "d0"]%string).
Example C90_example :
  fair (fun n => rev (seq 0 n)) /\
  (forall typed sum, sum = sum_plain \/ sum = sum_compensated ->
    match mux_program typed sum 1700000000 with
    | Ok su => a_max_gen (su_algo su) = 40 /\ map sp_size (a_pop (su_algo su)) = [40] /\ map sp_n_elite (a_pop (su_algo su)) = [0]
    | _ => False
    end) /\
  map mux [[true; false; true; false; false; false; false; false; true; false; false];
           [false; true; true; true; true; true; false; true; true; true; true]] = [true; false] /\
  (forall typed, exists q, mux_evaluator same same same same same typed (GTree (two_lines typed)) = Ok (VNum (Fin q)) /\ (q == share 1280)%Q) /\
  length (filter (fun i => Bool.eqb (if nth 0 i false then nth 7 i false else nth 3 i false) (mux i)) (product 11)) = 1280.
Proof.
  split; [intros n; apply Permutation_sym, Permutation_rev|]. split; [intros typed sum [->| ->]; destruct typed; vm_compute; repeat split|].
  split; [reflexivity|]. split; [intros []; eexists; (split; vm_compute; reflexivity)|]. vm_compute. reflexivity.
Qed.
