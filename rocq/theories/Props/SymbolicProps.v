(** * Properties of the symbolic regression programs (C91). *)
From Coq Require Import QArith Permutation String.
From Verif.Spec Require Import WorldSpec EvoSpec StatSpec BaseSpec SymbolicSpec.
From Verif.Proofs Require Import SymbolicP.
From Verif.Model Require Import Double Num Fitness Tree World Creators Evolution Statistics Execute Setup Make BaseFns Symbolic.
Open Scope nat_scope.
Open Scope list_scope.

(** Both programs complete, whatever the table.  Each individual that they evaluate computes a float from any three floats, and
    its fitness is its mean absolute deviation from x + 2y + 3z on the table.  [execute] computes as an individual does that has
    the least one; its size does not matter.  The run stops early exactly if this is at most 0.001. *)
Theorem C91_symbolic : forall us ul usin ucos utan typed data sum stamp sched w, finite_functions us ul usin ucos utan -> data <> [] ->
  sum = sum_plain \/ sum = sum_compensated -> fair sched -> w_heap w = [] ->
  exists su a' w' b out m k ls, sr_program typed sum stamp = Ok su /\ su_stats su = 1 /\
    evolve_all (sr_evaluator us ul usin ucos utan data) sched (fun _ => []) [SBestAverageWorst] ((su_algo su, w), []) = (Ok tt, ((a', w'), ls)) /\
    a_best_run a' = Some b /\ In b (concat (evals (a_trace a'))) /\
    calculates (base_sem us ul usin ucos utan) w' b out /\ mean_deviation out data m /\ pure_at w' b (VNum (Fin m)) /\
    length (evals (a_trace a')) = S k /\
    (forall l, In l (evals (a_trace a')) -> length l = 200 /\ forall o, In o l -> exists out' m',
       calculates (base_sem us ul usin ucos utan) w' o out' /\ mean_deviation out' data m' /\ pure_at w' o (VNum (Fin m')) /\ (m <= m')%Q) /\
    ((m <= double (1 # 1000))%Q /\ a_final a' = Some k \/ (double (1 # 1000) < m)%Q /\ a_final a' = None /\ k = 40) /\
    (forall x y z, algorithm_execute el (base_sem us ul usin ucos utan) el_const
       [("x", EFloat (Fin x)); ("y", EFloat (Fin y)); ("z", EFloat (Fin z))]%string a' w' = Ok (OValue (EFloat (Fin (out x y z))))) /\
    forall x y z, number x -> number y -> number z -> exists v, number v /\
      algorithm_execute el (base_sem us ul usin ucos utan) el_const [("x", x); ("y", y); ("z", z)]%string a' w' = Ok (OValue v).
Proof. exact sr_run. Qed.
Print Assumptions C91_symbolic.

(** The tree z + (x + y) deviates by |y + 2z|. *)
Definition as_is (x : num) : num := x.
Definition plain_sum (typed : bool) : tree :=
  let f := mkFunc 1 (if typed then "add2floats" else "f_add")%string (repeat (sr_type typed) 2) (sr_type typed) in
  let v s := TNode (TVar s) (sr_type typed) in
  mkTree (sr_functions typed) (sr_terminals typed) (Some (ErcFloat (Fin (-1)) (Fin 1))) (sr_type typed)
    [FNode f; v "z"%string; FNode f; v "x"%string; v "y"%string].
Definition two_rows : list (Q * Q * Q) := [(1, 1 # 2, -3); (100, 3, 4)]%Q.
Example C91_example :
  fair (fun n => rev (seq 0 n)) /\ finite_functions as_is as_is as_is as_is as_is /\
  (forall typed sum, sum = sum_plain \/ sum = sum_compensated ->
    match sr_program typed sum 1700000000 with
    | Ok su => a_max_gen (su_algo su) = 40 /\ map sp_size (a_pop (su_algo su)) = [200] /\ map sp_n_elite (a_pop (su_algo su)) = [10] /\
        map sp_hib (a_pop (su_algo su)) = [HB false]
    | _ => False
    end) /\
  (forall typed, exists m, sr_evaluator as_is as_is as_is as_is as_is two_rows (GTree (plain_sum typed)) = Ok (VNum (Fin m)) /\ (m == 33 # 4)%Q) /\
  mean_deviation (fun x y z => z + (x + y))%Q two_rows (33 # 4).
Proof.
  split; [intros n; apply Permutation_sym, Permutation_rev|]. split; [constructor; unfold as_is; eauto|].
  split; [intros typed sum [->| ->]; destruct typed; vm_compute; repeat split|].
  split; [intros []; eexists; (split; vm_compute; reflexivity)|]. vm_compute. reflexivity.
Qed.
