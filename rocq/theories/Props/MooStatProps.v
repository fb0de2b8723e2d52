(** * C53 in runs: the multi-objective statistics. *)
From Coq Require Import QArith Permutation.
From Verif.Props Require Import MooCompleteProps.
From Verif.Model Require Import Num Fitness Vector World Show Operators Selection Creators Evolution Nsga2 Statistics MooStat.
From Verif.Spec Require Import WorldSpec FitnessSpec EvoSpec Nsga2Spec CompleteSpec ShowSpec MooStatSpec.
From Verif.Proofs Require Import MooStatP.
Open Scope string_scope.
Open Scope nat_scope.
Open Scope list_scope.

(** In a run with two objectives and checkers of the crowding only, the statistics of the fronts never fail: one block is written in
    each generation, of corners that really are objectives of genomes, and the run is the one without statistics. *)
Theorem C53_run : forall (G : genome -> Prop) ev h0 h1 sched so s n a w,
  gives_objectives ev 2 -> total_on G ev -> fair sched -> any_order so ->
  a_trace a = [] -> a_stats a = 0 -> moo_configured [h0; h1] a w s -> closed_under G w s -> (forall g, G g -> printable g) ->
  (forall l o, sp_inds s = Some l -> In o l -> crowding_of w o (Fin 0)) ->
  Forall (fun c => exists t m, c = CkUser (crowding_checker t) m) (a_checkers a) ->
  exists a' w' blocks,
    nsga2_evolve_all ev sched so true fronts_shown (repeat SMinimal n) ((a, w), []) = (Ok tt, ((a', w'), concat blocks)) /\
    nsga2_evolve ev sched so true n (a, w) = (Ok tt, (a', w')) /\
    length (evals (a_trace a')) = S (length blocks) /\
    forall g ls, nth_error blocks g = Some ls -> fronts_block G ev (sp_size s) n (S g) ls.
Proof. exact fronts_run. Qed.
Print Assumptions C53_run.

Definition crowded_algo : algo := mkAlgo [moo_sub] 2 [CkUser (crowding_checker (Fin (1 # 8))) 0] 7 7 ByMap true None None None 0 None 0 [].
Example C53_run_hypotheses l :
  a_trace crowded_algo = [] /\ a_stats crowded_algo = 0 /\ moo_configured [false; true] crowded_algo (no_individuals l) moo_sub /\
  (forall m o, sp_inds moo_sub = Some m -> In o m -> crowding_of (no_individuals l) o (Fin 0)) /\
  Forall (fun c => exists t m, c = CkUser (crowding_checker t) m) (a_checkers crowded_algo).
Proof.
  split; [reflexivity|]. split; [reflexivity|]. split; [|split; [intros m o H; discriminate|repeat constructor; eauto]].
  destruct (C71_hypotheses l) as (_ & _ & _ & _ & C & _). destruct C as [c1 c2 c3 c4 c5 c6 c7 c8 c9]. constructor; auto.
  constructor; [|constructor]. exists (crowding_checker (Fin (1 # 8))), 0. split; [reflexivity|]. apply C71_crowding_checker.
Qed.

Definition crowded_run := nsga2_evolve_all trade downwards any_set true fronts_shown [SMinimal]
  ((crowded_algo, no_individuals [mkDraw 0 (1 # 2); mkDraw 1 (1 # 4); mkDraw 3 (3 # 4)]), []).
Example C53_run_example : fst crowded_run = Ok tt /\ length (snd (snd crowded_run)) = 12.
Proof. split; vm_compute; reflexivity. Qed.

(** One call that succeeds changes nothing and writes one block for each subpopulation, in order and numbered: the last rank, the size of the
    first front, the corners of the first front, then those of the last one. *)
Theorem C53_numbered : forall d a w ls st' ls', moe_best_worst d ((a, w), ls) = (Ok tt, (st', ls')) ->
  st' = (a, w) /\ exists bs, ls' = ls ++ LGeneration (a_gen_num a) :: concat bs /\ length bs = length (a_pop a) /\
    forall i s b, nth_error (a_pop a) i = Some s -> nth_error bs i = Some b -> fronts_lines w i (inds_of s) b.
Proof. exact fronts_call. Qed.
Print Assumptions C53_numbered.

(** With a scalar fitness the call fails after its first line. *)
Theorem C53_scalar : forall d a w ls s rest o l i, a_pop a = s :: rest -> inds_of s = o :: l -> at_ w o = Some i -> ft_class (i_fit i) <> KNSGA2 ->
  moe_best_worst d ((a, w), ls) = (Raise AttributeError, ((a, w), ls ++ [LGeneration (a_gen_num a)])).
Proof. exact fronts_scalar. Qed.
Print Assumptions C53_scalar.

(** Two subpopulations; then one of scalar individuals. *)
Definition ranked (r : num) (l : list Z) : ind := mkInd 1 0 (mkFit KNSGA2 (VList (map nof_Z l)) true (HL [true; true]) true false PInf r) (-1)%Z [] [] false [] (GVec (mkVec KInt (BPair (Fin 0) (Fin 9)) 0 [])).
Definition ranked_world : world := mkWorld [ranked (Fin 1) [3; 1]%Z; ranked (Fin 1) [1; 3]%Z; ranked (Fin 2) [0; 0]%Z; plain_ind 4 (GVec (mkVec KInt (BPair (Fin 0) (Fin 9)) 0 []))] 5 (tape []).
Definition of_inds (l : list oid) : subpop := mkSub [] [] [] [] (length l) (HL [true; true]) 0 (Some l).
Definition ranked_algo (ls : list (list oid)) : algo := mkAlgo (map of_inds ls) 2 [] 7 7 ByMap true None None None 3 None 0 [].
Example C53_call_example d :
  moe_best_worst d ((ranked_algo [[0; 1; 2]; [1]], ranked_world), []) = (Ok tt, ((ranked_algo [[0; 1; 2]; [1]], ranked_world),
    [LGeneration 3; LSubpop 0; LValues [VNum (Fin 2); VNum (nof_nat 2)]; LValues [VList [nof_Z 3; nof_Z 1]; VList [nof_Z 1; nof_Z 3]]; LValues [VList [nof_Z 0; nof_Z 0]];
     LSubpop 1; LValues [VNum (Fin 1); VNum (nof_nat 1)]; LValues [VList [nof_Z 1; nof_Z 3]]; LValues [VList [nof_Z 1; nof_Z 3]]])) /\
  moe_best_worst d ((ranked_algo [[3]], ranked_world), []) = (Raise AttributeError, ((ranked_algo [[3]], ranked_world), [LGeneration 3])).
Proof. split; vm_compute; reflexivity. Qed.
