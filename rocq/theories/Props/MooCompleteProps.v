(** * Properties of configured multi-objective runs (C60, C71). *)
From Coq Require Import Permutation QArith Lia.
From Verif.Spec Require Import WorldSpec FitnessSpec VectorSpec EvoSpec Nsga2Spec CompleteSpec ShowSpec.
From Verif.Proofs Require Import MooCompleteP CrowdAnswerP SetupP.
From Verif.Model Require Import Num Fitness Tree World Operators Selection Creators Evolution Nsga2 Setup.
Open Scope nat_scope.
Open Scope list_scope.

(** ** C71 *)

(** A run with the doubling breeder ends normally, whatever is drawn.  At the end there are as many individuals as at the
    start, all different, each with the objectives of its genome; the first evaluation is of one population, each later
    one of two. *)
Theorem C71_run_completes : forall G ev h sched so s n a w,
  gives_objectives ev (length h) -> total_on G ev -> fair sched -> any_order so ->
  a_trace a = [] -> moo_configured h a w s -> closed_under G w s -> (forall g, G g -> printable g) ->
  exists a' w' l, nsga2_evolve ev sched so true n (a, w) = (Ok tt, (a', w')) /\
    a_pop a' = [with_inds s l] /\ length l = sp_size s /\ NoDup l /\ genomes_in G l w' /\ (forall o, In o l -> has_value ev w' o) /\
    evaluations (sp_size s) (2 * sp_size s) (evals (a_trace a')).
Proof. exact moo_completes. Qed.
Print Assumptions C71_run_completes.

(** Vectors of one kind, length and bounds, with the operators for them. *)
Theorem C71_vectors : forall k b len ev h sched so s n a w,
  gives_objectives ev (length h) -> total_on (vectors k b len) ev -> fair sched -> any_order so ->
  a_trace a = [] -> moo_configured h a w s -> Forall (vector_operator k b len) (sp_ops s) ->
  match sp_inds s with Some l => genomes_in (vectors k b len) l w | None => Forall (vector_creator k b len) (sp_creators s) end ->
  exists a' w' l, nsga2_evolve ev sched so true n (a, w) = (Ok tt, (a', w')) /\
    a_pop a' = [with_inds s l] /\ length l = sp_size s /\ NoDup l /\ genomes_in (vectors k b len) l w' /\ (forall o, In o l -> has_value ev w' o) /\
    evaluations (sp_size s) (2 * sp_size s) (evals (a_trace a')).
Proof. exact moo_vectors. Qed.
Print Assumptions C71_vectors.

(** The crowding checker is one of the checkers such a run may use. *)
Theorem C71_crowding_checker : forall t, moo_answers (crowding_checker t).
Proof. exact crowding_answers. Qed.
Print Assumptions C71_crowding_checker.

(** A second run of the same algorithm object raises AttributeError: its individuals are evaluated already. *)
Theorem C71_only_once : forall G ev h sched so s n a w ev' sched' so' n',
  gives_objectives ev (length h) -> total_on G ev -> fair sched -> any_order so ->
  a_trace a = [] -> moo_configured h a w s -> closed_under G w s -> total_on G ev' -> fair sched' ->
  forall r a' w', nsga2_evolve ev sched so true n (a, w) = (r, (a', w')) ->
  exists a2 w2, nsga2_evolve ev' sched' so' true n' (a', w') = (Raise AttributeError, (a2, w2)) /\ w_heap w2 = w_heap w' /\ a_pop a2 = a_pop a'.
Proof. exact moo_only_once. Qed.
Print Assumptions C71_only_once.

(** Bit vectors of three cells; minimise the first cell, maximise the sum of the others. *)
Definition bit_bounds : bounds := BPair (Fin 0) (Fin 1).
Definition trade (g : genome) : res fval :=
  match g with
  | GVec v => match v_cells v with [Fin x; Fin y; Fin z] => Ok (VList [Fin x; Fin (y + z)]) | _ => Ok (VList [Fin 0; Fin 0]) end
  | GTree _ => Raise TypeError
  end.
Definition downwards (n : nat) : list nat := rev (seq 0 n).
Definition any_set (_ : nat) (l : list nat) : list nat := rev l.
Definition moo_sub : subpop :=
  mkSub [CVector 3 bit_bounds KBit KNSGA2 false] [Fin 1] [mkOper (OKPoint 1) (Fin (1 # 2)) 2 5; mkOper (OVecMut MBitFlip 1) (Fin 1) 1 5]
    [SelTournament 3 false 1] 4 (HL [false; true]) 0 None.
(** A checker that looks at the fitness of the best individual, and counts its calls. *)
Definition reads_best : user_checker := fun calls _ hp best _ =>
  match nth_error hp best with
  | Some i => match get_pure_fitness (i_fit i) with Ok v => Ok (calls =? 9, S calls) | Raise e => Raise e end
  | None => Raise AttributeError
  end.
Definition moo_algo : algo := mkAlgo [moo_sub] 2 [CkUser reads_best 0] 7 7 ByMap true None None None 0 None 0 [].
Definition no_individuals (l : list draw) : world := mkWorld [] 1 (tape l).

Example C71_hypotheses l :
  gives_objectives trade 2 /\ total_on (vectors KBit bit_bounds 3) trade /\ fair downwards /\ any_order any_set /\
  moo_configured [false; true] moo_algo (no_individuals l) moo_sub /\
  Forall (vector_operator KBit bit_bounds 3) (sp_ops moo_sub) /\ Forall (vector_creator KBit bit_bounds 3) (sp_creators moo_sub).
Proof.
  split; [|split; [|split; [|split; [|split; [|split]]]]].
  - intros [v|t] x H; [|discriminate]. cbn in H. destruct (v_cells v) as [|[x0| | |] [|[x1| | |] [|[x2| | |] [|]]]]; injection H as <-; first [exists [x0; (x1 + x2)%Q]; split; reflexivity | exists [0%Q; 0%Q]; split; reflexivity].
  - intros g (v & -> & _). cbn. destruct (v_cells v) as [|[x0| | |] [|[x1| | |] [|[x2| | |] [|]]]]; eexists; reflexivity.
  - intros n. apply Permutation_sym, Permutation_rev.
  - intros r m. apply Permutation_sym, Permutation_rev.
  - constructor; try reflexivity; try (cbn; auto with arith; fail).
    + cbn. intros op [<-|[<-|[]]]; (split; [discriminate|]); [exists 2|exists 4]; reflexivity.
    + exists 3, false, 1, []. split; [reflexivity|]. split; [discriminate|]. cbn. auto with arith.
    + cbn. split; [reflexivity|]. split; [exists 1%Q; split; reflexivity|]. split; [left; reflexivity|]. intros c [<-|[]]. eauto.
    + repeat constructor. eexists _, _. split; [reflexivity|]. intros m p hp best g _ (i & v & A & P) _. unfold reads_best.
      rewrite A, P. eauto.
  - constructor; [cbn; auto with arith|]. constructor; [|constructor]. cbn. left. split; [auto with arith|]. split; [split; [reflexivity|]; unfold bit_bounds; eauto|auto with arith].
  - constructor; [|constructor]. cbn. split; [reflexivity|]. split; [reflexivity|]. split; [reflexivity|]. split; [|exact I].
    split; [exists 0%Q, 1%Q; split; [reflexivity|discriminate]|]. split; [intros _; split; [exists 0%Z|exists 1%Z]; reflexivity|]. intros _. unfold bit_bounds. eauto.
Qed.

Definition moo_run := nsga2_evolve trade downwards any_set true 1 (moo_algo, no_individuals [mkDraw 0 (1 # 2); mkDraw 1 (1 # 4); mkDraw 3 (3 # 4)]).
Example C71_example : fst moo_run = Ok tt /\ map (@length oid) (evals (a_trace (fst (snd moo_run)))) = [4; 8; 8] /\
  fst (nsga2_evolve trade downwards any_set true 1 (snd moo_run)) = Raise AttributeError.
Proof. repeat split; vm_compute; reflexivity. Qed.

Example C71_crowding_example :
  fst (nsga2_evolve trade downwards any_set true 1
         (mkAlgo [moo_sub] 2 [CkUser (crowding_checker (Fin 1)) 0] 7 7 ByMap true None None None 0 None 0 [], no_individuals [])) = Ok tt.
Proof. vm_compute. reflexivity. Qed.

(** ** C60 *)

(** With the default checker of NSGA2Evolution, the run of a validly configured algorithm always fails. *)
Theorem C60_default_run : forall G ev h sched so doubling s n a w opt th cs,
  gives_objectives ev (length h) -> total_on G ev -> fair sched ->
  moo_configured h (set_checkers [] a) w s -> closed_under G w s -> a_checkers a = CkThreshold opt th :: cs ->
  fst (nsga2_evolve ev sched so doubling n (a, w)) = Raise TypeError.
Proof. exact default_checker_fails. Qed.
Print Assumptions C60_default_run.

Definition default_checked : algo :=
  mkAlgo [moo_sub] 2 (ea_checkers (nsga2_default_args (PoOne moo_sub))) 7 7 ByMap true None None None 0 None 0 [].
Example C60_default_run_example l :
  moo_configured [false; true] (set_checkers [] default_checked) (no_individuals l) moo_sub /\
  a_checkers default_checked = [CkThreshold (Fin 0) (Fin 0)].
Proof.
  split; [|reflexivity]. destruct (C71_hypotheses l) as (_ & _ & _ & _ & C & _). destruct C as [c1 c2 c3 c4 c5 c6 c7 c8 c9].
  constructor; auto. constructor.
Qed.
