(** Properties of evaluation, of the evolutionary loop and of termination: C31-C34, C38-C40, C42, C46. *)
From Coq Require Import Permutation Sorted QArith Qabs.
From Verif.Model Require Import Evolution.
From Verif.Spec Require Import WorldSpec FitnessSpec SelSpec EvoSpec.
From Verif.Proofs Require Import EvoFinalP TargetP.
From Verif.Model Require Import Evolution.
Open Scope nat_scope.

(** A small run for the examples: two bit strings, tournament selection, one bit flip; the tasks complete in reverse order. *)
Definition bits3 (l : list num) : genome := GVec (mkVec KBit (BPair (Fin 0) (Fin 1)) 3 l).
Definition count_ones (g : genome) : res fval :=
  match g with
  | GVec v => match nsum (v_cells v) with Fin x => Ok (VNum (Fin x)) | _ => Raise ValueError end
  | GTree _ => Raise TypeError
  end.
Definition backwards (n : nat) : list nat := rev (seq 0 n).
Definition flip1 : oper := mkOper (OVecMut MBitFlip 1) (Fin 1) 1 5.
Definition draws : list draw := [mkDraw 0 0; mkDraw 1 1; mkDraw 1 (1 # 2); mkDraw 2 0; mkDraw 0 0; mkDraw 2 0; mkDraw 1 0].
Definition start : world :=
  mkWorld [plain_ind 1 (bits3 [Fin 1; Fin 1; Fin 0]); plain_ind 2 (bits3 [Fin 0; Fin 0; Fin 1])] 3 (tape draws).
Definition duo : subpop := mkSub [] [] [flip1] [SelTournament 2 true 1] 2 (HB true) 0 (Some [0; 1]).
Definition config (cs : list checker) (m : nat) : algo :=
  mkAlgo [duo] m cs 7 7 ByMap true None None None 0 None 0 [].
Definition run (cs : list checker) (m : nat) := evolve count_ones backwards 1 (config cs m, start).
Definition after (cs : list checker) (m : nat) : algo := fst (snd (run cs m)).
Definition after_world (cs : list checker) (m : nat) : world := snd (snd (run cs m)).
Definition three_found : checker := CkThreshold (Fin 3) (Fin 0).
Definition value_at (w : world) (o : oid) : option fval := option_map (fun i => ft_value (i_fit i)) (at_ w o).

Example runs : fst (run [] 2) = Ok tt /\ fst (run [three_found] 4) = Ok tt.
Proof. split; vm_compute; reflexivity. Qed.

Example counts : gives_numbers count_ones.
Proof.
  intros g v H. destruct g as [u|]; [|discriminate]. simpl in H. destruct (nsum (v_cells u)) as [x| | |]; try discriminate.
  injection H as <-. exists (Fin x). auto.
Qed.

Example any_order : fair backwards.
Proof. intros n. apply Permutation_sym, Permutation_rev. Qed.

Example scalar_start : scalar_population start true (a_pop (config [] 2)).
Proof.
  exists duo. split; [reflexivity|]. intros o [<-|[<-|[]]]; eexists; (split; [reflexivity|]); repeat split.
Qed.

(** ** C31 *)

(** best_of_run_ was evaluated, carries the value of its genome, and nothing that was evaluated is better. *)
Theorem C31_best_of_run : forall ev sched n a w a' w' h,
  gives_numbers ev -> fair sched -> a_trace a = [] -> a_method a = ByMap ->
  scalar_population w h (a_pop a) -> evolve ev sched n (a, w) = (Ok tt, (a', w')) ->
  exists b, a_best_run a' = Some b /\ In b (concat (evals (a_trace a'))) /\
    forall o, In o (concat (evals (a_trace a'))) -> has_value ev w' o /\
      exists x y, scored w' o x /\ scored w' b y /\ ~ better_score h x y.
Proof. exact best_of_run. Qed.
Print Assumptions C31_best_of_run.

(** At each event best_of_run_ is not worse than at all earlier events. *)
Theorem C31_never_worse : forall ev sched n a w a' w' h,
  gives_numbers ev -> fair sched -> a_trace a = [] -> a_method a = ByMap ->
  scalar_population w h (a_pop a) -> evolve ev sched n (a, w) = (Ok tt, (a', w')) ->
  (forall name g b i, In (TPublish name g b i) (a_trace a') -> exists o j, b = Some o /\ i = Some j) /\
  StronglySorted (no_worse h) (map snd (recorded (a_trace a'))).
Proof. exact best_never_worse. Qed.
Print Assumptions C31_never_worse.

(** The best individual (object 2) appears in the first generation; the second one has nothing better. *)
Example C31_example :
  a_best_run (after [] 2) = Some 2 /\ evals (a_trace (after [] 2)) = [[0; 1]; [2; 3]; [6; 7]] /\
  map (value_at (after_world [] 2)) [0; 1; 2; 3; 6; 7] =
    [Some (VNum (Fin 2)); Some (VNum (Fin 1)); Some (VNum (Fin 3)); Some (VNum (Fin 1)); Some (VNum (Fin 2)); Some (VNum (Fin 2))] /\
  map (fun p => (fst p, ft_value (i_fit (snd p)))) (recorded (a_trace (after [] 2))) =
    [(0, VNum (Fin 2)); (2, VNum (Fin 3)); (2, VNum (Fin 3)); (2, VNum (Fin 3))].
Proof. repeat split; vm_compute; reflexivity. Qed.

(** Without [gives_numbers] it need not be: nothing is better than NaN.  The first of an evaluated population stays its best
    if its fitness is NaN; so best_of_run_ may be NaN although a number was evaluated, and a better number may be missed. *)
Definition not_two (g : genome) : res fval :=
  rbind (count_ones g) (fun v => match v with VNum (Fin x) => if Qeq_bool x 2 then Ok (VNum NaN) else Ok (VNum (Fin x)) | _ => Ok v end).
Theorem C31_nan_refuted : exists ev sched n a w a' w' b o, fair sched /\ a_trace a = [] /\ a_method a = ByMap /\
  scalar_population w true (a_pop a) /\ evolve ev sched n (a, w) = (Ok tt, (a', w')) /\
  a_best_run a' = Some b /\ In b (concat (evals (a_trace a'))) /\ In o (concat (evals (a_trace a'))) /\
  value_at w' b = Some (VNum NaN) /\ value_at w' o = Some (VNum (Fin 1)).
Proof.
  exists not_two, backwards, 1, (config [] 0), start. eexists _, _, 0, 1. split; [exact any_order|]. split; [reflexivity|]. split; [reflexivity|].
  split; [exact scalar_start|]. split; [vm_compute; reflexivity|]. split; [reflexivity|]. repeat split; vm_compute; auto.
Qed.
Print Assumptions C31_nan_refuted.

Definition patterns (g : genome) : res fval :=
  match g with
  | GVec v => match v_cells v with
              | [Fin x; Fin y; Fin z] =>
                  if Qeq_bool (x + y + z) 3 then Ok (VNum NaN) else if Qeq_bool (x + y) 2 then Ok (VNum (Fin 2))
                  else if Qeq_bool z 1 then Ok (VNum (Fin 1)) else Ok (VNum (Fin 10))
              | _ => Raise ValueError
              end
  | GTree _ => Raise TypeError
  end.
Theorem C31_missed_refuted : exists ev sched n a w a' w' b o, fair sched /\ a_trace a = [] /\ a_method a = ByMap /\
  scalar_population w true (a_pop a) /\ evolve ev sched n (a, w) = (Ok tt, (a', w')) /\
  a_best_run a' = Some b /\ In b (concat (evals (a_trace a'))) /\ In o (concat (evals (a_trace a'))) /\
  value_at w' b = Some (VNum (Fin 2)) /\ value_at w' o = Some (VNum (Fin 10)).
Proof.
  exists patterns, backwards, 1, (config [] 1), start. eexists _, _, 0, 3. split; [exact any_order|]. split; [reflexivity|]. split; [reflexivity|].
  split; [exact scalar_start|]. split; [vm_compute; reflexivity|]. split; [reflexivity|]. repeat split; vm_compute; auto.
Qed.
Print Assumptions C31_missed_refuted.

(** ** C32 *)

(** Whatever was best_of_run_ at some event is at the end as it was then, up to its [gen] attribute. *)
Theorem C32_best_kept : forall ev sched n a w a' w' h,
  gives_numbers ev -> fair sched -> a_trace a = [] -> a_method a = ByMap ->
  scalar_population w h (a_pop a) -> evolve ev sched n (a, w) = (Ok tt, (a', w')) ->
  forall o i, In (o, i) (recorded (a_trace a')) -> exists g, at_ w' o = Some (set_gen g i).
Proof. exact recorded_unchanged. Qed.
Print Assumptions C32_best_kept.

(** The [gen] attribute is not kept: the best individual of generation 1 becomes one of generation 2. *)
Theorem C32_generation_kept_refuted : exists ev sched n a w a' w' o i j,
  gives_numbers ev /\ fair sched /\ a_trace a = [] /\ a_method a = ByMap /\ scalar_population w true (a_pop a) /\
  evolve ev sched n (a, w) = (Ok tt, (a', w')) /\ In (o, i) (recorded (a_trace a')) /\
  at_ w' o = Some j /\ i_gen i = 1 /\ i_gen j = 2.
Proof.
  exists count_ones, backwards, 1, (config [] 2), start.
  eexists _, _, 2, _, _. split; [exact counts|]. split; [exact any_order|].
  split; [reflexivity|]. split; [reflexivity|]. split; [exact scalar_start|]. split; [vm_compute; reflexivity|].
  split; [right; left; reflexivity|]. split; [reflexivity|]. split; reflexivity.
Qed.
Print Assumptions C32_generation_kept_refuted.

Example C32_example : map fst (recorded (a_trace (after [] 2))) = [0; 2; 2; 2] /\
  option_map i_genome (at_ (after_world [] 2) 2) = Some (bits3 [Fin 1; Fin 1; Fin 1]).
Proof. split; vm_compute; reflexivity. Qed.

(** ** C33 *)

Theorem C33_run_structure : forall ev sched n a w a' w', a_trace a = [] -> evolve ev sched n (a, w) = (Ok tt, (a', w')) ->
  well_run a (a_trace a') (a_final a').
Proof. exact evolve_well_run. Qed.
Print Assumptions C33_run_structure.

(** No individual is evaluated twice, and the final population is what was evaluated last. *)
Theorem C33_evaluated_once : forall ev sched n a w a' w', a_trace a = [] ->
  (forall s l, In s (a_pop a) -> sp_inds s = Some l -> NoDup l) -> evolve ev sched n (a, w) = (Ok tt, (a', w')) ->
  NoDup (concat (evals (a_trace a'))) /\ exists s pre, a_pop a' = [s] /\ evals (a_trace a') = pre ++ [inds_of s].
Proof. exact evolve_once. Qed.
Print Assumptions C33_evaluated_once.

(** Stopped by a checker after one of at most four generations. *)
Example C33_example :
  map kind_of (a_trace (after [three_found] 4)) =
    [Seed; Eval; Publish "init"; Check; Seed; Breed; Eval; Check; Publish "after_generation"; Publish "evolution_finished"] /\
  checks (a_trace (after [three_found] 4)) = [[false]; [true]] /\ a_final (after [three_found] 4) = Some 1 /\
  published "after_generation" (a_trace (after [] 2)) = [1; 2] /\ a_final (after [] 2) = None.
Proof. repeat split; vm_compute; reflexivity. Qed.

(** ** C34 *)

(** The seeds of a run are part of [well_run].  The state of the generators before the run does not matter. *)
Theorem C34_prior_state : forall ev sched n a hp id g1 g2, r_py g1 = r_py g2 -> r_np g1 = r_np g2 ->
  evolve ev sched n (a, mkWorld hp id g1) = evolve ev sched n (a, mkWorld hp id g2).
Proof. exact evolve_prior_state. Qed.
Print Assumptions C34_prior_state.

(** Neither does it matter before any single generation, so that a run may be continued from a population and a seed. *)
Theorem C34_prior_state_generation : forall it todo gen a hp id g1 g2, r_py g1 = r_py g2 -> r_np g1 = r_np g2 ->
  present (flat_map inds_of (a_pop a)) (mkWorld hp id g1) ->
  main_loop it (S todo) gen (a, mkWorld hp id g1) = main_loop it (S todo) gen (a, mkWorld hp id g2).
Proof. exact loop_prior_state. Qed.
Print Assumptions C34_prior_state_generation.

Theorem C34_seeds : forall ev sched n a w a' w', a_trace a = [] -> evolve ev sched n (a, w) = (Ok tt, (a', w')) ->
  exists k, seeds (a_trace a') = a_random_seed a :: map (fun g => ((a_gen_seed a + Z.of_nat g) mod 2 ^ 32)%Z) (seq 1 k).
Proof. exact run_seeds. Qed.
Print Assumptions C34_seeds.

(** Consecutive seeds, also past the largest one; and a different state before the run. *)
Definition wrapping : algo := mkAlgo [duo] 2 [] 7 4294967295 ByMap true None None None 0 None 0 [].
Definition started_elsewhere : world := mkWorld (w_heap start) (w_next_id start) (mkRng (r_py (tape draws)) (r_np (tape draws)) 99 5 12 3).
Example C34_example :
  seeds (a_trace (after [] 2)) = [7; 8; 9]%Z /\
  seeds (a_trace (fst (snd (evolve count_ones backwards 1 (wrapping, start))))) = [7; 0; 1]%Z /\
  w_rng started_elsewhere <> w_rng start /\
  a_trace (fst (snd (evolve count_ones backwards 1 (config [] 2, started_elsewhere)))) = a_trace (after [] 2).
Proof. split; [vm_compute; reflexivity|]. split; [vm_compute; reflexivity|]. split; [discriminate|]. vm_compute; reflexivity. Qed.

(** ** C38 *)

Theorem C38_stagnation : forall (v : nat -> Q) limit calls,
  (forall k call, nth_error calls k = Some call -> best_value call (v k)) ->
  exists answers, asked (CkStagnation limit None 0) calls answers /\ length answers = length calls /\
    forall k b, nth_error answers k = Some b -> (b = true <-> stagnant v limit k).
Proof. exact stagnation_answers. Qed.
Print Assumptions C38_stagnation.

(** Best values 1, 2, 2, 2, 3 with a limit of 2: only the fourth call answers True. *)
Definition scored_at (x : Q) : list subpop * world :=
  ([mkSub [] [] [] [] 1 (HB true) 0 (Some [0])],
   mkWorld [set_fit (mkFit KSimple (VNum (Fin x)) true (HB true) false false (Fin 0) PInf) (plain_ind 1 (bits3 []))] 2 (tape [])).
Definition values (k : nat) : Q := nth k [1; 2; 2; 2; 3]%Q 0%Q.
Example C38_example :
  (forall k call, nth_error (map scored_at [1; 2; 2; 2; 3]%Q) k = Some call -> best_value call (values k)) /\
  asked (CkStagnation 2 None 0) (map scored_at [1; 2; 2; 2; 3]%Q) [false; false; false; true; false].
Proof.
  split.
  - assert (G : forall x, best_value (scored_at x) x).
    { intros x. exists (mkSub [] [] [] [] 1 (HB true) 0 (Some [0])), true, (fun _ => Fin x), 0.
      eexists. split; [reflexivity|]. split; [reflexivity|]. split; [intros p [<-|[]]; eexists; split; [reflexivity|]; repeat split|].
      split; [exists [], []; split; [reflexivity|]; split; intros p []|]. split; reflexivity. }
    intros [|[|[|[|[|k]]]]] call H; simpl in H; try discriminate; try (injection H as <-; apply G). destruct k; discriminate.
  - repeat (eapply asked_cons; [intros; vm_compute; reflexivity|]). constructor.
Qed.

(** ** C39 *)

(** The pure fitness decides: the bloat weight plays no role. *)
Theorem C39_threshold : forall pop best gen opt th w i x, at_ w best = Some i -> get_pure_fitness (i_fit i) = Ok (VNum (Fin x)) ->
  exists b, run_checker pop best gen (CkThreshold (Fin opt) (Fin th)) w = (Ok (b, CkThreshold (Fin opt) (Fin th)), w) /\
    (b = true <-> (Qabs (x - opt) <= th)%Q).
Proof. exact threshold_exact. Qed.
Print Assumptions C39_threshold.

Theorem C39_any_checker : forall a w st a' w', should_terminate (a, w) = (Ok st, (a', w')) ->
  exists best, a_best_run a = Some best /\
    (st = true <-> exists c c', In c (a_checkers a) /\ run_checker (a_pop a) best (a_gen_num a) c w = (Ok (true, c'), w)).
Proof. exact terminate_iff. Qed.
Print Assumptions C39_any_checker.

Theorem C39_no_checker : forall ev sched n a w a' w', a_trace a = [] -> a_checkers a = [] ->
  evolve ev sched n (a, w) = (Ok tt, (a', w')) ->
  published "after_generation" (a_trace a') = seq 1 (a_max_gen a) /\ a_final a' = a_final a.
Proof. exact no_checker_full. Qed.
Print Assumptions C39_no_checker.

(** A run with a threshold stops early, and [final_generation_] says so, exactly if the best individual it ends with is near
    enough to the optimum. *)
Theorem C39_target : forall ev sched n a w a' w' opt th, a_checkers a = [CkThreshold (Fin opt) (Fin th)] -> a_final a = None ->
  evolve ev sched n (a, w) = (Ok tt, (a', w')) ->
  exists b i x, a_best_run a' = Some b /\ at_ w' b = Some i /\ get_pure_fitness (i_fit i) = Ok (VNum x) /\
    (a_final a' <> None <-> exists q, x = Fin q /\ (Qabs (q - opt) <= th)%Q).
Proof. exact target_exact. Qed.
Print Assumptions C39_target.

Example C39_target_example :
  (fst (run [three_found] 4) = Ok tt /\ a_final (after [three_found] 4) <> None /\
   option_map (value_at (after_world [three_found] 4)) (a_best_run (after [three_found] 4)) = Some (Some (VNum (Fin 3)))) /\
  (let four := CkThreshold (Fin 4) (Fin (1 # 2)) in fst (run [four] 4) = Ok tt /\ a_final (after [four] 4) = None /\
   option_map (value_at (after_world [four] 4)) (a_best_run (after [four] 4)) = Some (Some (VNum (Fin 3)))).
Proof. repeat split; try (vm_compute; reflexivity). vm_compute. discriminate. Qed.

(** Fitness 5 of at most 4: beyond the optimum by more than the threshold, so it does not stop. *)
Example C39_example :
  let w := snd (scored_at 5) in
  fst (run_checker [] 0 1 (CkThreshold (Fin 4) (Fin (1 # 2))) w) = Ok (false, CkThreshold (Fin 4) (Fin (1 # 2))) /\
  fst (run_checker [] 0 1 (CkThreshold (Fin 4) (Fin 1)) w) = Ok (true, CkThreshold (Fin 4) (Fin 1)) /\
  checks (a_trace (after [CkUser (fun m _ _ _ g => Ok (g =? 2, m)) 0; three_found] 4)) = [[false; false]; [false; true]].
Proof. repeat split; vm_compute; reflexivity. Qed.

(** ** C40 *)

Theorem C40_own_values : forall ev sched inds w h, fair sched -> gives_numbers ev -> inds <> [] ->
  (forall o, In o inds -> scalar_at w h o) ->
  (forall o i, In o inds -> at_ w o = Some i -> exists v, ev (i_genome i) = Ok v) ->
  exists b w' score, evaluate_inds ev sched ByMap true inds w = (Ok b, w') /\ same_but_heap w w' /\
    (forall o i, In o inds -> at_ w o = Some i -> exists j, at_ w' o = Some j /\ evaluated_into ev i j) /\
    (forall o, ~ In o inds -> at_ w' o = at_ w o) /\
    (forall o, In o inds -> scored w' o (score o)) /\ first_best h score inds b.
Proof. exact evaluate_map. Qed.
Print Assumptions C40_own_values.

(** If tasks raise, the exception of the first individual (not of the first task to finish) surfaces. *)
Theorem C40_first_exception : forall ev sched pre o rest w i e, fair sched ->
  (forall p, In p (pre ++ o :: rest) -> simple_at w p) -> at_ w o = Some i -> ev (i_genome i) = Raise e ->
  (forall p j, In p pre -> at_ w p = Some j -> exists v, ev (i_genome j) = Ok v) ->
  exists w', evaluate_inds ev sched ByMap true (pre ++ o :: rest) w = (Raise e, w').
Proof. exact evaluate_raises. Qed.
Print Assumptions C40_first_exception.

Theorem C40_any_schedule : forall ev s1 s2 inds w, fair s1 -> fair s2 ->
  evaluate_inds ev s1 ByMap true inds w = evaluate_inds ev s2 ByMap true inds w.
Proof. exact evaluate_any_schedule. Qed.
Print Assumptions C40_any_schedule.

(** With the "submit" method evaluation succeeds only for a single individual, whose fitness value then is the
    individual itself. *)
Theorem C40_submit_stores_objects : forall ev sched inds w b w', (forall o, In o inds -> simple_at w o) ->
  evaluate_inds ev sched BySubmit true inds w = (Ok b, w') ->
  inds = [b] /\ exists i, at_ w' b = Some i /\ get_pure_fitness (i_fit i) = Ok (VObj b).
Proof. exact submit_broken. Qed.
Print Assumptions C40_submit_stores_objects.

(** A population with no or with several subpopulations is refused before anything is evaluated. *)
Theorem C40_one_subpopulation : forall ev sched n a w, length (a_pop a) <> 1 ->
  exists e a' w', evolve ev sched n (a, w) = (Raise e, (a', w')) /\ evals (a_trace a') = evals (a_trace a) /\ a_best_run a' = a_best_run a /\
    ((forall s, In s (a_pop a) -> sp_inds s <> None) -> e = ValueError).
Proof. exact one_subpopulation. Qed.
Print Assumptions C40_one_subpopulation.

Example C40_two_subpopulations :
  let a := set_pop [duo; duo] (config [] 2) in
  length (a_pop a) <> 1 /\ (forall s, In s (a_pop a) -> sp_inds s <> None) /\
  fst (evolve count_ones backwards 1 (a, start)) = Raise ValueError.
Proof. repeat split; try (vm_compute; reflexivity); [discriminate|]. intros s [<-|[<-|[]]]; discriminate. Qed.

(** A failing evaluation is noticed with it as well. *)
Theorem C40_submit_checks : forall ev sched o w b w', fair sched -> evaluate_inds ev sched BySubmit true [o] w = (Ok b, w') ->
  exists i v, at_ w o = Some i /\ ev (i_genome i) = Ok v.
Proof. exact submit_checks. Qed.
Print Assumptions C40_submit_checks.

Definition not_first (g : genome) : res fval :=
  match g with GVec (mkVec _ _ _ (Fin 0%Q :: _)) => Raise ZeroDivisionError | _ => count_ones g end.
Example C40_example :
  (let r := evaluate_inds count_ones backwards ByMap true [0; 1] start in
   fst r = Ok 0 /\ map (value_at (snd r)) [0; 1] = [Some (VNum (Fin 2)); Some (VNum (Fin 1))]) /\
  fst (evaluate_inds not_first backwards ByMap true [0; 1] start) = Raise ZeroDivisionError /\
  fst (evaluate_inds count_ones backwards BySubmit true [0; 1] start) = Raise TypeError /\
  (let r := evaluate_inds count_ones backwards BySubmit true [0] start in
   fst r = Ok 0 /\ value_at (snd r) 0 = Some (VObj 0)).
Proof. repeat split; vm_compute; reflexivity. Qed.

(** ** C42 *)

Theorem C42_only_once : forall ev sched n a w a' w' ev' sched' n', evolve ev sched n (a, w) = (Ok tt, (a', w')) ->
  exists a2 w2, evolve ev' sched' n' (a', w') = (Raise RuntimeError, (a2, w2)) /\
    w_heap w2 = w_heap w' /\ a_pop a2 = a_pop a' /\ a_best_run a2 = a_best_run a'.
Proof. exact evolve_twice. Qed.
Print Assumptions C42_only_once.

Example C42_example : fst (evolve count_ones backwards 1 (snd (run [] 2))) = Raise RuntimeError.
Proof. vm_compute; reflexivity. Qed.

(** ** C46 *)

Theorem C46_best : forall s w h score, sp_hib s = HB h -> inds_of s <> [] -> (forall o, In o (inds_of s) -> scored w o (score o)) ->
  exists o, get_best_individual s w = (Ok o, w) /\ first_best h score (inds_of s) o.
Proof. exact best_individual. Qed.
Print Assumptions C46_best.

Theorem C46_worst : forall s w score, inds_of s <> [] -> (forall o, In o (inds_of s) -> scored w o (score o)) ->
  exists o, get_worst_individual s w = (Ok o, w) /\ first_best (negb (hib_truthy (sp_hib s))) score (inds_of s) o.
Proof. exact worst_individual. Qed.
Print Assumptions C46_worst.

Theorem C46_average : forall s w (q : oid -> Q), inds_of s <> [] ->
  (forall o, In o (inds_of s) -> exists i, at_ w o = Some i /\ get_pure_fitness (i_fit i) = Ok (VNum (Fin (q o)))) ->
  exists a, get_average_fitness s w = (Ok (Fin a), w) /\
    (a * inject_Z (Z.of_nat (length (inds_of s))) == fold_right (fun o x => q o + x) 0 (inds_of s))%Q /\
    (forall lo, (forall o, In o (inds_of s) -> lo <= q o) -> lo <= a)%Q /\
    (forall hi, (forall o, In o (inds_of s) -> q o <= hi) -> a <= hi)%Q.
Proof. exact average_fitness. Qed.
Print Assumptions C46_average.

(** With a bloat weight the average is that of other numbers than those compared: it may be better than the best. *)
Definition bloated (id : Z) (x : Q) : ind :=
  set_fit (mkFit (KGP (Fin (1 # 2))) (VNum (Fin x)) true (HB true) false false (Fin 0) PInf)
    (plain_ind id (GTree (mkTree [] [(TVar "x", None)] None None [TNode (TVar "x") None]))).
Theorem C46_average_between_refuted : exists s w score a, inds_of s <> [] /\
  (forall o, In o (inds_of s) -> scored w o (score o)) /\ get_average_fitness s w = (Ok (Fin a), w) /\
  forall o, In o (inds_of s) -> better_score true (Fin a) (score o).
Proof.
  exists (mkSub [] [] [] [] 2 (HB true) 0 (Some [0; 1])), (mkWorld [bloated 1 3; bloated 2 3] 3 (tape [])), (fun _ => Fin (5 # 2)), (6 # 2).
  split; [discriminate|]. split.
  - intros o [<-|[<-|[]]]; eexists; (split; [reflexivity|]); repeat split.
  - split; [vm_compute; reflexivity|]. intros o _. reflexivity.
Qed.
Print Assumptions C46_average_between_refuted.

(** Infinite values make the average infinite; NaN, or infinite values of both signs, make it NaN. *)
Theorem C46_average_infinite : forall s w (x : oid -> num),
  (forall o, In o (inds_of s) -> exists i, at_ w o = Some i /\ get_pure_fitness (i_fit i) = Ok (VNum (x o))) ->
  let some v := exists o, In o (inds_of s) /\ x o = v in
  (some NaN \/ some PInf /\ some NInf -> get_average_fitness s w = (Ok NaN, w)) /\
  (~ some NaN -> ~ some NInf -> some PInf -> get_average_fitness s w = (Ok PInf, w)) /\
  (~ some NaN -> ~ some PInf -> some NInf -> get_average_fitness s w = (Ok NInf, w)).
Proof. exact average_infinite. Qed.
Print Assumptions C46_average_infinite.

Example C46_infinite_example :
  let person x := mkInd 0 0 (mkFit KSimple (VNum x) true (HB true) false false (Fin 0) PInf) (-1) [] [] false [] (bits3 []) in
  let average l := fst (get_average_fitness (mkSub [] [] [] [] 2 (HB true) 0 (Some [0; 1])) (mkWorld (map person l) 2 (tape []))) in
  average [Fin 1; PInf] = Ok PInf /\ average [PInf; NInf] = Ok NaN /\ average [NInf; Fin 3] = Ok NInf.
Proof. repeat split; vm_compute; reflexivity. Qed.

Example C46_example :
  let w := snd (evaluate_inds count_ones backwards ByMap true [0; 1] start) in
  fst (get_best_individual duo w) = Ok 0 /\ fst (get_worst_individual duo w) = Ok 1 /\ fst (get_average_fitness duo w) = Ok (Fin (3 # 2)).
Proof. repeat split; vm_compute; reflexivity. Qed.

(** ** C59 *)

(** Given individuals are kept; otherwise one creator makes [population_size] new individuals. *)
Theorem C59_created_population : forall s w s' w', create_subpopulation s w = (Ok s', w') ->
  (forall l, sp_inds s = Some l -> s' = s /\ w' = w) /\
  (sp_inds s = None -> exists c l, In c (sp_creators s) /\ s' = with_inds s l /\ length l = sp_size s /\ NoDup l /\
     (forall o, In o l -> at_ w o = None /\ exists i, at_ w' o = Some i)).
Proof. exact created_population. Qed.
Print Assumptions C59_created_population.

(** Ramped half-and-half: 5 individuals in 4 groups of one, and one more; 3 individuals are too few. *)
Definition only_add : gp_params :=
  mkGP 1 2 [mkFunc 1 "add" [None; None] None] [(TVar "x", None)] false None (Fin 0) None false (Fin (1 # 2)).
Definition ramped (n : nat) : subpop := mkSub [CHalf 1 2 only_add only_add] [Fin 1] [] [] n (HB true) 0 None.
Definition made (n : nat) : res (option (list oid)) :=
  match fst (create_subpopulation (ramped n) start) with Ok s => Ok (sp_inds s) | Raise e => Raise e end.
Example C59_example : made 5 = Ok (Some [2; 3; 4; 5; 6]) /\ made 3 = Raise ValueError.
Proof. split; vm_compute; reflexivity. Qed.
