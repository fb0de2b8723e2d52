(** * Properties of constructed algorithms (C76). *)
From Coq Require Import QArith Permutation.
From Verif.Spec Require Import WorldSpec FitnessSpec VectorSpec EvoSpec Nsga2Spec CompleteSpec ShowSpec SetupSpec.
From Verif.Proofs Require Import SetupP.
From Verif.Model Require Import Num Fitness Tree World Operators Selection Creators Evolution Nsga2 Publisher Setup.
Open Scope string_scope.
Open Scope nat_scope.
Open Scope list_scope.

(** ** C76 *)

(** What SimpleEvolution(...) accepts, and what it makes of it: the subpopulations in their order, and the given numbers. *)
Theorem C76_accepted : forall t x su, simple_evolution_init t x = Ok su <->
  ea_breeder x <> BrOther /\ (ea_executor x = "thread" \/ ea_executor x = "process") /\
  exists m pop k, given_evaluator (ea_evaluator x) m /\ given_population (ea_population x) pop /\ given_statistics (ea_statistics x) k /\
    su = mkSetup (mkAlgo pop (ea_max_generation x) (ea_checkers x) (seed_of (ea_random_seed x) t)
            (match ea_generation_seed x with Some g => g | None => seed_of (ea_random_seed x) t end) m true
            (ea_best_of_run x) (ea_best_of_gen x) (ea_worst_of_gen x) (ea_generation_num x) None 0 []) k
          (publisher_init (ea_events x) (names_of x ++ ["init"; "evolution_finished"; "after_generation"])).
Proof. exact simple_ok. Qed.
Print Assumptions C76_accepted.

(** Everything else is refused with one kind of exception. *)
Theorem C76_rejected : forall t x e, simple_evolution_init t x = Raise e -> e = ValueError.
Proof. exact rejected. Qed.
Print Assumptions C76_rejected.

(** The same for Subpopulation(...), with one creator or a list of them. *)
Theorem C76_subpopulation : forall sum a pcr ops sels rate size inds h s,
  new_subpopulation sum a pcr ops sels rate size inds h = Ok s <->
  exists cs, given_creators a cs /\ cs <> [] /\
  exists p os, (pcr = Some p \/ pcr = None /\ p = map (fun _ => ddiv 1 (of_count (length cs))) cs) /\
    length p = length cs /\ (sum p == 1)%Q /\ ops = Some os /\
    s = mkSub cs (map Fin p) os (match sels with None => [SelTournament 10 true 1] | Some l => l end) size h
              (Z.to_nat (n_elite_of rate size)) inds.
Proof. exact subpopulation_ok. Qed.
Print Assumptions C76_subpopulation.

Theorem C76_others_rejected : forall e,
  (forall sum a pcr ops sels rate size inds h, new_subpopulation sum a pcr ops sels rate size inds h = Raise e -> e = ValueError) /\
  (forall t x, nsga2_evolution_init t x = Raise e -> e = ValueError).
Proof. exact (fun e => conj (fun sum a pcr ops sels rate size inds h => subpopulation_rejected sum a pcr ops sels rate size inds h e)
                            (fun t x => multi_objective_rejected t x e)). Qed.
Print Assumptions C76_others_rejected.

(** A seed from the clock is one numpy takes; the first generation seed is the random seed unless given. *)
Theorem C76_seeds : forall t x su, simple_evolution_init t x = Ok su ->
  match ea_random_seed x with
  | Some s => a_random_seed (su_algo su) = s
  | None => (0 <= a_random_seed (su_algo su) < 2 ^ 32)%Z
  end /\
  a_gen_seed (su_algo su) = match ea_generation_seed x with Some g => g | None => a_random_seed (su_algo su) end.
Proof. exact seeds_set. Qed.
Print Assumptions C76_seeds.

(** The events one can register for: the given names (or four default ones) and those of every algorithm. *)
Theorem C76_events : forall t x su, ea_events x = None -> simple_evolution_init t x = Ok su ->
  (forall e, In e (map fst (p_events (su_events su))) <->
     In e match ea_event_names x with Some l => l | None => ["before_eval"; "after_eval"; "before_breeding"; "after_breeding"] end \/
     In e ["init"; "evolution_finished"; "after_generation"; "before_operator"; "after_operator"]) /\
  Forall (fun p => snd p = []) (p_events (su_events su)).
Proof. exact events_known. Qed.
Print Assumptions C76_events.

(** From the constructors to the end of a run: with the default selection, a subpopulation and an algorithm that the
    constructors accept complete their run, whatever is drawn. *)
Theorem C76_runs : forall G ev sched h sum creators cs pcr ops rate size s t x su w,
  gives_numbers ev -> total_on G ev -> fair sched -> sum = sum_plain \/ sum = sum_compensated ->
  given_creators creators cs -> (forall c, In c cs -> scalar_creator c /\ closed_creator G size (HB h) c) ->
  (forall p, pcr = Some p -> Forall (fun q => 0 <= q)%Q p) ->
  Forall (closed_operator G) ops -> (forall op, In op ops -> op_arity op <> 0 /\ Nat.divide (op_arity op) size) -> 1 <= size ->
  (forall g, G g -> printable g) ->
  new_subpopulation sum creators pcr (Some ops) None rate size None (HB h) = Ok s ->
  given_population (ea_population x) [s] -> given_evaluator (ea_evaluator x) ByMap -> Forall calm (ea_checkers x) ->
  simple_evolution_init t x = Ok su ->
  exists a' w', evolve ev sched (su_stats su) (su_algo su, w) = (Ok tt, (a', w')) /\
    forall l, In l (evals (a_trace a')) -> length l = size /\ genomes_in G l w'.
Proof. exact constructed_run. Qed.
Print Assumptions C76_runs.

Theorem C76_vectors : forall k b len ev sched h sum creators cs pcr ops rate size s t x su w,
  gives_numbers ev -> total_on (vectors k b len) ev -> fair sched -> sum = sum_plain \/ sum = sum_compensated ->
  given_creators creators cs -> (forall c, In c cs -> scalar_creator c /\ vector_creator k b len c) ->
  (forall p, pcr = Some p -> Forall (fun q => 0 <= q)%Q p) ->
  Forall (vector_operator k b len) ops -> (forall op, In op ops -> op_arity op <> 0 /\ Nat.divide (op_arity op) size) -> 1 <= size ->
  new_subpopulation sum creators pcr (Some ops) None rate size None (HB h) = Ok s ->
  given_population (ea_population x) [s] -> given_evaluator (ea_evaluator x) ByMap -> Forall calm (ea_checkers x) ->
  simple_evolution_init t x = Ok su ->
  exists a' w', evolve ev sched (su_stats su) (su_algo su, w) = (Ok tt, (a', w')) /\
    forall l, In l (evals (a_trace a')) -> length l = size /\ genomes_in (vectors k b len) l w'.
Proof. exact constructed_vector_run. Qed.
Print Assumptions C76_vectors.

(** SimplePopulationEvaluator(...) knows two ways to use the executor. *)
Theorem C76_methods : forall s m, executor_method_of s = Ok m <-> (s = "map" /\ m = ByMap \/ s = "submit" /\ m = BySubmit).
Proof. exact methods. Qed.
Print Assumptions C76_methods.

(** NSGA2Evolution(...), which does not look at the breeder and the evaluator. *)
Theorem C76_multi_objective : forall t x su, nsga2_evolution_init t x = Ok su <->
  (ea_executor x = "thread" \/ ea_executor x = "process") /\
  exists pop k, given_population (ea_population x) pop /\ given_statistics (ea_statistics x) k /\
    su = mkSetup (mkAlgo pop (ea_max_generation x) (ea_checkers x) (seed_of (ea_random_seed x) t)
            (match ea_generation_seed x with Some g => g | None => seed_of (ea_random_seed x) t end) ByMap true
            (ea_best_of_run x) (ea_best_of_gen x) (ea_worst_of_gen x) (ea_generation_num x) None 0 []) k
          (publisher_init (ea_events x) (names_of x ++ ["init"; "evolution_finished"; "after_generation"])).
Proof. exact multi_objective_ok. Qed.
Print Assumptions C76_multi_objective.

(** From the constructors to the end of a multi-objective run of vectors: with NSGA2Breeder and checkers that can deal with list
    fitness it completes; with the default checker it fails, whatever the breeder. *)
Theorem C76_multi_objective_runs : forall k b len ev h sched so sum creators cs pcr ops size s t x su w,
  sum = sum_plain \/ sum = sum_compensated ->
  given_creators creators cs -> (forall c, In c cs -> (exists len b k upd, c = CVector len b k KNSGA2 upd) /\ vector_creator k b len c) ->
  (forall p, pcr = Some p -> Forall (fun q => 0 <= q)%Q p) ->
  Forall (vector_operator k b len) ops -> (forall op, In op ops -> op_arity op <> 0 /\ Nat.divide (op_arity op) size) -> 1 <= size ->
  new_subpopulation sum creators pcr (Some ops) None 0 size None (HL h) = Ok s ->
  given_population (ea_population x) [s] -> nsga2_evolution_init t x = Ok su ->
  gives_objectives ev (length h) -> total_on (vectors k b len) ev -> fair sched -> any_order so ->
  (Forall (fun c => exists f stored, c = CkUser f stored /\ moo_answers f) (ea_checkers x) ->
   exists a' w' l, nsga2_evolve ev sched so true (su_stats su) (su_algo su, w) = (Ok tt, (a', w')) /\
     a_pop a' = [with_inds s l] /\ length l = size /\ NoDup l /\ genomes_in (vectors k b len) l w' /\ (forall o, In o l -> has_value ev w' o) /\
     evaluations size (2 * size) (evals (a_trace a'))) /\
  (forall opt th cks doubling, ea_checkers x = CkThreshold opt th :: cks ->
   fst (nsga2_evolve ev sched so doubling (su_stats su) (su_algo su, w)) = Raise TypeError).
Proof. exact constructed_moo. Qed.
Print Assumptions C76_multi_objective_runs.

(** Two creators with the default probabilities, the defaults of SimpleEvolution but for the number of generations and a checker
    that looks at the best individual. *)
Definition unit3 : bounds := BPair (Fin (-1)) (Fin 1).
Definition first_cell (g : genome) : res fval :=
  match g with
  | GVec v => match v_cells v with Fin x :: _ => Ok (VNum (Fin x)) | _ => Ok (VNum (Fin 0)) end
  | GTree _ => Ok (VNum (Fin 0))
  end.
Definition in_turn (n : nat) : list nat := rev (seq 0 n).
Definition makers : list creator := [CVector 3 unit3 KFloat KSimple false; CVector 3 unit3 KFloat KSimple true].
Definition steps_ : list oper := [mkOper (OKPoint 1) (Fin (1 # 2)) 2 5; mkOper (OVecMut (MGaussOne (Fin 0) (Fin 1)) 1) (Fin 1) 1 5].
Definition floats : res subpop := new_subpopulation sum_plain (CrList (map Some makers)) None (Some steps_) None (1 # 4) 4 None (HB true).
Definition reads_best : user_checker := fun calls _ hp best _ =>
  match nth_error hp best with
  | Some i => match get_pure_fitness (i_fit i) with Ok _ => Ok (calls =? 9, S calls) | Raise e => Raise e end
  | None => Raise AttributeError
  end.
Definition chosen (s : subpop) : evolution_args :=
  mkArgs (PoOne s) StOne BrNone EvNone 2 None None [CkUser reads_best 0] "thread" None None None None None 0.

Example C76_hypotheses :
  gives_numbers first_cell /\ total_on (vectors KFloat unit3 3) first_cell /\ fair in_turn /\
  given_creators (CrList (map Some makers)) makers /\ (forall c, In c makers -> scalar_creator c /\ vector_creator KFloat unit3 3 c) /\
  Forall (vector_operator KFloat unit3 3) steps_ /\ (forall op, In op steps_ -> op_arity op <> 0 /\ Nat.divide (op_arity op) 4) /\
  exists s, floats = Ok s /\ given_population (ea_population (chosen s)) [s] /\ given_evaluator (ea_evaluator (chosen s)) ByMap /\
    Forall calm (ea_checkers (chosen s)) /\ exists su, simple_evolution_init 17923456 (chosen s) = Ok su /\ sp_n_elite s = 1.
Proof.
  split; [intros [v|t] x H; cbn in H; [destruct (v_cells v) as [|[q| | |] c]|]; injection H as <-; eexists; split; reflexivity|].
  split; [intros [v|t] _; cbn; [destruct (v_cells v) as [|[q| | |] c]|]; eexists; reflexivity|].
  split; [intros n; apply Permutation_sym, Permutation_rev|]. split; [right; reflexivity|].
  split.
  { assert (V : creatable 3 unit3 KFloat) by (split; [|split; [congruence|discriminate]]; exists (-1)%Q, 1%Q; split; [reflexivity|discriminate]).
    intros c [<-|[<-|[]]]; (split; [split; [reflexivity|exact I]|exact (conj eq_refl (conj eq_refl (conj eq_refl (conj V I))))]). }
  split; [constructor; [cbn; auto with arith|]; constructor; [|constructor]; cbn; right; repeat split; auto with arith|].
  split; [intros op [<-|[<-|[]]]; (split; [discriminate|]); [exists 2|exists 4]; reflexivity|].
  destruct floats as [s|e] eqn:E; [|vm_compute in E; discriminate]. vm_compute in E. injection E as <-.
  eexists. split; [reflexivity|]. split; [right; left; eexists; split; reflexivity|]. split; [left; split; reflexivity|].
  split; [constructor; [|constructor]; intros m p hp best g (i & v & A & P) _; unfold reads_best; rewrite A, P; eauto|].
  eexists. split; reflexivity.
Qed.

Example C76_example :
  simple_evolution_init 17923456 (default_args (PoList [])) = Raise ValueError /\
  simple_evolution_init 17923456 (default_args PoNone) = Raise ValueError /\
  match floats with
  | Ok s => match simple_evolution_init 8589934599 (chosen s) with
            | Ok su => a_random_seed (su_algo su) = 7%Z /\ su_stats su = 1 /\
                       fst (evolve first_cell in_turn (su_stats su) (su_algo su, mkWorld [] 1 (tape []))) = Ok tt
            | _ => False
            end /\
            simple_evolution_init 7 (default_args (PoList [Some s; None])) = Raise ValueError /\
            is_ok (simple_evolution_init 7 (default_args (PoList [Some s; Some s]))) = true /\
            is_ok (simple_evolution_init 7 (default_args (PoPopulation []))) = true
  | _ => False
  end.
Proof. vm_compute. repeat split. Qed.

(** Two objectives: the first two cells. *)
Definition two_cells (g : genome) : res fval :=
  match g with
  | GVec v => match v_cells v with Fin x :: Fin y :: _ => Ok (VList [Fin x; Fin y]) | _ => Ok (VList [Fin 0; Fin 0]) end
  | GTree _ => Ok (VList [Fin 0; Fin 0])
  end.
Definition moo_makers : list creator := [CVector 3 unit3 KFloat KNSGA2 false].
Definition moo_floats : res subpop := new_subpopulation sum_plain (CrOne (CVector 3 unit3 KFloat KNSGA2 false)) None (Some steps_) None 0 4 None (HL [true; false]).
Definition moo_chosen (s : subpop) : evolution_args :=
  mkArgs (PoPopulation [s]) (StList [true; true]) BrOther EvNone 2 None (Some []) [CkUser (fun n _ _ _ _ => Ok (false, n)) 0] "process" (Some 3%Z) None None None None 0.

Example C76_multi_objective_hypotheses :
  gives_objectives two_cells 2 /\ total_on (vectors KFloat unit3 3) two_cells /\ any_order (fun _ l => l) /\
  given_creators (CrOne (CVector 3 unit3 KFloat KNSGA2 false)) moo_makers /\
  (forall c, In c moo_makers -> (exists len b k upd, c = CVector len b k KNSGA2 upd) /\ vector_creator KFloat unit3 3 c) /\
  exists s, moo_floats = Ok s /\ given_population (ea_population (moo_chosen s)) [s] /\
    Forall (fun c => exists f stored, c = CkUser f stored /\ moo_answers f) (ea_checkers (moo_chosen s)) /\
    exists su, nsga2_evolution_init 17923456 (moo_chosen s) = Ok su.
Proof.
  split; [intros [v|t] x H; cbn in H; [destruct (v_cells v) as [|[q| | |] [|[q'| | |] c]]|]; injection H as <-; first [exists [q; q']; split; reflexivity | exists [0%Q; 0%Q]; split; reflexivity]|].
  split; [intros [v|t] _; cbn; [destruct (v_cells v) as [|[q| | |] [|[q'| | |] c]]|]; eexists; reflexivity|].
  split; [intros r l; apply Permutation_refl|]. split; [left; eexists; split; reflexivity|].
  split.
  { assert (V : creatable 3 unit3 KFloat) by (split; [|split; [congruence|discriminate]]; exists (-1)%Q, 1%Q; split; [reflexivity|discriminate]).
    intros c [<-|[]]. split; [eauto|exact (conj eq_refl (conj eq_refl (conj eq_refl (conj V I))))]. }
  destruct moo_floats as [s|e] eqn:E; [|vm_compute in E; discriminate]. vm_compute in E. injection E as <-.
  eexists. split; [reflexivity|]. split; [left; reflexivity|].
  split; [constructor; [|constructor]; eexists _, _; split; [reflexivity|]; intros n p hp best g _ _ _; eauto|].
  eexists. reflexivity.
Qed.

Example C76_multi_objective_example :
  match moo_floats with
  | Ok s => match nsga2_evolution_init 5 (moo_chosen s), nsga2_evolution_init 5 (nsga2_default_args (PoOne s)) with
            | Ok su, Ok su' => (a_random_seed (su_algo su), su_stats su, map fst (p_events (su_events su))) = (3%Z, 2, ["init"; "evolution_finished"; "after_generation"; "before_operator"; "after_operator"]) /\
                fst (nsga2_evolve two_cells in_turn (fun _ l => l) true (su_stats su) (su_algo su, mkWorld [] 1 (tape []))) = Ok tt /\
                fst (nsga2_evolve two_cells in_turn (fun _ l => l) true (su_stats su') (su_algo su', mkWorld [] 1 (tape []))) = Raise TypeError
            | _, _ => False
            end
  | _ => False
  end /\ executor_method_of "thread" = Raise ValueError.
Proof. vm_compute. repeat split. Qed.
