(** Properties of runs that end with an exception: C84. *)
From Coq Require Import Sorted Permutation QArith.
From Verif.Model Require Import Evolution Nsga2.
From Verif.Spec Require Import WorldSpec FitnessSpec SelSpec EvoSpec CompleteSpec ShowSpec InterruptSpec.
From Verif.Proofs Require Import CompleteVecP InterruptP.
From Verif.Props Require Import EvoProps.
From Verif.Props Require Nsga2Props.
From Verif.Model Require Import Vector Creators Evolution Nsga2.
Open Scope nat_scope.
Open Scope list_scope.

(** ** C84 *)

(** A run that raises was broken off somewhere before its end, in which case nobody was told that it finished, the executor
    is as it was and final_generation_ too; or everything happened and only showing the best individual raised. *)
Theorem C84_events : forall ev sched n a w e a' w',
  a_trace a = [] -> evolve ev sched n (a, w) = (Raise e, (a', w')) ->
  broken_off a a' \/
  (well_run a (a_trace a') (a_final a') /\ a_alive a' = false /\
   forall b i, a_best_run a' = Some b -> at_ w' b = Some i -> show i = Raise e).
Proof. exact interrupted_events. Qed.
Print Assumptions C84_events.

Theorem C84_moo_events : forall ev sched so d n a w e a' w',
  a_trace a = [] -> nsga2_evolve ev sched so d n (a, w) = (Raise e, (a', w')) ->
  broken_off a a' \/ (well_run a (a_trace a') (a_final a') /\ a_alive a' = a_alive a).
Proof. exact moo_interrupted_events. Qed.
Print Assumptions C84_moo_events.

(** best_of_run_ is the best of all individuals evaluated before the exception, and these keep their values. *)
Theorem C84_best : forall ev sched n a w e a' w' h,
  gives_numbers ev -> fair sched -> a_trace a = [] -> a_method a = ByMap -> scalar_population w h (a_pop a) ->
  evolve ev sched n (a, w) = (Raise e, (a', w')) ->
  (evals (a_trace a') = [] /\ a_best_run a' = a_best_run a) \/
  exists b, a_best_run a' = Some b /\ In b (concat (evals (a_trace a'))) /\
    forall o, In o (concat (evals (a_trace a'))) ->
      has_value ev w' o /\ exists x y, scored w' o x /\ scored w' b y /\ ~ better_score h x y.
Proof. exact interrupted_best. Qed.
Print Assumptions C84_best.

(** What the listeners were shown stays as it was shown, and was getting no worse. *)
Theorem C84_recorded : forall ev sched n a w e a' w' h,
  gives_numbers ev -> fair sched -> a_trace a = [] -> a_method a = ByMap -> scalar_population w h (a_pop a) ->
  evolve ev sched n (a, w) = (Raise e, (a', w')) ->
  (forall o i, In (o, i) (recorded (a_trace a')) -> exists g, at_ w' o = Some (set_gen g i)) /\
  StronglySorted (no_worse h) (map snd (recorded (a_trace a'))).
Proof. exact interrupted_recorded. Qed.
Print Assumptions C84_recorded.

(** In a workable set-up the only exception is the fitness function's own.  It leaves a whole population of genomes of the
    class behind, and calling evolve again, once the fitness function is mended, runs to the end starting from it. *)
Theorem C84_restart : forall G ev ev' sched sched' h s n n' a w e a' w',
  gives_numbers ev -> fair sched -> a_trace a = [] -> configured h a w s -> closed_under G w s -> (forall g, G g -> printable g) ->
  evolve ev sched n (a, w) = (Raise e, (a', w')) -> gives_numbers ev' -> total_on G ev' -> fair sched' ->
  (exists g, G g /\ ev g = Raise e) /\
  exists l rest a2 w2, a_pop a' = [with_inds s l] /\ evolve ev' sched' n' (anew a', w') = (Ok tt, (a2, w2)) /\
    evals (a_trace a2) = l :: rest /\ forall m, In m (evals (a_trace a2)) -> length m = sp_size s /\ genomes_in G m w2.
Proof. exact run_again. Qed.
Print Assumptions C84_restart.

(** A fitness function that fails on one vector. *)
Definition num_eq_dec (x y : num) : {x = y} + {x <> y}.
Proof. decide equality. decide equality; [apply Pos.eq_dec|apply Z.eq_dec]. Defined.
Definition cells_are (l : list num) (g : genome) : bool :=
  match g with GVec v => if list_eq_dec num_eq_dec (v_cells v) l then true else false | GTree _ => false end.
Definition picky (l : list num) (g : genome) : res fval := if cells_are l g then Raise ZeroDivisionError else count_ones g.
Definition broken := evolve (picky [Fin 0; Fin 1; Fin 1]) backwards 1 (config [] 2, start).
Definition left_over : algo := fst (snd broken).
Definition left_world : world := snd (snd broken).

Example picky_numbers l : gives_numbers (picky l) /\ agrees (picky l) count_ones.
Proof.
  split.
  - intros g x H. unfold picky in H. destruct (cells_are l g); [discriminate|]. destruct g as [v|t]; cbn in H; [|discriminate].
    destruct (nsum (v_cells v)); try discriminate. injection H as <-. eexists. split; reflexivity.
  - intros g v H. unfold picky in H. destruct (cells_are l g); [discriminate|exact H].
Qed.

(** The second generation has been bred and its second member cannot be evaluated; the best of the first is still known. *)
Example C84_example :
  fst broken = Raise ZeroDivisionError /\ broken_off (config [] 2) left_over /\
  map kind_of (a_trace left_over) =
    [Seed; Eval; Publish "init"; Check] ++ generation_events ++ [Seed; Breed] /\
  a_best_run left_over = Some 2 /\ a_gen_num left_over = 2 /\ a_alive left_over = true /\ a_final left_over = None /\
  map (value_at left_world) [0; 1; 2; 3] = map (fun x => Some (VNum (Fin x))) [2; 1; 3; 1]%Q /\
  evals (a_trace left_over) = [[0; 1]; [2; 3]].
Proof.
  split; [vm_compute; reflexivity|]. split; [|repeat split; vm_compute; reflexivity].
  destruct (C84_events (picky [Fin 0; Fin 1; Fin 1]) backwards 1 (config [] 2) start ZeroDivisionError left_over left_world) as [H|(_ & H & _)].
  - reflexivity.
  - vm_compute. reflexivity.
  - exact H.
  - vm_compute in H. discriminate.
Qed.

(** Trying again. *)
Definition unit_box : bounds := BPair (Fin 0) (Fin 1).
Definition again := evolve count_ones backwards 1 (anew left_over, left_world).

Example in_unit_box k l : Forall (fun x => x = Fin 0 \/ x = Fin 1) l -> vectors k unit_box (length l) (GVec (mkVec k unit_box (length l) l)).
Proof.
  intros F. eexists. split; [reflexivity|]. repeat split.
  - exists 0%Q, 1%Q. split; [reflexivity|discriminate].
  - exists 0%Z. reflexivity.
  - exists 1%Z. reflexivity.
  - intros i x E. exists (Fin 0), (Fin 1). split; [reflexivity|]. apply nth_error_In in E. rewrite Forall_forall in F.
    destruct (F x E) as [->| ->]; split; reflexivity.
Qed.

Example C84_restart_example :
  configured true (config [] 2) start duo /\ closed_under (vectors KBit unit_box 3) start duo /\
  fst again = Ok tt /\ evals (a_trace (fst (snd again))) = [[6; 7]; [10; 11]; [14; 15]].
Proof.
  split; [|split; [|split; vm_compute; reflexivity]].
  - constructor; try reflexivity; try (cbn; auto with arith; fail).
    + cbn. intros n [<-|[<-|[]]]; (split; [discriminate|]); exists 2; reflexivity.
    + exists (SelTournament 2 true 1), []. split; [reflexivity|]. cbn. auto with arith.
    + cbn. split; [reflexivity|]. intros o [<-|[<-|[]]]; eexists; (split; [reflexivity|]); repeat split.
  - split; [constructor; [|constructor]|].
    + apply vector_closed. cbn. left. repeat split; auto with arith. exists (Fin 0), (Fin 1). reflexivity.
    + intros o [<-|[<-|[]]]; eexists; (split; [reflexivity|]); refine (in_unit_box KBit [_; _; _] _); repeat (constructor; [solve [auto]|]); constructor.
Qed.

(** What is not so: the second call need not end with an individual as good as the best of the first.  initialize() starts
    best_of_run_ anew and the population is the broken generation's. *)
Definition ints3 (l : list num) : genome := GVec (mkVec KInt unit_box 3 l).
Definition full_house : world :=
  mkWorld [plain_ind 1 (ints3 [Fin 1; Fin 1; Fin 1]); plain_ind 2 (ints3 [Fin 1; Fin 0; Fin 1])] 3 (tape []).
Definition wiping : oper := mkOper (OVecMut (MIntOne (Fin 1)) 1) (Fin 1) 1 5.
Definition losing : algo :=
  mkAlgo [mkSub [] [] [wiping] [SelTournament 2 true 1] 2 (HB true) 0 (Some [0; 1])] 2 [] 7 7 ByMap true None None None 0 None 0 [].
Definition lost := evolve (picky [Fin 0; Fin 0; Fin 0]) backwards 1 (losing, full_house).
Theorem C84_best_forgotten_refuted : exists ev ev' sched n a w a' w' a2 w2 b b2 x y,
  gives_numbers ev /\ gives_numbers ev' /\ agrees ev ev' /\ fair sched /\ a_trace a = [] /\ a_method a = ByMap /\
  scalar_population w true (a_pop a) /\
  evolve ev sched n (a, w) = (Raise ZeroDivisionError, (a', w')) /\ evolve ev' sched n (anew a', w') = (Ok tt, (a2, w2)) /\
  a_best_run a' = Some b /\ a_best_run a2 = Some b2 /\ scored w2 b x /\ scored w2 b2 y /\ better_score true x y.
Proof.
  exists (picky [Fin 0; Fin 0; Fin 0]), count_ones, backwards, 1, losing, full_house, (fst (snd lost)), (snd (snd lost)).
  exists (fst (snd (evolve count_ones backwards 1 (anew (fst (snd lost)), snd (snd lost))))).
  exists (snd (snd (evolve count_ones backwards 1 (anew (fst (snd lost)), snd (snd lost))))).
  exists 0, 2, (Fin 3), (Fin 0).
  split; [apply picky_numbers|]. split; [|split; [apply picky_numbers|]].
  { intros [v|t] x H; cbn in H; [|discriminate]. destruct (nsum (v_cells v)); try discriminate. injection H as <-. eexists. split; reflexivity. }
  split; [intros m; apply Permutation_sym, Permutation_rev|]. split; [reflexivity|]. split; [reflexivity|].
  split.
  { eexists. split; [reflexivity|]. intros o [<-|[<-|[]]]; eexists; (split; [reflexivity|]); repeat split. }
  split; [vm_compute; reflexivity|]. split; [vm_compute; reflexivity|]. split; [vm_compute; reflexivity|]. split; [vm_compute; reflexivity|].
  split; [eexists; split; [vm_compute; reflexivity|split; [|split; [|split]]; reflexivity]|].
  split; [eexists; split; [vm_compute; reflexivity|split; [|split; [|split]]; reflexivity]|reflexivity].
Qed.
Print Assumptions C84_best_forgotten_refuted.

(** The other two ways: everything done and the best individual cannot be shown, and a multi-objective run. *)
Definition unshowable : genome := GTree (mkTree [] [(TNum true (Fin 1) 0, None)] None None [TNode (TNum true (Fin 1) 0) None]).
Definition one_tree : algo :=
  mkAlgo [mkSub [] [] [] [SelTournament 1 true 1] 1 (HB true) 0 (Some [0])] 1 [] 7 7 ByMap true None None None 0 None 0 [].
Definition shown := evolve (fun _ => Ok (VNum (Fin 5))) backwards 1 (one_tree, mkWorld [plain_ind 1 unshowable] 2 (tape [])).
Example C84_shown_example :
  fst shown = Raise TypeError /\ map kind_of (a_trace (fst (snd shown))) = [Seed; Eval; Publish "init"; Check] ++ generation_events ++ [Publish "evolution_finished"] /\
  a_alive (fst (snd shown)) = false.
Proof. split; [|split]; vm_compute; reflexivity. Qed.

Definition moo_picky (g : genome) : res fval := if cells_are [Fin 1] g then Raise ZeroDivisionError else Nsga2Props.two_objectives g.
Definition moo_broken :=
  nsga2_evolve moo_picky Nsga2Props.forwards Nsga2Props.reversed true 0 (Nsga2Props.moo_algo 2, mkWorld [Nsga2Props.new_ind (Fin 0) 1; Nsga2Props.new_ind (Fin 0) 2] 3 (tape [])).
Example C84_moo_example :
  fst moo_broken = Raise ZeroDivisionError /\
  map kind_of (a_trace (fst (snd moo_broken))) = [Seed; Eval; Publish "init"; Check; Seed; Breed] /\
  broken_off (Nsga2Props.moo_algo 2) (fst (snd moo_broken)).
Proof.
  split; [|split]; [vm_compute; reflexivity..|].
  destruct (C84_moo_events moo_picky Nsga2Props.forwards Nsga2Props.reversed true 0 (Nsga2Props.moo_algo 2)
              (mkWorld [Nsga2Props.new_ind (Fin 0) 1; Nsga2Props.new_ind (Fin 0) 2] 3 (tape [])) ZeroDivisionError
              (fst (snd moo_broken)) (snd (snd moo_broken))) as [H|(H & _)].
  - reflexivity.
  - vm_compute. reflexivity.
  - exact H.
  - exfalso. destruct H as (k & stop0 & pre & lastc & _ & _ & H & _). rewrite app_assoc in H. apply (f_equal (fun l => last l Seed)) in H.
    rewrite last_last in H. vm_compute in H. discriminate.
Qed.
