(** Properties of the individuals an algorithm reports: C75. *)
From Coq Require Import Permutation QArith Qabs.
From Verif.Model Require Import Population.
From Verif.Spec Require Import WorldSpec FitnessSpec SelSpec EvoSpec.
From Verif.Proofs Require Import PopulationP.
From Verif.Model Require Import Population.
From Verif.Props Require Import EvoProps.
Open Scope nat_scope.
Open Scope list_scope.

(** ** C75 *)

(** After a run with at least one generation, best_of_gen and worst_of_gen are the first best and the first worst of the
    individuals evaluated last, and the population names the same objects.  Without a generation they are what they were. *)
Theorem C75_extremes : forall ev sched n a w a' w' h,
  gives_numbers ev -> fair sched -> a_trace a = [] -> a_method a = ByMap ->
  scalar_population w h (a_pop a) -> (forall s, In s (a_pop a) -> sp_hib s = HB h) ->
  evolve ev sched n (a, w) = (Ok tt, (a', w')) ->
  exists before current, evals (a_trace a') = before ++ [current] /\
    (before = [] -> a_best_gen a' = a_best_gen a /\ a_worst_gen a' = a_worst_gen a) /\
    (before <> [] -> exists b c score, a_best_gen a' = Some b /\ a_worst_gen a' = Some c /\
       (forall o, In o current -> scored w' o (score o)) /\ first_best h score current b /\ first_best (negb h) score current c /\
       get_best_individuals (a_pop a') w' = (Ok [b], w') /\ get_worst_individuals (a_pop a') w' = (Ok [c], w')).
Proof. exact reported_extremes. Qed.
Print Assumptions C75_extremes.

(** The population knows the individuals evaluated last, and none of the earlier ones. *)
Theorem C75_found : forall ev sched n a w a' w' h,
  gives_numbers ev -> fair sched -> a_trace a = [] -> a_method a = ByMap ->
  scalar_population w h (a_pop a) -> (forall s, In s (a_pop a) -> sp_hib s = HB h) ->
  evolve ev sched n (a, w) = (Ok tt, (a', w')) ->
  exists before current, evals (a_trace a') = before ++ [current] /\
    (forall o, In o current -> find_individual_subpopulation (a_pop a') o = Ok 0) /\
    (forall o, In o (concat before) -> find_individual_subpopulation (a_pop a') o = Raise ValueError).
Proof. exact found_in_run. Qed.
Print Assumptions C75_found.

(** The first subpopulation that has the individual is found, or ValueError is raised. *)
Theorem C75_find : forall pop o, (forall s, In s pop -> sp_inds s <> None) ->
  (exists pre s post, pop = pre ++ s :: post /\ find_individual_subpopulation pop o = Ok (length pre) /\ In o (inds_of s) /\
     forall p, In p pre -> ~ In o (inds_of p)) \/
  (find_individual_subpopulation pop o = Raise ValueError /\ forall s, In s pop -> ~ In o (inds_of s)).
Proof. exact find_first. Qed.
Print Assumptions C75_find.

(** One best and one worst individual for each subpopulation, each by the direction of its own subpopulation. *)
Theorem C75_lists : forall pop w (h : subpop -> bool) score,
  (forall s, In s pop -> sp_hib s = HB (h s) /\ inds_of s <> [] /\ forall o, In o (inds_of s) -> scored w o (score o)) ->
  exists bs cs, get_best_individuals pop w = (Ok bs, w) /\ get_worst_individuals pop w = (Ok cs, w) /\
    Forall2 (fun s b => first_best (h s) score (inds_of s) b) pop bs /\
    Forall2 (fun s c => first_best (negb (h s)) score (inds_of s) c) pop cs.
Proof. exact best_lists. Qed.
Print Assumptions C75_lists.

(** One average for each subpopulation. *)
Theorem C75_averages : forall pop w (q : oid -> Q),
  (forall s, In s pop -> inds_of s <> [] /\ forall o, In o (inds_of s) -> exists i, at_ w o = Some i /\ get_pure_fitness (i_fit i) = Ok (VNum (Fin (q o)))) ->
  exists avs, get_average_fitnesses pop w = (Ok (map Fin avs), w) /\
    Forall2 (fun s a => a * inject_Z (Z.of_nat (length (inds_of s))) == fold_right (fun o x => q o + x) 0 (inds_of s))%Q pop avs.
Proof. exact average_lists. Qed.
Print Assumptions C75_averages.

(** In the small run of two generations best_of_run_ is from the first of them, so it is not found any more; the last two
    individuals are equally good. *)
Example C75_example :
  let a := after [] 2 in let w := after_world [] 2 in
  (forall s, In s (a_pop (config [] 2)) -> sp_hib s = HB true) /\
  evals (a_trace a) = [[0; 1]; [2; 3]; [6; 7]] /\
  (a_best_run a, a_best_gen a, a_worst_gen a) = (Some 2, Some 6, Some 6) /\
  fst (get_best_individuals (a_pop a) w) = Ok [6] /\ fst (get_worst_individuals (a_pop a) w) = Ok [6] /\
  map (find_individual_subpopulation (a_pop a)) [6; 7; 2; 0] = [Ok 0; Ok 0; Raise ValueError; Raise ValueError].
Proof. repeat split; try (vm_compute; reflexivity). intros s [<-|[]]. reflexivity. Qed.

Example C75_one_generation :
  let a := after [] 1 in let w := after_world [] 1 in
  (a_best_run a, a_best_gen a, a_worst_gen a) = (Some 2, Some 2, Some 3) /\
  map (value_at w) [2; 3] = [Some (VNum (Fin 3)); Some (VNum (Fin 1))] /\
  fst (get_best_individuals (a_pop a) w) = Ok [2] /\ fst (get_worst_individuals (a_pop a) w) = Ok [3] /\
  match fst (get_average_fitnesses (a_pop a ++ a_pop a) w) with Ok [Fin x; Fin y] => (x == 2 /\ y == 2)%Q | _ => False end /\
  (a_best_gen (after [] 0), a_worst_gen (after [] 0)) = (None, None) /\
  find_individual_subpopulation [mkSub [] [] [] [] 1 (HB true) 0 (Some [5; 3]); mkSub [] [] [] [] 1 (HB true) 0 (Some [4; 3])] 4 = Ok 1.
Proof. vm_compute. repeat split. Qed.
