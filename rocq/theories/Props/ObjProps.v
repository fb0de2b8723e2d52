(** Properties of copies of objects and of the sklearn wrapper: C41, C62. *)
From Verif.Model Require Import Objects.
From Verif.Spec Require Import ObjSpec.
From Verif.Proofs Require Import ObjP.
From Verif.Proofs Require CheckpointP.
From Verif.Model Require Checkpoint.
From Verif.Spec Require IndSpec WorldSpec.
From Verif.Model Require Import Objects.
Open Scope nat_scope.
Open Scope string_scope.

(** ** C41 *)

(** An object can be pickled ([b = false]) or copied ([b = true]) exactly if no executor is reached through the fields
    taken over (nor, for pickling, a local function). *)
Theorem C41_copied_iff : forall b o n, proper o -> (is_ok (fst (copy b o n)) = true <-> savable b o).
Proof. exact copy_iff. Qed.
Print Assumptions C41_copied_iff.

(** The copy is the same, field by field, except for the documented fields: an algorithm has a new executor of its
    kind, and a fitness that is not cached is not evaluated. *)
Theorem C41_restored : forall b o n o' m, proper o -> copy b o n = (Ok o', m) -> restored n m o o'.
Proof. exact copy_restored. Qed.
Print Assumptions C41_restored.

(** For fitness objects this is the function used in the rest of the model. *)
Theorem C41_fitness : forall b f n, copy b (fit_obj f) n = (Ok (fit_obj (fit_getstate f)), n).
Proof. exact copy_fitness. Qed.
Print Assumptions C41_fitness.

(** Without caching, a restored fitness can't be compared before it is evaluated again. *)
Theorem C41_comparison_raises : forall f g size gsize,
  is_simple_class (ft_class f) = true -> is_simple_class (ft_class g) = true -> ft_cache f = false ->
  simple_better_than (fit_getstate f) size g gsize = Raise ValueError /\
  (forall a, get_augmented_fitness g gsize = Ok a -> simple_better_than g gsize (fit_getstate f) size = Raise ValueError).
Proof. exact restored_raises. Qed.
Print Assumptions C41_comparison_raises.

(** Once [initialize] was called, the population evaluator refers to the executor: the algorithm can neither be
    pickled nor copied. *)
Theorem C41_initialized : forall b d d' t w s nm pe n,
  dget "executor" d = Some (OExec t w s) -> dget "population_evaluator" d = Some (OInst (COther nm) pe) ->
  attach_executor d = Ok d' -> is_ok (fst (copy b (OInst CAlgorithm d') n)) = false.
Proof. exact initialized_not_copied. Qed.
Print Assumptions C41_initialized.

(** An algorithm in parts. *)
Definition an_individual : obj := OInst (COther "IntVector")
  [("id", OAtom (AOpaque 7)); ("fitness", fit_obj (mkFit KSimple (VNum (Fin 5)) true (HB true) false false (Fin 0) PInf));
   ("vector", OList [OAtom (ANum (Fin 1)); OAtom (ANum (Fin 0))])].
Definition an_algorithm (mutation : obj) : dict :=
  [("population", OInst (COther "Population") [("sub_populations", OList [OInst (COther "Subpopulation")
      [("_operators_sequence", OList [mutation]); ("individuals", OList [an_individual])]])]);
   ("population_evaluator", OInst (COther "SimplePopulationEvaluator") [("arity", OAtom (ANum (Fin 0))); ("executor", OAtom ANone)]);
   ("max_workers", OAtom ANone); ("executor", OExec true (OAtom ANone) 0); ("_executor_type", OAtom (AStr "thread"))].
Definition a_crossover : obj := OInst (COther "SubtreeCrossover") [("probability", OAtom (ANum (Fin 1)))].
Definition a_bit_flip : obj := OInst (COther "BitStringVectorFlipMutation") [("mut_val_getter", OFun true 3)].

Theorem C41_checkpoint_refuted : exists d d', savable false (OInst CAlgorithm d) /\ attach_executor d = Ok d' /\
  fst (pickle_copy (OInst CAlgorithm d') 1) = Raise TypeError /\ fst (deepcopy (OInst CAlgorithm d') 1) = Raise TypeError.
Proof.
  exists (an_algorithm a_crossover). eexists. split.
  - apply (copy_iff false _ 1); [|vm_compute; reflexivity].
    apply properb_sound. vm_compute. reflexivity.
  - vm_compute. auto.
Qed.
Print Assumptions C41_checkpoint_refuted.

(** An algorithm with a bit flip mutation, whose value getter is a lambda, can be copied but not pickled. *)
Theorem C41_vector_mutation_refuted : exists d, is_ok (fst (deepcopy (OInst CAlgorithm d) 1)) = true /\
  fst (pickle_copy (OInst CAlgorithm d) 1) = Raise AttributeError.
Proof. exists (an_algorithm a_bit_flip). vm_compute. auto. Qed.
Print Assumptions C41_vector_mutation_refuted.

Definition path (o : obj) (l : list string) : option obj :=
  fold_left (fun o k => match o with Some (OInst _ d) => dget k d | Some (OList (x :: _)) => match x with OInst _ d => dget k d | _ => None end | _ => None end) l (Some o).
Example C41_example : let o := OInst CAlgorithm (an_algorithm a_crossover) in
  exists o', pickle_copy o 1 = (Ok o', 2) /\ path o' ["executor"] = Some (OExec true (OAtom ANone) 1) /\
    path o' ["population"; "sub_populations"; "individuals"; "vector"] = Some (OList [OAtom (ANum (Fin 1)); OAtom (ANum (Fin 0))]) /\
    path o ["population"; "sub_populations"; "individuals"; "fitness"; "fitness"] = Some (OAtom (ANum (Fin 5))) /\
    path o' ["population"; "sub_populations"; "individuals"; "fitness"; "fitness"] = Some (OAtom ANone).
Proof. eexists. vm_compute. repeat split; reflexivity. Qed.

Import Checkpoint WorldSpec IndSpec CheckpointP.

(** A population restored in another process: the individuals are the same but for the fitness that is not cached. *)
Theorem C41_population : forall w g o i, at_ w o = Some i ->
  exists i', at_ (restore_world w g) o = Some i' /\ i_id i' = i_id i /\ i_gen i' = i_gen i /\ i_genome i' = i_genome i /\
    i_parents i' = i_parents i /\ i_cloned_from i' = i_cloned_from i /\ i_selected_by i' = i_selected_by i /\ i_applied i' = i_applied i /\
    (ft_cache (i_fit i) = true -> i_fit i' = i_fit i) /\
    (ft_cache (i_fit i) = false -> ft_evaluated (i_fit i') = false /\ ft_value (i_fit i') = VNone /\ ft_hib (i_fit i') = ft_hib (i_fit i)).
Proof. exact population_restored. Qed.
Print Assumptions C41_population.

(** The counter of ids is not written: in the new process ids are given out again. *)
Theorem C41_ids_refuted : exists w, NoDup (ids w) /\ (forall z, In z (ids w) -> (1 <= z < w_next_id w)%Z) /\
  forall g f u gn, ~ NoDup (ids (snd (new_individual f u gn (restore_world w g)))).
Proof. exact ids_repeat. Qed.
Print Assumptions C41_ids_refuted.

Open Scope nat_scope.
Open Scope string_scope.

(** ** C62 *)

(** [get_params] returns the attributes, without the mark of fitting. *)
Theorem C62_get_params : forall w, exists p, get_params w = Ok p /\ dget "is_fitted_" p = None /\ forall k, k <> "is_fitted_" -> dget k p = dget k w.
Proof. exact params_read. Qed.
Print Assumptions C62_get_params.

(** [set_params] sets attributes of the wrapped algorithm and gives it a new executor; nothing else changes. *)
Theorem C62_set_params : forall ps w a n, NoDup (map fst ps) -> dget "algorithm" w = Some (OInst CAlgorithm a) ->
  dget "_executor_type" a <> None -> dget "max_workers" a <> None ->
  exists w' a', set_params ps w n = (Ok w', S n) /\ dget "algorithm" w' = Some (OInst CAlgorithm a') /\
    (forall k, k <> "algorithm" -> dget k w' = dget k w) /\
    (forall k, k <> "executor" -> dget k a' = match dget k ps with Some v => Some v | None => dget k a end) /\
    exists t b wk, dget "executor" a' = Some (OExec b wk n) /\ dget "_executor_type" a' = Some t /\ threads t b /\ dget "max_workers" a' = Some wk.
Proof. exact params_set. Qed.
Print Assumptions C62_set_params.

(** So the parameters that [get_params] returns can't be set: the old algorithm stays, with one more attribute. *)
Theorem C62_params_law_refuted : exists w a2 w', set_params [("algorithm", a2)] w 1 = (Ok w', 2) /\
  forall p, get_params w' = Ok p -> dget "algorithm" p <> Some a2.
Proof.
  exists [("algorithm", OInst CAlgorithm (an_algorithm a_crossover))], (OInst CAlgorithm (an_algorithm a_bit_flip)).
  eexists. split; [vm_compute; reflexivity|]. intros p [= <-]. vm_compute. discriminate.
Qed.
Print Assumptions C62_params_law_refuted.

(** [sklearn.base.clone] before fitting: a wrapper that is not fitted, around a copy of the algorithm. *)
Theorem C62_clone : forall w a n, ddel "is_fitted_" w = [("algorithm", a)] -> proper a -> savable true a ->
  exists a' m, clone_wrapper w n = (Ok [("algorithm", a')], m) /\ restored n m a a' /\ is_fitted [("algorithm", a')] = false.
Proof. exact wrapper_cloned. Qed.
Print Assumptions C62_clone.

(** After fitting, the algorithm was initialized: the wrapper can't be cloned any more. *)
Theorem C62_clone_fails : forall w a n, dget "algorithm" w = Some a -> ~ savable true a -> is_ok (fst (clone_wrapper w n)) = false.
Proof. exact wrapper_not_cloned. Qed.
Print Assumptions C62_clone_fails.

Theorem C62_clone_fitted_refuted : exists w w', is_ok (fst (clone_wrapper w 1)) = true /\ fit_wrapper attach_executor w = Ok w' /\
  is_fitted w' = true /\ fst (clone_wrapper w' 1) = Raise TypeError /\ fst (pickle_copy (OInst CWrapper w') 1) = Raise TypeError.
Proof.
  exists [("algorithm", OInst CAlgorithm (an_algorithm a_crossover))]. eexists. split; [vm_compute; reflexivity|].
  split; [vm_compute; reflexivity|]. vm_compute. repeat split; reflexivity.
Qed.
Print Assumptions C62_clone_fitted_refuted.

(** Fitting marks the wrapper as fitted, keeps what [evolve] made of the algorithm, and leaves other attributes; an exception
    of [evolve] is passed on. *)
Theorem C62_fit : forall evolve w w', fit_wrapper evolve w = Ok w' ->
  exists a a', dget "algorithm" w = Some (OInst CAlgorithm a) /\ evolve a = Ok a' /\ dget "algorithm" w' = Some (OInst CAlgorithm a') /\
    dget "is_fitted_" w' = Some (OAtom (ABool true)) /\ is_fitted w' = true /\
    forall k, k <> "algorithm" -> k <> "is_fitted_" -> dget k w' = dget k w.
Proof. exact wrapper_fit. Qed.
Print Assumptions C62_fit.

Theorem C62_fit_raises : forall evolve w a e, dget "algorithm" w = Some (OInst CAlgorithm a) -> evolve a = Raise e -> fit_wrapper evolve w = Raise e.
Proof. exact wrapper_fit_raises. Qed.
Print Assumptions C62_fit_raises.

(** A wrapper counts as fitted if it has an attribute whose name ends with "_" and does not begin with "__". *)
Theorem C62_fitted : forall w, is_fitted w = true <-> exists k v s, In (k, v) w /\ k = (s ++ "_")%string /\ forall t, k <> ("__" ++ t)%string.
Proof. exact fitted_mark. Qed.
Print Assumptions C62_fitted.

(** A wrapper that is read back is never fitted, so that it refuses to predict, even if it was fitted when saved. *)
Theorem C62_saved_unfitted : forall b w n o m, (forall k, In k (map fst w) -> k = "algorithm" \/ k = "is_fitted_") ->
  copy b (OInst CWrapper w) n = (Ok o, m) -> exists w', o = OInst CWrapper w' /\ is_fitted w' = false.
Proof. exact wrapper_saved_unfitted. Qed.
Print Assumptions C62_saved_unfitted.

Example C62_example :
  let w := [("algorithm", OInst CAlgorithm (an_algorithm a_crossover)); ("is_fitted_", OAtom (ABool true))] in
  is_fitted w = true /\
  exists w', set_params [("max_workers", OAtom (AOpaque 4)); ("elitism", OAtom (ABool true))] w 3 = (Ok w', 4) /\ is_fitted w' = true /\
    path (OInst CWrapper w') ["algorithm"; "executor"] = Some (OExec true (OAtom (AOpaque 4)) 3) /\
    path (OInst CWrapper w') ["algorithm"; "elitism"] = Some (OAtom (ABool true)) /\
  exists w2, pickle_copy (OInst CWrapper w) 5 = (Ok (OInst CWrapper w2), 6) /\ is_fitted w2 = false.
Proof. vm_compute. split; [reflexivity|]. eexists. repeat split. eexists. split; reflexivity. Qed.
