(** Properties of fitness objects: C01, C02, C03. *)
From Verif.Model Require Import Fitness.
From Verif.Spec Require Import FitnessSpec.
From Verif.Proofs Require Import FitnessP.

(** C01: what a fitness object answers is determined by the last call in its history. *)
Theorem C01_fitness_history : forall h f, is_simple_class (ft_class f) = true ->
  get_pure_fitness (run_calls h f) =
    match last_effect h with
    | None => get_pure_fitness f
    | Some (Some v) => Ok v
    | Some None => Raise ValueError
    end /\
  (is_fitness_evaluated (run_calls h f) = true <->
     ft_relative f = true \/ exists v, get_pure_fitness (run_calls h f) = Ok v).
Proof. exact history. Qed.
Print Assumptions C01_fitness_history.

Example C01_example :
  let f := mkFit (KGP (Fin (1 # 2))) VNone false (HB true) false false (Fin 0) PInf in
  is_simple_class (ft_class f) = true /\
  get_pure_fitness (run_calls [FSet (VNum (Fin 3)); FReset; FSet (VNum (Fin 7))] f) = Ok (VNum (Fin 7)) /\
  get_pure_fitness (run_calls [FSet (VNum (Fin 3)); FReset] f) = Raise ValueError.
Proof. repeat split. Qed.

(** The same for multi-objective fitness, where the first value stored since the last reset counts ... *)
Theorem C01_multi_objective : forall h f, ft_class f = KNSGA2 -> ft_evaluated f = false ->
  ft_class (run_calls h f) = KNSGA2 /\
  get_pure_fitness (run_calls h f) = match first_since_reset h with Some v => Ok v | None => Raise ValueError end.
Proof. exact nsga2_history. Qed.
Print Assumptions C01_multi_objective.

(** ... since a second one is refused ... *)
Theorem C01_multi_objective_once : forall h f v, ft_class f = KNSGA2 -> ft_evaluated f = false -> since_reset h <> [] ->
  set_fitness (run_calls h f) v = (Raise AttributeError, run_calls h f).
Proof. exact nsga2_set_twice. Qed.
Print Assumptions C01_multi_objective_once.

(** ... and a reset also forgets rank and crowding distance. *)
Theorem C01_multi_objective_reset : forall h f, ft_class f = KNSGA2 -> ft_evaluated f = false ->
  ft_rank (run_calls (h ++ [FReset]) f) = PInf /\ ft_crowding (run_calls (h ++ [FReset]) f) = Fin 0.
Proof. exact nsga2_reset. Qed.
Print Assumptions C01_multi_objective_reset.

Example C01_multi_objective_example :
  let f := mkFit KNSGA2 VNone false (HL [true; false]) false false (Fin 0) PInf in
  get_pure_fitness (run_calls [FSet (VList [Fin 3; Fin 4]); FSet (VList [Fin 1; Fin 1])] f) = Ok (VList [Fin 3; Fin 4]) /\
  get_pure_fitness (run_calls [FSet (VList [Fin 3; Fin 4]); FReset] (with_moo f (Fin 7) (Fin 2))) = Raise ValueError /\
  ft_rank (run_calls [FSet (VList [Fin 3; Fin 4]); FReset] (with_moo f (Fin 7) (Fin 2))) = PInf.
Proof. repeat split. Qed.

(** A new scalar fitness; context-dependent fitness is never cached ... *)
Theorem C01_new : forall c v hib cache relative f, simple_fitness_init c v hib cache relative = Ok f ->
  get_pure_fitness f = match v with VNone => Raise ValueError | _ => Ok v end /\
  ft_class f = c /\ ft_relative f = relative /\ hib = Some (hib_truthy (ft_hib f)) /\
  (ft_cache f = true <-> cache = true /\ relative = false).
Proof. exact new_fitness_state. Qed.
Print Assumptions C01_new.

(** ... so a copy of it has to be evaluated again. *)
Theorem C01_relative_not_copied : forall c v hib cache f, simple_fitness_init c v hib cache true = Ok f ->
  get_pure_fitness (fit_getstate f) = Raise ValueError.
Proof. exact relative_not_copied. Qed.
Print Assumptions C01_relative_not_copied.

(** A new multi-objective fitness has neither rank nor crowding distance; a single direction is used for all objectives. *)
Theorem C01_new_multi_objective : forall v hib cache relative f, nsga2_fitness_init v hib cache relative = Ok f ->
  ft_class f = KNSGA2 /\ get_pure_fitness f = match v with VNone => Raise ValueError | _ => Ok v end /\
  ft_rank f = PInf /\ ft_crowding f = Fin 0 /\ ft_relative f = relative /\ (ft_cache f = true <-> cache = true /\ relative = false) /\
  (forall l, hib = Some (HL l) -> ft_hib f = HL l) /\
  (forall b l, hib = Some (HB b) -> v = VList l -> ft_hib f = HL (repeat b (length l))) /\
  (forall b, hib = Some (HB b) -> v = VNone -> ft_hib f = HB b).
Proof. exact new_nsga2_state. Qed.
Print Assumptions C01_new_multi_objective.

Example C01_new_example :
  match simple_fitness_init KSimple (VNum (Fin 2)) (Some true) true true with
  | Ok f => get_pure_fitness f = Ok (VNum (Fin 2)) /\ ft_cache f = false /\ get_pure_fitness (fit_getstate f) = Raise ValueError
  | Raise _ => False
  end /\
  match nsga2_fitness_init (VList [Fin 2; Fin 3]) (Some (HB true)) true false with
  | Ok f => get_pure_fitness f = Ok (VList [Fin 2; Fin 3]) /\ ft_hib f = HL [true; true] /\ ft_cache f = true
  | Raise _ => False
  end /\ nsga2_fitness_init (VNum (Fin 2)) (Some (HB true)) false false = Raise TypeError.
Proof. repeat split. Qed.

(** C02: [better_than] follows the direction flag ... *)
Theorem C02_better_direction : forall f n g m a b, scores f n a -> scores g m b ->
  exists r, simple_better_than f n g m = Ok r /\ (r = true <-> better_score (hib_truthy (ft_hib f)) a b).
Proof. exact better_direction. Qed.
Print Assumptions C02_better_direction.

(** ... and is a strict weak order. *)
Theorem C02_irreflexive : forall f n a, scores f n a -> simple_better_than f n f n = Ok false.
Proof. exact better_irrefl. Qed.
Print Assumptions C02_irreflexive.

Theorem C02_asymmetric : forall f n g m a b, scores f n a -> scores g m b -> same_direction f g ->
  simple_better_than f n g m = Ok true -> simple_better_than g m f n = Ok false.
Proof. exact better_asym. Qed.
Print Assumptions C02_asymmetric.

Theorem C02_transitive : forall f n g m h k a b c, scores f n a -> scores g m b -> scores h k c ->
  same_direction f g -> same_direction g h ->
  simple_better_than f n g m = Ok true -> simple_better_than g m h k = Ok true ->
  simple_better_than f n h k = Ok true.
Proof. exact better_trans. Qed.
Print Assumptions C02_transitive.

Theorem C02_negatively_transitive : forall f n g m h k a b c, scores f n a -> scores g m b -> scores h k c ->
  same_direction f g -> same_direction g h ->
  simple_better_than f n g m = Ok false -> simple_better_than g m h k = Ok false ->
  simple_better_than f n h k = Ok false.
Proof. exact better_negtrans. Qed.
Print Assumptions C02_negatively_transitive.

Theorem C02_equal_is_incomparable : forall f n g m a b, scores f n a -> scores g m b -> same_direction f g ->
  exists e, simple_equal_to f n g m = Ok e /\
  (e = true <-> simple_better_than f n g m = Ok false /\ simple_better_than g m f n = Ok false).
Proof. exact equal_incomparable. Qed.
Print Assumptions C02_equal_is_incomparable.

(** The hypothesis [scores] is met by every evaluated finite fitness. *)
Theorem C02_finite_fitness_scores : forall f n s, is_simple_class (ft_class f) = true -> ft_evaluated f = true ->
  ft_value f = VNum (Fin s) ->
  match ft_class f with KGP w => is_fin w = true | _ => True end ->
  exists a, scores f n (Fin a).
Proof. exact finite_scores. Qed.
Print Assumptions C02_finite_fitness_scores.

(** Comparing with an unevaluated fitness is always an error. *)
Theorem C02_unevaluated_raises : forall f n g m,
  is_simple_class (ft_class f) = true -> is_simple_class (ft_class g) = true ->
  ft_evaluated f = false \/ ft_evaluated g = false ->
  (forall w, ft_class f = KGP w -> exists x, ft_value f = VNum x) ->
  simple_better_than f n g m = Raise ValueError /\ simple_equal_to f n g m = Raise ValueError.
Proof. exact unevaluated_raises. Qed.
Print Assumptions C02_unevaluated_raises.

(** A score is not comparable with a list of objectives, with None or with another object, and not equal to it. *)
Theorem C02_other_values : forall f n g m a v, scores f n a -> is_simple_class (ft_class g) = true -> ft_evaluated g = true ->
  get_augmented_fitness g m = Ok v -> (forall x, v <> VNum x) ->
  simple_better_than f n g m = Raise TypeError /\ simple_better_than g m f n = Raise TypeError /\
  simple_equal_to f n g m = Ok false /\ simple_equal_to g m f n = Ok false.
Proof. exact other_values. Qed.
Print Assumptions C02_other_values.

Example C02_other_values_example :
  let f := mkFit KSimple (VNum (Fin 5)) true (HB true) false false (Fin 0) PInf in
  let g := mkFit KSimple (VList [Fin 5]) true (HB true) false false (Fin 0) PInf in
  scores f 1 (Fin 5) /\ get_augmented_fitness g 1 = Ok (VList [Fin 5]) /\ simple_equal_to f 1 g 1 = Ok false.
Proof. repeat split. Qed.

(** Without the NaN restriction the order laws fail: neither better nor equal, not even equal to itself. *)
Theorem C02_nan_refuted : exists f g,
  ft_evaluated f = true /\ ft_evaluated g = true /\
  simple_better_than f 0 g 0 = Ok false /\ simple_better_than g 0 f 0 = Ok false /\
  simple_equal_to f 0 g 0 = Ok false /\ simple_equal_to f 0 f 0 = Ok false.
Proof. exact nan_not_trichotomous. Qed.
Print Assumptions C02_nan_refuted.

(** With different flags two fitnesses can both be better than the other: only the caller's flag is used. *)
Theorem C02_mixed_direction_refuted : exists f g,
  simple_better_than f 0 g 0 = Ok true /\ simple_better_than g 0 f 0 = Ok true.
Proof. exact mixed_flags_symmetric. Qed.
Print Assumptions C02_mixed_direction_refuted.

Example C02_example :
  let f := mkFit (KGP (Fin (1 # 10))) (VNum (Fin 5)) true (HB true) false false (Fin 0) PInf in
  let g := mkFit (KGP (Fin (1 # 10))) (VNum (Fin 4)) true (HB true) false false (Fin 0) PInf in
  (exists a, scores f 3 a) /\ (exists a, scores g 5 a) /\ same_direction f g /\
  simple_better_than f 3 g 5 = Ok true.
Proof. repeat split; eexists; repeat split. Qed.

(** C03: with a positive bloat weight the smaller of two equally good individuals is better. *)
Theorem C03_smaller_is_better : forall f g n m s w,
  ft_class f = KGP (Fin w) -> ft_class g = KGP (Fin w) -> (0 < w)%Q ->
  ft_evaluated f = true -> ft_evaluated g = true ->
  ft_value f = VNum (Fin s) -> ft_value g = VNum (Fin s) -> same_direction f g -> n < m ->
  simple_better_than f n g m = Ok true /\ simple_better_than g m f n = Ok false.
Proof. exact bloat_smaller_better. Qed.
Print Assumptions C03_smaller_is_better.

(** Every additional node costs exactly the weight, in both directions of optimisation. *)
Theorem C03_tradeoff : forall f g n m s t w,
  ft_class f = KGP (Fin w) -> ft_class g = KGP (Fin w) -> (0 < w)%Q ->
  ft_evaluated f = true -> ft_evaluated g = true ->
  ft_value f = VNum (Fin s) -> ft_value g = VNum (Fin t) -> same_direction f g ->
  exists r, simple_better_than f n g m = Ok r /\
    (r = true <-> if hib_truthy (ft_hib f)
                  then (t - s < w * (inject_Z (Z.of_nat m) - inject_Z (Z.of_nat n)))%Q
                  else (s - t < w * (inject_Z (Z.of_nat m) - inject_Z (Z.of_nat n)))%Q).
Proof. exact bloat_tradeoff. Qed.
Print Assumptions C03_tradeoff.

Theorem C03_antitone_and_pure_unaffected : forall f n m s w,
  ft_class f = KGP (Fin w) -> (0 < w)%Q -> ft_evaluated f = true -> ft_value f = VNum (Fin s) -> n <= m ->
  exists a b, get_augmented_fitness f n = Ok (VNum (Fin a)) /\ get_augmented_fitness f m = Ok (VNum (Fin b)) /\
    (if hib_truthy (ft_hib f) then (b <= a)%Q else (a <= b)%Q) /\ get_pure_fitness f = Ok (VNum (Fin s)).
Proof. exact bloat_antitone. Qed.
Print Assumptions C03_antitone_and_pure_unaffected.

Theorem C03_zero_weight : forall f n w, ft_class f = KGP w -> neq_num w (Fin 0) = true ->
  get_augmented_fitness f n = get_pure_fitness f.
Proof. exact bloat_zero. Qed.
Print Assumptions C03_zero_weight.

(** Infinite scores (and NaN) are not changed by the size. *)
Theorem C03_infinite : forall f n w x, ft_class f = KGP (Fin w) -> ft_evaluated f = true -> ft_value f = VNum x -> is_fin x = false ->
  get_augmented_fitness f n = Ok (VNum x).
Proof. exact bloat_infinite. Qed.
Print Assumptions C03_infinite.

Example C03_infinite_example :
  get_augmented_fitness (mkFit (KGP (Fin (1 # 10))) (VNum NInf) true (HB false) false false (Fin 0) PInf) 7 = Ok (VNum NInf).
Proof. reflexivity. Qed.

Example C03_example :
  let f := mkFit (KGP (Fin (1 # 10))) (VNum (Fin 4)) true (HB false) false false (Fin 0) PInf in
  (0 < 1 # 10)%Q /\ same_direction f f /\ simple_better_than f 3 f 5 = Ok true /\
  simple_better_than f 5 f 3 = Ok false.
Proof. repeat split. Qed.
