(** * Vocabulary for evaluation and whole runs. *)
From Coq Require Import Permutation QArith Qabs Qminmax.
From Verif.Model Require Import Evolution.
From Verif.Spec Require Import WorldSpec FitnessSpec SelSpec.

(** Whatever number of tasks is submitted, each of them completes once, in any order. *)
Definition fair (sched : nat -> list nat) : Prop := forall n, Permutation (sched n) (seq 0 n).

(** A scalar fitness object of direction [h]: SimpleFitness, or GPFitness with a finite bloat weight. *)
Definition scalar_fit (h : bool) (f : fitness) : Prop :=
  is_simple_class (ft_class f) = true /\ hib_truthy (ft_hib f) = h /\
  match ft_class f with KGP w => is_fin w = true | _ => True end.

Definition scalar_at (w : world) (h : bool) (o : oid) : Prop :=
  exists i, at_ w o = Some i /\ scalar_fit h (i_fit i).

(** A SimpleFitness or GPFitness, evaluated or not. *)
Definition simple_at (w : world) (o : oid) : Prop := exists i, at_ w o = Some i /\ is_simple_class (ft_class (i_fit i)) = true.

(** Nothing but the individuals changed. *)
Definition same_but_heap (w w' : world) : Prop :=
  w_next_id w' = w_next_id w /\ w_rng w' = w_rng w /\ length (w_heap w') = length (w_heap w).

(** The creator makes individuals with scalar fitness. *)
Definition scalar_creator (c : creator) : Prop :=
  match c with
  | CVector _ _ _ fc _ => is_simple_class fc = true /\ match fc with KGP w => is_fin w = true | _ => True end
  | CGP _ p => is_fin (g_bloat p) = true
  | CHalf _ _ p q => is_fin (g_bloat p) = true /\ is_fin (g_bloat q) = true
  end.

(** One subpopulation, with scalar fitness of direction [h]: given individuals or creators. *)
Definition scalar_population (w : world) (h : bool) (pop : list subpop) : Prop :=
  exists s, pop = [s] /\
    match sp_inds s with
    | Some l => forall o, In o l -> scalar_at w h o
    | None => hib_truthy (sp_hib s) = h /\ forall c, In c (sp_creators s) -> scalar_creator c
    end.

(** The fitness function gives numbers (or raises). *)
Definition gives_numbers (ev : genome -> res fval) : Prop :=
  forall g v, ev g = Ok v -> exists x, v = VNum x /\ is_nan x = false.

(** [o] carries the value the fitness function gives to its genome. *)
Definition has_value (ev : genome -> res fval) (w : world) (o : oid) : Prop :=
  exists i v, at_ w o = Some i /\ ev (i_genome i) = Ok v /\ get_pure_fitness (i_fit i) = Ok v.

(** What evaluation does to an individual: it stores the value of its genome, and changes nothing else. *)
Definition evaluated_into (ev : genome -> res fval) (i j : ind) : Prop :=
  exists v, ev (i_genome i) = Ok v /\ j = set_fit (with_value (i_fit i) v true) i.

(** ** Reading a run *)

Definition seeds (tr : list tev) : list Z := flat_map (fun e => match e with TSeed s => [s] | _ => [] end) tr.
Definition evals (tr : list tev) : list (list oid) := flat_map (fun e => match e with TEval l => [l] | _ => [] end) tr.
Definition checks (tr : list tev) : list (list bool) := flat_map (fun e => match e with TCheck l => [l] | _ => [] end) tr.
(** Generation numbers with which the event was published. *)
Definition published (name : string) (tr : list tev) : list nat :=
  flat_map (fun e => match e with TPublish n g _ _ => if String.eqb n name then [g] else [] | _ => [] end) tr.
(** best_of_run_ and what it looked like, at each published event. *)
Definition recorded (tr : list tev) : list (oid * ind) :=
  flat_map (fun e => match e with TPublish _ _ (Some o) (Some i) => [(o, i)] | _ => [] end) tr.

(** The kind of an event, without its data. *)
Inductive kind := Seed | Eval | Breed | Check | Publish (name : string).
Definition kind_of (e : tev) : kind :=
  match e with
  | TSeed _ => Seed | TEval _ => Eval | TBreed => Breed | TCheck _ => Check | TPublish n _ _ _ => Publish n
  end.

Definition some_true (l : list bool) : Prop := In true l.

(** [j] is not worse than [i], if both have a score. *)
Definition no_worse (h : bool) (i j : ind) : Prop :=
  forall x y, scores (i_fit i) (isize i) x -> scores (i_fit j) (isize j) y -> ~ better_score h x y.

(** The events of one generation. *)
Definition generation_events : list kind := [Seed; Breed; Eval; Check; Publish "after_generation"].

(** A completed run that started with the algorithm object [a], with the events [tr], the number [k] of
    generations, and the final value [final] of final_generation_. *)
Definition well_run (a : algo) (tr : list tev) (final : option nat) : Prop :=
  exists k stop0 pre lastc, k <= a_max_gen a /\ (stop0 = true -> k = 0) /\
    map kind_of tr = [Seed; Eval; Publish "init"; Check] ++
      (if stop0 then [Publish "after_generation"] else concat (repeat generation_events k)) ++ [Publish "evolution_finished"] /\
    published "after_generation" tr = (if stop0 then [a_gen_num a] else seq 1 k) /\
    seeds tr = a_random_seed a :: map (fun g => ((a_gen_seed a + Z.of_nat g) mod 2 ^ 32)%Z) (seq 1 k) /\
    checks tr = pre ++ [lastc] /\ (forall c, In c pre -> ~ some_true c) /\
    (forall c, In c (checks tr) -> length c = length (a_checkers a)) /\
    (stop0 = true <-> pre = [] /\ some_true lastc) /\
    (some_true lastc -> final = Some k) /\
    (~ some_true lastc -> k = a_max_gen a /\ final = a_final a).

(** ** Termination checkers *)

(** math.isclose with its default tolerances, on finite numbers. *)
Definition close_to (x y : Q) : Prop := (Qabs (x - y) <= (1 # 1000000000) * Qmax (Qabs x) (Qabs y))%Q.

(** Positions where a new reference value is taken: the first one, and each first value that is not close to the
    reference. *)
Inductive reference (v : nat -> Q) : nat -> Prop :=
| ref_first : reference v 0
| ref_next p s : reference v p -> p < s -> (forall j, p < j < s -> close_to (v j) (v p)) -> ~ close_to (v s) (v p) -> reference v s.

(** The best individual of the only subpopulation has pure fitness [q]. *)
Definition best_value (call : list subpop * world) (q : Q) : Prop :=
  exists s h score o i, fst call = [s] /\ sp_hib s = HB h /\ (forall p, In p (inds_of s) -> scored (snd call) p (score p)) /\
    first_best h score (inds_of s) o /\ at_ (snd call) o = Some i /\ get_pure_fitness (i_fit i) = Ok (VNum (Fin q)).

(** Successive calls of a checker, keeping its state, whatever best_of_run_ and the generation number are. *)
Inductive asked : checker -> list (list subpop * world) -> list bool -> Prop :=
| asked_nil c : asked c [] []
| asked_cons c c' pop w b w' calls answers : (forall best gen, run_checker pop best gen c w = (Ok (b, c'), w')) ->
    asked c' calls answers -> asked c ((pop, w) :: calls) (b :: answers).

(** There is a current reference value at least [limit] (and at least one) calls old, and all values since then are
    close to it. *)
Definition stagnant (v : nat -> Q) (limit t : nat) : Prop :=
  exists s, reference v s /\ (forall j, s < j <= t -> close_to (v j) (v s)) /\ s + Nat.max 1 limit <= t.
