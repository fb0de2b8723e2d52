(** Runs that go on where another one ended: C100. *)
From Coq Require Import QArith.
From Verif.Model Require Import Rng Fitness Vector World Operators Selection Creators Evolution Nsga2.
From Verif.Spec Require Import WorldSpec FitnessSpec SelSpec EvoSpec LimitSpec ResumeSpec.
From Verif.Proofs Require Import ResumeP.
From Verif.Props Require Import LimitProps.
From Verif.Model Require Import Evolution Nsga2.
Open Scope nat_scope.
Open Scope list_scope.

(** ** C100 *)

(** A run of [k] generations, and a second algorithm which is given its last population and its last generation seed and runs for [m]
    generations, breed the same as one run of [k + m] generations. The second run evaluates the given population again, which changes nothing;
    then the same individuals are evaluated, and in the end all individuals are the same, except that their generations are counted anew. *)
Theorem C100_resumed : forall ev sched h n n' k m a w a1 w1 b a2 w2 a3 w3, gives_numbers ev -> fair sched -> a_trace a = [] -> a_method a = ByMap ->
  scalar_population w h (a_pop a) ->
  evolve ev sched n (limited k [] a, w) = (Ok tt, (a1, w1)) -> resumes m a1 b ->
  evolve ev sched n' (b, w1) = (Ok tt, (a2, w2)) ->
  evolve ev sched n (limited (k + m) [] a, w) = (Ok tt, (a3, w3)) ->
  a_pop a3 = a_pop a2 /\ a_gen_seed a3 = a_gen_seed a2 /\ (m <> 0 -> a_best_gen a3 = a_best_gen a2) /\
  (exists more, evals (a_trace a2) = flat_map inds_of (a_pop a1) :: more /\ evals (a_trace a3) = evals (a_trace a1) ++ more) /\
  Forall2 same_but_gen (w_heap w3) (w_heap w2) /\ w_next_id w3 = w_next_id w2.
Proof. exact resumed. Qed.
Print Assumptions C100_resumed.

(** The best individual of the long run is as good as the better one of the best individuals of the two runs. *)
Theorem C100_best : forall ev sched h n n' k m a w a1 w1 b a2 w2 a3 w3, gives_numbers ev -> fair sched -> a_trace a = [] -> a_method a = ByMap ->
  scalar_population w h (a_pop a) ->
  evolve ev sched n (limited k [] a, w) = (Ok tt, (a1, w1)) -> resumes m a1 b ->
  evolve ev sched n' (b, w1) = (Ok tt, (a2, w2)) ->
  evolve ev sched n (limited (k + m) [] a, w) = (Ok tt, (a3, w3)) ->
  exists b1 b2 b3 x y z, a_best_run a1 = Some b1 /\ a_best_run a2 = Some b2 /\ a_best_run a3 = Some b3 /\
    scored w3 b1 x /\ scored w3 b2 y /\ scored w3 b3 z /\
    ~ better_score h x z /\ ~ better_score h y z /\ (~ better_score h z x \/ ~ better_score h z y).
Proof. exact resumed_best. Qed.
Print Assumptions C100_best.

(** NSGA-II cannot be resumed like this: the evaluated individuals it is given cannot be evaluated again. *)
Theorem C100_moo_given : forall ev sched so d n a w s o l i v, fair sched -> a_pop a = [s] -> sp_inds s = Some (o :: l) -> a_method a = ByMap -> a_alive a = true ->
  at_ w o = Some i -> ft_class (i_fit i) = KNSGA2 -> ft_evaluated (i_fit i) = true -> ev (i_genome i) = Ok v -> present l w ->
  exists a2 w2, nsga2_evolve ev sched so d n (a, w) = (Raise AttributeError, (a2, w2)) /\ w_heap w2 = w_heap w /\ a_pop a2 = a_pop a.
Proof. exact moo_given. Qed.
Print Assumptions C100_moo_given.

(** ** A run of one generation that is resumed for two *)

(** Each seed has numbers of its own. *)
Definition mixed : rng :=
  mkRng (fun s i => mkDraw (N.of_nat (i + 3 * Z.to_nat s) mod 5)%N (Qmake (Z.of_nat (i * i + 5 * Z.to_nat s) mod 7)%Z 8)) (fun s i => mkDraw (N.of_nat i) (1 # 2)) 0 0 0 0.
Definition begin : world := mkWorld [] 1 mixed.
Definition goes (m : nat) := evolve cell0 forwards 1 (limited m [] setup, begin).
Definition first := snd (goes 1).
Definition next (f : algo) : algo := mkAlgo (a_pop f) 2 [] 99 (a_gen_seed f) ByMap true None None None 0 None 0 [].
Definition second := evolve cell0 forwards 1 (next (fst first), snd first).

Example C100_resumed_example :
  fst (goes 1) = Ok tt /\ fst second = Ok tt /\ fst (goes 3) = Ok tt /\ resumes 2 (fst first) (next (fst first)) /\
  length (evals (a_trace (fst (snd second)))) = 3 /\ length (evals (a_trace (fst (snd (goes 3))))) = 4 /\
  map i_genome (w_heap (snd (snd (goes 3)))) = map i_genome (w_heap (snd (snd second))) /\
  map i_gen (w_heap (snd (snd (goes 3)))) <> map i_gen (w_heap (snd (snd second))).
Proof.
  assert (N : forall f, resumes 2 f (next f)) by (intros f; repeat split).
  split; [vm_compute; reflexivity|]. split; [vm_compute; reflexivity|]. split; [vm_compute; reflexivity|]. split; [apply N|].
  vm_compute. repeat split. discriminate.
Qed.

(** Without the last generation seed (the new algorithm starts from its own random_seed, the default) the run goes on otherwise. *)
Theorem C100_fresh_seed_refuted : exists ev sched n k m a w,
  let one := evolve ev sched n (limited k [] a, w) in
  let two := evolve ev sched n (mkAlgo (a_pop (fst (snd one))) m [] (a_random_seed a) (a_random_seed a) ByMap true None None None 0 None 0 [], snd (snd one)) in
  let whole := evolve ev sched n (limited (k + m) [] a, w) in
  fst one = Ok tt /\ fst two = Ok tt /\ fst whole = Ok tt /\ map i_genome (w_heap (snd (snd whole))) <> map i_genome (w_heap (snd (snd two))).
Proof. exists cell0, forwards, 1, 1, 2, setup, begin. vm_compute. repeat split. discriminate. Qed.
Print Assumptions C100_fresh_seed_refuted.

(** The last population of an NSGA-II run, given to a new one. *)
Example C100_moo_example :
  let one := nsga2_evolve trade forwards any_set true 1 (limited 1 [] moo_setup, start) in
  fst one = Ok tt /\
  (exists s o l i, a_pop (fst (snd one)) = [s] /\ sp_inds s = Some (o :: l) /\ at_ (snd (snd one)) o = Some i /\ ft_class (i_fit i) = KNSGA2 /\ ft_evaluated (i_fit i) = true) /\
  fst (nsga2_evolve trade forwards any_set true 1 (next (fst (snd one)), snd (snd one))) = Raise AttributeError.
Proof. vm_compute. split; [reflexivity|]. split; [|reflexivity]. do 4 eexists. repeat split. Qed.

(** The long run keeps the best individual of the first part; the second run knows only those of the last population and of its own. *)
Example C100_best_example :
  a_best_run (fst first) <> None /\ a_best_run (fst (snd second)) <> None /\ a_best_run (fst (snd (goes 3))) <> None /\
  length (w_heap (snd (snd (goes 3)))) = length (w_heap (snd (snd second))).
Proof. vm_compute. repeat split; discriminate. Qed.
