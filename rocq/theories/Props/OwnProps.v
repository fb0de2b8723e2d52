(** A run takes its random numbers only from the streams of its own seeds: C99. *)
From Coq Require Import Permutation QArith Lia.
From Verif.Model Require Import Num Rng Vector Tree World Creators Evolution Nsga2.
From Verif.Spec Require Import WorldSpec FitnessSpec VectorSpec EvoSpec CompleteSpec ShowSpec MoveSpec LimitSpec EverySpec OwnSpec.
From Verif.Proofs Require Import ChanceP CompleteVecP OwnP.
From Verif.Props Require Import CompleteProps ChanceProps EveryProps LimitProps.
From Verif.Model Require Import Num Rng Vector Tree World Creators Evolution Nsga2.
Open Scope string_scope.
Open Scope nat_scope.
Open Scope list_scope.

(** ** C99 *)

(** The state in which the generators were, and the numbers they would give for other seeds, do not matter: the run is the same, also when it
    ends with an exception. *)
Theorem C99_own_streams : forall ev sched n a w1 w2 r a' w1', evolve ev sched n (a, w1) = (r, (a', w1')) -> same_objects w1 w2 ->
  (forall z, In z (seeds (a_trace a')) -> same_stream z (w_rng w1) (w_rng w2)) ->
  exists w2', evolve ev sched n (a, w2) = (r, (a', w2')) /\ same_objects w1' w2'.
Proof. exact own_streams. Qed.
Print Assumptions C99_own_streams.

(** Where the streams differ for some seeds, the runs are the same until the first of these is used, if any is. *)
Theorem C99_same_until : forall ev sched n a w1 w2 zs, same_objects w1 w2 -> (forall z, In z zs -> same_stream z (w_rng w1) (w_rng w2)) ->
  let r1 := evolve ev sched n (a, w1) in let r2 := evolve ev sched n (a, w2) in
  (fst r1 = fst r2 /\ fst (snd r1) = fst (snd r2) /\ same_objects (snd (snd r1)) (snd (snd r2))) \/
  exists common z rest1 rest2, ~ In z zs /\ a_trace (fst (snd r1)) = common ++ TSeed z :: rest1 /\ a_trace (fst (snd r2)) = common ++ TSeed z :: rest2.
Proof. exact same_until. Qed.
Print Assumptions C99_same_until.

(** Both for the multi-objective algorithm. *)
Theorem C99_own_streams_moo : forall ev sched so d n a w1 w2 r a' w1', nsga2_evolve ev sched so d n (a, w1) = (r, (a', w1')) -> same_objects w1 w2 ->
  (forall z, In z (seeds (a_trace a')) -> same_stream z (w_rng w1) (w_rng w2)) ->
  exists w2', nsga2_evolve ev sched so d n (a, w2) = (r, (a', w2')) /\ same_objects w1' w2'.
Proof. exact own_streams_moo. Qed.
Print Assumptions C99_own_streams_moo.

Theorem C99_same_until_moo : forall ev sched so d n a w1 w2 zs, same_objects w1 w2 -> (forall z, In z zs -> same_stream z (w_rng w1) (w_rng w2)) ->
  let r1 := nsga2_evolve ev sched so d n (a, w1) in let r2 := nsga2_evolve ev sched so d n (a, w2) in
  (fst r1 = fst r2 /\ fst (snd r1) = fst (snd r2) /\ same_objects (snd (snd r1)) (snd (snd r2))) \/
  exists common z rest1 rest2, ~ In z zs /\ a_trace (fst (snd r1)) = common ++ TSeed z :: rest1 /\ a_trace (fst (snd r2)) = common ++ TSeed z :: rest2.
Proof. exact same_until_moo. Qed.
Print Assumptions C99_same_until_moo.

(** The seeds of a run: random_seed, and one for each generation, counted from generation_seed. *)
Theorem C99_seeds : forall ev sched n a w a' w' z, a_trace a = [] -> evolve ev sched n (a, w) = (Ok tt, (a', w')) -> In z (seeds (a_trace a')) ->
  z = a_random_seed a \/ exists k, 1 <= k <= a_max_gen a /\ z = ((a_gen_seed a + Z.of_nat k) mod 2 ^ 32)%Z.
Proof. exact own_seeds. Qed.
Print Assumptions C99_seeds.

(** Hence the numbers for later generations do not change earlier ones: where the streams of random_seed and of the seeds of generations 1 to
    [k] are the same, so are the first populations up to generation [k], individual by individual and genome by genome. *)
Theorem C99_past : forall G ev sched h s n a, gives_numbers ev -> total_on G ev -> fair sched -> a_trace a = [] -> (forall g, G g -> printable g) ->
  forall w1 w2 a1 w1' a2 w2' k, configured h a w1 s -> closed_under G w1 s -> same_objects w1 w2 ->
  (forall z, z = a_random_seed a \/ (exists j, 1 <= j <= k /\ z = seed_at a j) -> same_stream z (w_rng w1) (w_rng w2)) ->
  evolve ev sched n (a, w1) = (Ok tt, (a1, w1')) -> evolve ev sched n (a, w2) = (Ok tt, (a2, w2')) ->
  forall j, j <= k -> nth_error (evals (a_trace a1)) j = nth_error (evals (a_trace a2)) j /\
    forall l o, nth_error (evals (a_trace a1)) j = Some l -> In o l -> exists g, genome_now w1' o = Some g /\ genome_now w2' o = Some g.
Proof. exact the_past. Qed.
Print Assumptions C99_past.

(** *** Examples *)

(** The streams of [stream []] and [stream other] differ only for the seed 8 of generation 1, [later l] and [later l'] only for the seed 9 of
    generation 2; the generators of [elsewhere] are in the middle of the stream of another seed, where they would give other numbers. *)
Definition later (l : list N) : rng :=
  mkRng (fun s => if (s =? 9)%Z then drawn l else drawn [0; 1; 2; 3; 1]%N) (fun _ => drawn []) 0 0 0 0.
Definition elsewhere : rng :=
  mkRng (fun s => if (s =? 1234)%Z then drawn [7; 7; 7]%N else if (s =? 9)%Z then drawn other else drawn [0; 1; 2; 3; 1]%N) (fun s => if (s =? 55)%Z then drawn [5]%N else drawn []) 1234 2 55 6.
Definition the_run (g : rng) := evolve first_bit in_turn 1 (two_generations small_sub, with_rng nothing g).

Example C99_streams_example :
  let r := the_run (later other) in fst r = Ok tt /\ seeds (a_trace (fst (snd r))) = [7; 8; 9]%Z /\
  (forall z, In z (seeds (a_trace (fst (snd r)))) -> same_stream z (later other) elsewhere) /\ same_objects (with_rng nothing (later other)) (with_rng nothing elsewhere) /\
  fst (the_run elsewhere) = Ok tt /\ fst (snd (the_run elsewhere)) = fst (snd r).
Proof.
  cbv zeta. split; [vm_compute; reflexivity|]. assert (E : seeds (a_trace (fst (snd (the_run (later other))))) = [7; 8; 9]%Z) by (vm_compute; reflexivity).
  split; [exact E|]. rewrite E. split; [intros z [<-|[<-|[<-|[]]]]; split; reflexivity|]. split; [split; reflexivity|]. split; vm_compute; reflexivity.
Qed.

(** A run that fails, because the tournament asks for too many: the same exception with other generators. *)
Example C99_failing_example :
  let s := mkSub [CVector 2 small KInt KSimple false] [Fin 1] [redraw_all] [SelTournament 5 false 1] 2 (HB true) 0 None in
  let r g := evolve first_bit in_turn 1 (two_generations s, with_rng nothing g) in
  fst (r (later other)) = Raise ValueError /\ seeds (a_trace (fst (snd (r (later other))))) = [7; 8]%Z /\ fst (r elsewhere) = Raise ValueError.
Proof. vm_compute. auto. Qed.

(** Two runs that are the same until seed 9. *)
Example C99_until_example :
  (forall z, In z [7; 8]%Z -> same_stream z (later []) (later other)) /\
  exists common rest1 rest2, a_trace (fst (snd (the_run (later [])))) = common ++ TSeed 9 :: rest1 /\ a_trace (fst (snd (the_run (later other)))) = common ++ TSeed 9 :: rest2 /\
    evals common = [[0; 1]; [2; 3]] /\ genome_now (snd (snd (the_run (later [])))) 6 <> genome_now (snd (snd (the_run (later other)))) 6.
Proof.
  split; [intros z [<-|[<-|[]]]; split; reflexivity|]. exists (firstn 9 (a_trace (fst (snd (the_run (later [])))))).
  do 2 eexists. split; [vm_compute; reflexivity|]. split; [vm_compute; reflexivity|]. split; [vm_compute; reflexivity|]. vm_compute. discriminate.
Qed.

(** The hypotheses of [C99_past] hold for these two, with k = 1; generation 2 differs. *)
Example C99_past_example :
  gives_numbers first_bit /\ total_on (vectors KInt small 2) first_bit /\ fair in_turn /\ (forall g, vectors KInt small 2 g -> printable g) /\
  configured true (two_generations small_sub) (with_rng nothing (later [])) small_sub /\ closed_under (vectors KInt small 2) (with_rng nothing (later [])) small_sub /\
  (forall z, z = a_random_seed (two_generations small_sub) \/ (exists j, 1 <= j <= 1 /\ z = seed_at (two_generations small_sub) j) -> same_stream z (later []) (later other)) /\
  let r1 := the_run (later []) in let r2 := the_run (later other) in fst r1 = Ok tt /\ fst r2 = Ok tt /\
  nth_error (evals (a_trace (fst (snd r1)))) 1 = Some [2; 3] /\ nth_error (evals (a_trace (fst (snd r2)))) 1 = Some [2; 3] /\
  genome_now (snd (snd r1)) 3 = genome_now (snd (snd r2)) 3 /\
  nth_error (evals (a_trace (fst (snd r1)))) 2 = Some [6; 7] /\ genome_now (snd (snd r1)) 6 <> genome_now (snd (snd r2)) 6.
Proof.
  destruct (first_bit_total (vectors KInt small 2)) as [H1 H2]. destruct C98_vectors_example as (H3 & H4 & H5 & H6 & _).
  split; [exact H1|]. split; [exact H2|]. split; [exact H3|]. split; [intros g (v & -> & _); exact I|]. split; [apply (configured_rng _ _ _ _ (later [])) in H4; exact H4|]. split.
  - split; [eapply Forall_impl; [|exact H5]; intros op Hop; apply vector_closed, Hop|]. cbn [sp_inds small_sub]. intros c Hc. apply vector_creator_closed.
    rewrite Forall_forall in H6. apply H6, Hc.
  - split; [intros z [->|(j & Hj & ->)]; [split; reflexivity|assert (j = 1) as -> by lia; split; reflexivity]|].
    vm_compute. repeat (split; [reflexivity|]). discriminate.
Qed.

(** A multi-objective run with generators in another state. *)
Example C99_moo_example :
  let r g := nsga2_evolve trade forwards any_set true 1 (limited 2 [] moo_setup, mkWorld [] 1 g) in
  fst (r (later other)) = Ok tt /\ seeds (a_trace (fst (snd (r (later other))))) = [7; 8; 9]%Z /\ fst (snd (r elsewhere)) = fst (snd (r (later other))) /\
  genome_now (snd (snd (r (later (repeat 1%N 60))))) 0 <> genome_now (snd (snd (r (later other)))) 0.
Proof. vm_compute. repeat (split; [reflexivity|]). discriminate. Qed.
