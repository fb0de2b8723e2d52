(** Properties of subscribers and statistics: C72. *)
From Coq Require Import QArith.
From Verif.Model Require Import Evolution Nsga2 Statistics.
From Verif.Spec Require Import WorldSpec FitnessSpec VectorSpec TreeSpec EvoSpec CompleteSpec ShowSpec StatSpec.
From Verif.Proofs Require Import StatP.
From Verif.Props Require Import CompleteProps.
From Verif.Model Require Import Tree Creators Evolution Nsga2 Statistics.
Open Scope string_scope.
Open Scope nat_scope.
Open Scope list_scope.

(** ** C72 *)

(** Subscribers that only read do not influence a run: it ends in the same way and state as without them, unless one of them
    raises; then the exception ends the run at once, with the events so far a prefix of those of the undisturbed run and
    with the executor not shut down. *)
Theorem C72_observers : forall ev sched user stats a w out r a' w' out',
  (forall name cb, In cb (user name) -> only_reads cb) ->
  evolve_all ev sched user stats ((a, w), out) = (r, ((a', w'), out')) ->
  (exists ls, out' = out ++ ls) /\
  (evolve ev sched (length stats) (a, w) = (r, (a', w')) \/
   exists e, r = Raise e /\ subscriber_raises user stats e (a', w') /\ a_alive a' = a_alive a /\
     exists later, a_trace (fst (snd (evolve ev sched (length stats) (a, w)))) = a_trace a' ++ later).
Proof. exact observers. Qed.
Print Assumptions C72_observers.

(** The same for multi-objective runs. *)
Theorem C72_observers_moo : forall ev sched so d user stats a w out r a' w' out',
  (forall name cb, In cb (user name) -> only_reads cb) ->
  nsga2_evolve_all ev sched so d user stats ((a, w), out) = (r, ((a', w'), out')) ->
  (exists ls, out' = out ++ ls) /\
  (nsga2_evolve ev sched so d (length stats) (a, w) = (r, (a', w')) \/
   exists e, r = Raise e /\ subscriber_raises user stats e (a', w') /\ a_alive a' = a_alive a /\
     exists later, a_trace (fst (snd (nsga2_evolve ev sched so d (length stats) (a, w)))) = a_trace a' ++ later).
Proof. exact observers_moo. Qed.
Print Assumptions C72_observers_moo.

(** In a configured run the statistics report each generation 1, 2, ... once, in order, each about the individuals evaluated
    in that generation: the fitness of the best and of the worst, the mean fitness and the mean size.  The initial population
    is reported only if the run stops at it. *)
Theorem C72_reports : forall G ev sched h s user stats a w,
  gives_numbers ev -> total_on G ev -> fair sched -> a_trace a = [] -> a_stats a = 0 -> a_final a <> Some 0 ->
  configured h a w s -> closed_under G w s -> (forall g, G g -> printable g) ->
  (forall name cb, In cb (user name) -> forall d t, cb d t = (Ok tt, t)) ->
  exists a' w' first later ls, evolve ev sched (length stats) (a, w) = (Ok tt, (a', w')) /\
    evals (a_trace a') = first :: later /\
    (later = [] /\ reports h w' stats [(a_gen_num a, first)] ls /\ a_final a' = Some 0 \/
     reports h w' stats (combine (seq 1 (length later)) later) ls /\ a_final a' <> Some 0) /\
    forall out, evolve_all ev sched user stats ((a, w), out) = (Ok tt, ((a', w'), out ++ ls)).
Proof. exact run_reports. Qed.
Print Assumptions C72_reports.

(** The vector run of C63 with two statistics objects; and one that stops at the initial population. *)
Definition draws3 : list draw := [mkDraw 0 (1 # 2); mkDraw 1 (1 # 4); mkDraw 3 (3 # 4)].
Definition observed (ck : list checker) (user : string -> list (told -> O unit)) (stats : list stat) :=
  evolve_all first_cell in_turn user stats
    ((mkAlgo [vec_sub] 2 ck 7 7 ByMap true None None None 0 None 0 [], empty_world draws3), []).
Definition nobody (_ : string) : list (told -> O unit) := [].

Example C72_reports_hypotheses :
  a_trace (whole_run vec_sub) = [] /\ a_stats (whole_run vec_sub) = 0 /\ a_final (whole_run vec_sub) <> Some 0 /\
  forall name cb, In cb (nobody name) -> forall d t, cb d t = (Ok tt, t).
Proof. split; [reflexivity|]. split; [reflexivity|]. split; [discriminate|]. intros name cb []. Qed.

Definition kinds_of (l : list line) := map (fun x => match x with LGeneration g => (g, 0) | LSubpop i => (i, 1) | LValues vs => (length vs, 2) | LTold _ d => (length d, 3) end) l.

Example C72_reports_example :
  let out := snd (snd (observed [CkThreshold (Fin 9) (Fin 0)] nobody [SMinimal; SSizeTree])) in
  kinds_of out = [(1, 0); (1, 0); (0, 1); (4, 2); (2, 0); (2, 0); (0, 1); (4, 2)] /\
  map (fun x => match x with LValues [VNum b; VNum c; VNum m; VNum z] => nle c m && nle m b && nle z (Fin 3) && nle (Fin 3) z | _ => true end) out =
    repeat true 8.
Proof. split; vm_compute; reflexivity. Qed.

Example C72_initial_example :
  kinds_of (snd (snd (observed [CkThreshold (Fin 0) (Fin 100)] nobody [SBestAverageWorst]))) = [(0, 0); (0, 1); (3, 2)].
Proof. vm_compute. reflexivity. Qed.

(** A callback that raises in generation 1. *)
Definition stop_at_one (name : string) : list (told -> O unit) :=
  if String.eqb name "after_generation" then [fun _ s => (if Nat.eqb (a_gen_num (fst (fst s))) 1 then Raise KeyError else Ok tt, s)] else [].
Example C72_observers_example :
  (forall name cb, In cb (stop_at_one name) -> only_reads cb) /\
  fst (observed [] stop_at_one [SMinimal]) = Raise KeyError /\ a_alive (fst (fst (snd (observed [] stop_at_one [SMinimal])))) = true /\
  fst (observed [] nobody [SMinimal]) = Ok tt /\ a_alive (fst (fst (snd (observed [] nobody [SMinimal])))) = false.
Proof.
  split; [|vm_compute; repeat split; reflexivity].
  unfold stop_at_one. intros name cb H. destruct (String.eqb name "after_generation"); [destruct H as [<-|[]]; intros d s out; exists []; cbn; rewrite app_nil_r; reflexivity|destruct H].
Qed.
