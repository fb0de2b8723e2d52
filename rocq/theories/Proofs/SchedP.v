(** * The completion order of the evaluation tasks does not influence a run. *)
From Verif.Proofs Require Import Lib EvalP EvoFinalP.
From Verif.Model Require Import Evolution Nsga2.
From Verif.Spec Require Import WorldSpec EvoSpec.
Open Scope nat_scope.

(** The two computations agree on algorithms that use [executor.map], and leave that choice alone. *)
Definition agree {X} (m1 m2 : A X) : Prop := forall s, a_method (fst s) = ByMap -> m1 s = m2 s /\ a_method (fst (snd (m2 s))) = ByMap.

Lemma ag_bind {X Y} (m1 m2 : A X) (k1 k2 : X -> A Y) : agree m1 m2 -> (forall x, agree (k1 x) (k2 x)) -> agree (bind m1 k1) (bind m2 k2).
Proof.
  intros Hm Hk s Hs. destruct (Hm s Hs) as [E K]. unfold bind. rewrite E. destruct (m2 s) as [[x|e] s']; cbn in *; [|auto].
  apply Hk. exact K.
Qed.

Lemma ag_ret {X} (x : X) : agree (ret x) (ret x).
Proof. intros s Hs. auto. Qed.

Lemma ag_raise {X} e : agree (@raise _ X e) (raise e).
Proof. intros s Hs. auto. Qed.

Lemma ag_get : agree algo_get algo_get.
Proof. intros s Hs. auto. Qed.

Lemma ag_mod f : (forall a, a_method (f a) = a_method a) -> agree (algo_mod f) (algo_mod f).
Proof. intros H s Hs. split; [reflexivity|]. cbn. rewrite H. exact Hs. Qed.

Lemma ag_lift {X} (m : M X) : agree (liftM m) (liftM m).
Proof. intros s Hs. split; [reflexivity|]. unfold liftM. destruct (m (snd s)). exact Hs. Qed.

Lemma ag_publish name : agree (publish name) (publish name).
Proof. intros s Hs. split; [reflexivity|exact Hs]. Qed.

Lemma ag_seed z : agree (seed_generators z) (seed_generators z).
Proof. apply ag_bind; [apply ag_lift|]. intros _. apply ag_mod. reflexivity. Qed.

Lemma ag_show : agree show_best show_best.
Proof.
  apply ag_bind; [apply ag_get|]. intros x. destruct (a_best_run x); [|apply ag_raise]. apply ag_bind; [apply ag_lift|].
  intros i. unfold lift. intros s Hs. auto.
Qed.

Section Two.
  Variables ev1 ev2 : genome -> res fval.
  Variables s1 s2 : nat -> list nat.
  Hypothesis same_values : forall g, ev1 g = ev2 g.
  Hypothesis fair1 : fair s1.
  Hypothesis fair2 : fair s2.

  Lemma executor_same alive gs : executor_map ev1 s1 alive gs = executor_map ev2 s2 alive gs.
  Proof.
    destruct alive.
    - rewrite !executor_map_fair by assumption. f_equal. apply map_ext. exact same_values.
    - destruct gs; reflexivity.
  Qed.

  Lemma evaluate_same alive inds w : evaluate_inds ev1 s1 ByMap alive inds w = evaluate_inds ev2 s2 ByMap alive inds w.
  Proof. apply bind_ext. intros gs w1. rewrite executor_same. reflexivity. Qed.

  Lemma ag_evaluator : agree (act_evaluator ev1 s1) (act_evaluator ev2 s2).
  Proof.
    intros s Hs. unfold act_evaluator.
    assert (Ep : liftM (evaluate_population ev1 s1 (a_method (fst s)) (a_alive (fst s)) (a_pop (fst s))) s =
                 liftM (evaluate_population ev2 s2 (a_method (fst s)) (a_alive (fst s)) (a_pop (fst s))) s).
    { unfold liftM. rewrite Hs. unfold evaluate_population. destruct (a_pop (fst s)) as [|p [|? ?]]; try reflexivity.
      rewrite evaluate_same. reflexivity. }
    pose proof (ag_lift (evaluate_population ev2 s2 (a_method (fst s)) (a_alive (fst s)) (a_pop (fst s))) s Hs) as [_ K].
    assert (Eg : algo_get s = (Ok (fst s), s)) by reflexivity.
    rewrite !(bind_eq_ok _ _ _ _ _ Eg). 
    destruct (liftM (evaluate_population ev2 s2 (a_method (fst s)) (a_alive (fst s)) (a_pop (fst s))) s) as [[o|e] s'] eqn:E2.
    - rewrite (bind_eq_ok _ _ _ _ _ E2), (bind_eq_ok _ _ _ _ _ Ep). split; [reflexivity|exact K].
    - rewrite (bind_eq_raise _ _ _ _ _ E2), (bind_eq_raise _ _ _ _ _ Ep). split; [reflexivity|exact K].
  Qed.

  Ltac ag := repeat first
    [ assumption | apply ag_evaluator | apply ag_get | apply ag_lift | apply ag_publish | apply ag_seed | apply ag_ret | apply ag_raise
    | apply ag_mod; reflexivity | apply ag_bind; [|intros ?] ].

  Lemma ag_initialize n : agree (initialize ev1 s1 n) (initialize ev2 s2 n).
  Proof. unfold initialize. ag. Qed.

  Lemma ag_terminate : agree should_terminate should_terminate.
  Proof. unfold should_terminate. ag. destruct (a_best_run x); ag. Qed.

  Ltac ag2 := repeat first
    [ assumption | apply ag_initialize | apply ag_terminate | apply ag_get | apply ag_lift | apply ag_publish | apply ag_seed
    | apply ag_ret | apply ag_mod; reflexivity | apply ag_bind; [|intros ?] ].

  Lemma ag_generation : agree (generation_iteration ev1 s1) (generation_iteration ev2 s2).
  Proof.
    unfold generation_iteration. ag.
    - match goal with |- agree (match ?y with _ => _ end) _ => destruct y end; ag.
    - match goal with |- agree (if ?y then _ else _) _ => destruct y end; ag.
    - match goal with |- agree (match ?y with _ => _ end) _ => destruct y end; ag.
  Qed.

  Lemma ag_loop it1 it2 : agree it1 it2 -> forall todo gen, agree (main_loop it1 todo gen) (main_loop it2 todo gen).
  Proof.
    intros H todo. induction todo as [|todo IH]; intros gen; cbn [main_loop]; [apply ag_ret|].
    unfold update_gen. ag2.
    match goal with |- agree (if ?y then _ else _) _ => destruct y end; ag2. apply IH.
  Qed.

  Lemma ag_evolve_with it1 it2 f1 f2 n : agree it1 it2 -> agree f1 f2 -> agree (evolve_with ev1 s1 it1 f1 n) (evolve_with ev2 s2 it2 f2 n).
  Proof.
    intros H1 H2. unfold evolve_with. ag2.
    match goal with |- agree (if ?y then _ else _) _ => destruct y end; ag2. apply ag_loop. exact H1.
  Qed.
End Two.

Lemma run_determined ev1 ev2 s1 s2 n a hp id g1 g2 : (forall g, ev1 g = ev2 g) -> fair s1 -> fair s2 -> a_method a = ByMap ->
  r_py g1 = r_py g2 -> r_np g1 = r_np g2 ->
  evolve ev1 s1 n (a, mkWorld hp id g1) = evolve ev2 s2 n (a, mkWorld hp id g2).
Proof.
  intros He F1 F2 Hm Hp Hn. rewrite (evolve_prior_state ev1 s1 n a hp id g1 g2 Hp Hn).
  apply (ag_evolve_with ev1 ev2 s1 s2); auto.
  - apply ag_generation; auto.
  - unfold finish. apply ag_bind; [apply ag_mod; reflexivity|]. intros _. apply ag_show.
Qed.

Lemma nsga2_determined ev1 ev2 s1 s2 so b n a w : (forall g, ev1 g = ev2 g) -> fair s1 -> fair s2 -> a_method a = ByMap ->
  nsga2_evolve ev1 s1 so b n (a, w) = nsga2_evolve ev2 s2 so b n (a, w).
Proof.
  intros He F1 F2 Hm. apply (ag_evolve_with ev1 ev2 s1 s2); auto.
  - unfold nsga2_generation. repeat first
      [ apply ag_evaluator; assumption | apply ag_get | apply ag_lift | apply ag_mod; reflexivity | apply ag_bind; [|intros ?] ].
  - unfold nsga2_finish. apply ag_bind; [apply ag_show|]. intros _. apply ag_bind; [apply ag_get|]. intros x. destruct (a_best_run x); [|apply ag_raise].
    apply ag_bind; [apply ag_lift|]. intros _. apply ag_ret.
Qed.
