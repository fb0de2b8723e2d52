(** Proofs about a second run, and about the termination checkers (C38, C39, C42). *)
From Verif.Proofs Require Export OnceP.
From Verif.Model Require Import Tree World Evolution.
Open Scope nat_scope.

(** The population can be evaluated. *)
Definition ready (a : algo) (w : world) : Prop :=
  exists s l, a_pop a = [s] /\ sp_inds s = Some l /\ l <> [] /\ present l w.

Lemma ready_move a a' w w' : a_pop a' = a_pop a -> kinds w w' -> ready a w -> ready a' w'.
Proof. intros E K (s & l & A & B & C & D). exists s, l. rewrite E. split; [exact A|]. split; [exact B|]. split; [exact C|]. eapply kinds_present; eauto. Qed.

Lemma evaluated_ready ev sched m alive l w b w' : evaluate_inds ev sched m alive l w = (Ok b, w') -> l <> [] /\ present l w'.
Proof.
  intros H. pose proof (kinds_evaluate ev sched m alive l w) as K. rewrite H in K. simpl in K. split.
  - intros ->. unfold evaluate_inds in H. mb H as gs w1 E. mb H as rs w2 E1. destruct m.
    + mb H as u w3 E2. discriminate.
    + mb H as outs w3 E2. mb H as us w4 E3. mb H as u w5 E4. discriminate.
  - unfold evaluate_inds in H. mb H as gs w1 E. apply load_genomes_ok in E. destruct E as (-> & P & _). eapply kinds_present; eauto.
Qed.

Lemma breed_some pop w pop' w' : breed pop w = (Ok pop', w') -> forall s, In s pop' -> exists l, sp_inds s = Some l.
Proof.
  revert w pop' w'. unfold breed. induction pop as [|s pop IH]; intros w pop' w' H t Ht; simpl in H; [mr H; destruct Ht|].
  mb H as s' w1 E. mb H as rest w2 E1. mr H. destruct Ht as [<-|Ht]; [|eapply IH; eauto].
  unfold breed_subpop in E. mb E as u v E2. mb E as el v1 E3. destruct (sp_sels s) as [|sel sels]; [discriminate|].
  mb E as chosen v2 E4. mb E as next v3 E5. mr E. exists next. reflexivity.
Qed.

Lemma ready_iteration ev sched a w a' w' : generation_iteration ev sched (a, w) = (Ok tt, (a', w')) -> ready a' w'.
Proof.
  intros E. apply iteration_ok in E.
  destruct E as (pop & w1 & best & w2 & c & worst & E1 & E2 & E3 & _ & ->).
  unfold evaluate_population in E2. destruct pop as [|s [|? ?]]; try discriminate.
  destruct (breed_some _ _ _ _ E1 s) as (l & El); [left; reflexivity|].
  apply evaluated_ready in E2. unfold inds_of in E2. rewrite El in E2. destruct E2 as [N P].
  assert (K3 : kinds w2 w').
  { destruct (a_best_run a) as [r|]; [|destruct E3 as [_ ->]; reflexivity]. pose proof (g_better kinds kinds_rng best r w2) as K. rewrite E3 in K. exact K. }
  exists s, l. split; [unfold after_breeding; destruct c; reflexivity|]. split; [exact El|]. split; [exact N|]. eapply kinds_present; eauto.
Qed.

Lemma ready_terminate a w st a' w' : ready a w -> should_terminate (a, w) = (Ok st, (a', w')) -> ready a' w'.
Proof.
  intros H E. apply terminate_ok in E. destruct E as (-> & best & ans & cs & _ & _ & -> & _). eapply ready_move; [| |exact H]; reflexivity.
Qed.

Lemma ready_loop ev sched todo : forall g a w a' w', ready a w ->
  main_loop (generation_iteration ev sched) todo g (a, w) = (Ok tt, (a', w')) -> ready a' w'.
Proof.
  induction todo as [|todo IH]; intros g a w a' w' H E; [simpl in E; unfold ret in E; injection E as <- <-; exact H|].
  rewrite main_loop_body in E. mb E as st s E1. destruct s as [a1 w1].
  assert (R1 : ready a1 w1).
  { apply body_ok in E1. destruct E1 as (v1 & a2 & w2 & _ & _ & Ea & Eb). eapply ready_terminate; [|exact Eb]. eapply ready_iteration; exact Ea. }
  destruct st.
  - mb E as x s E2. unfold algo_mod in E2. simpl in E2. injection E2 as _ <-. rewrite publish_eq in E. injection E as <- <-.
    eapply ready_move; [| |exact R1]; reflexivity.
  - mb E as x s E2. rewrite publish_eq in E2. injection E2 as _ <-. eapply IH; [|exact E]. eapply ready_move; [| |exact R1]; reflexivity.
Qed.

Lemma ready_init ev sched n a w a' w' : initialize ev sched n (a, w) = (Ok tt, (a', w')) -> ready a' w'.
Proof.
  intros E. apply init_ok in E. destruct E as (pop & w1 & best & E1 & E2 & ->).
  unfold evaluate_population in E2. destruct pop as [|s' [|? ?]]; [discriminate| |discriminate].
  apply evaluated_ready in E2. destruct E2 as [N P].
  assert (S : exists l, sp_inds s' = Some l).
  { assert (L : length [s'] = length (a_pop a)) by (eapply mapM_length; exact E1).
    destruct (a_pop a) as [|s [|? ?]]; [discriminate| |discriminate]. simpl in E1. mb E1 as x v E. mr E1.
    unfold create_subpopulation in E. destruct (sp_inds s) as [l|] eqn:El; [unfold ret in E; injection E as <- _; eauto|].
    mb E as c w3 E4. mb E as l w4 E5. mr E. eexists; reflexivity. }
  destruct S as (l & El). unfold inds_of in N, P. rewrite El in N, P. exists s', l. split; [reflexivity|]. auto.
Qed.

Lemma evolve_ready ev sched n a w a' w' : evolve ev sched n (a, w) = (Ok tt, (a', w')) -> ready a' w' /\ a_alive a' = false.
Proof.
  intros E. unfold evolve in E. apply evolve_ok in E. destruct E as (a1 & w1 & st & a2 & a3 & w3 & E1 & E2 & E3 & E4).
  apply ready_init in E1. apply ready_terminate in E2; [|exact E1]. apply finish_ok in E4. destruct E4 as [-> ->].
  split; [|reflexivity].
  assert (H3 : ready a3 w3).
  { destruct st; [destruct E3 as [-> ->]; eapply ready_move; [| |exact E2]; reflexivity|eapply ready_loop; eauto]. }
  eapply ready_move; [| |exact H3]; reflexivity.
Qed.

(** C42 *)
Lemma evolve_twice ev sched n a w a' w' ev' sched' n' : evolve ev sched n (a, w) = (Ok tt, (a', w')) ->
  exists a2 w2, evolve ev' sched' n' (a', w') = (Raise RuntimeError, (a2, w2)) /\
    w_heap w2 = w_heap w' /\ a_pop a2 = a_pop a' /\ a_best_run a2 = a_best_run a'.
Proof.
  intros E. apply evolve_ready in E. destruct E as [(s & l & Es & El & Nl & Pl) Ha].
  unfold evolve, evolve_with, initialize.
  set (w1 := mkWorld (w_heap w') (w_next_id w') (snd (set_seed (a_random_seed a') (w_rng w')))).
  exists (set_pop [s] (add_trace (TSeed (a_random_seed a')) a')), w1.
  split; [|split; [reflexivity|split; [symmetry; exact Es|reflexivity]]].
  assert (Ev : evaluate_inds ev' sched' (a_method a') false l w1 = (Raise RuntimeError, w1)) by (apply evaluate_dead; [exact Pl|exact Nl]).
  assert (Ei : initialize ev' sched' n' (a', w') = (Raise RuntimeError, (set_pop [s] (add_trace (TSeed (a_random_seed a')) a'), w1))).
  { unfold initialize.
    rewrite (bind_eq_ok _ _ _ a' (a', w')) by reflexivity.
    rewrite (bind_eq_ok _ _ _ tt (add_trace (TSeed (a_random_seed a')) a', w1)) by reflexivity.
    rewrite (bind_eq_ok _ _ _ [s] (add_trace (TSeed (a_random_seed a')) a', w1))
      by (rewrite Es; unfold liftM; simpl; unfold bind, create_subpopulation; rewrite El; reflexivity).
    rewrite (bind_eq_ok _ _ _ tt (set_pop [s] (add_trace (TSeed (a_random_seed a')) a'), w1)) by reflexivity.
    apply bind_eq_raise. unfold act_evaluator. set (b := set_pop [s] _).
    rewrite (bind_eq_ok _ _ _ b (b, w1)) by reflexivity. apply bind_eq_raise.
    unfold liftM. simpl. rewrite Ha. unfold inds_of. rewrite El, Ev. reflexivity. }
  fold (initialize ev' sched' n'). rewrite (bind_eq_raise _ _ _ _ _ Ei). reflexivity.
Qed.
