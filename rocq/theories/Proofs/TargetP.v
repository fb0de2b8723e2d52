(** * Runs with a target: final_generation_ is set exactly if the target is reached. *)
From Coq Require Import Lia QArith.
From Verif.Proofs Require Import CheckP TraceP.
From Verif.Model Require Import World Evolution.
From Verif.Spec Require Import WorldSpec FitnessSpec EvoSpec.
Open Scope nat_scope.
Open Scope list_scope.

(** The fitness of best_of_run_ is [x]. *)
Definition best_fitness (a : algo) (w : world) (x : num) : Prop :=
  exists b i, a_best_run a = Some b /\ at_ w b = Some i /\ get_pure_fitness (i_fit i) = Ok (VNum x).

Lemma threshold_check opt th a w st a' w' : a_checkers a = [CkThreshold opt th] -> should_terminate (a, w) = (Ok st, (a', w')) ->
  w' = w /\ a_checkers a' = [CkThreshold opt th] /\ a_final a' = a_final a /\ a_max_gen a' = a_max_gen a /\
  exists x, best_fitness a' w x /\ st = nle (nabs (nsub x opt)) th.
Proof.
  intros Hc H. apply terminate_ok in H. destruct H as (-> & best & ans & cs & B & R & -> & ->). split; [reflexivity|]. rewrite Hc in R.
  unfold run_checkers in R. mb R as rs w1 E. mr R. cbn [mapM] in E. mb E as p w2 E1. mb E as ps w3 E2. mr E2. mr E.
  cbn [run_checker] in E1. mb E1 as v w4 Ev. mb E1 as ok w5 Et. mr E1. unfold lift in Et. injection Et as Et _.
  unfold threshold_met in Et. destruct v as [|x| |]; try discriminate. cbn [as_num rbind] in Et. injection Et as <-.
  cbn. split; [reflexivity|]. split; [reflexivity|]. split; [reflexivity|]. exists x. rewrite Bool.orb_false_r. split; [|reflexivity].
  unfold pure_fitness in Ev. mb Ev as i w6 El. unfold load in El. destruct (nth_error (w_heap w) best) as [j|] eqn:Ej; [|discriminate].
  injection El as <- <-. unfold lift in Ev. injection Ev as Ev _. exists best, j. auto.
Qed.

Lemma target_loop ev sched opt th : forall todo gen a w a' w', a_checkers a = [CkThreshold opt th] -> a_final a = None ->
  (exists x, best_fitness a w x /\ nle (nabs (nsub x opt)) th = false) ->
  main_loop (generation_iteration ev sched) todo gen (a, w) = (Ok tt, (a', w')) ->
  exists x, best_fitness a' w' x /\ (a_final a' <> None <-> nle (nabs (nsub x opt)) th = true).
Proof.
  induction todo as [|todo IH]; intros gen a w a' w' Hc Hf (x & Hx & Nx) H.
  - cbn [main_loop] in H. mr H. exists x. split; [exact Hx|]. rewrite Hf, Nx. split; [congruence|discriminate].
  - rewrite main_loop_body in H. mb H as st s E. destruct s as [a1 w1]. apply body_ok in E. destruct E as (w2 & a2 & w3 & _ & _ & It & Tm).
    apply iteration_ok in It. destruct It as (pop & w4 & best & w5 & b & worst & _ & _ & _ & _ & ->).
    apply (threshold_check opt th) in Tm; [|destruct b; exact Hc]. destruct Tm as (-> & Hc1 & Hf1 & _ & y & Hy & ->).
    assert (Hf2 : a_final a1 = None) by (rewrite Hf1; destruct b; exact Hf).
    destruct (nle (nabs (nsub y opt)) th) eqn:Ey.
    + mb H as u s E1. unfold algo_mod in E1. cbn [fst snd] in E1. injection E1 as _ <-. rewrite publish_eq in H. injection H as <- <-.
      exists y. split; [exact Hy|]. rewrite Ey. cbn. split; [reflexivity|discriminate].
    + mb H as u s E1. rewrite publish_eq in E1. injection E1 as _ <-. apply IH in H; [exact H|exact Hc1|exact Hf2|]. exists y. split; [exact Hy|exact Ey].
Qed.

Lemma target_reached ev sched n a w a' w' opt th : a_checkers a = [CkThreshold opt th] -> a_final a = None ->
  evolve ev sched n (a, w) = (Ok tt, (a', w')) ->
  exists x, best_fitness a' w' x /\ (a_final a' <> None <-> nle (nabs (nsub x opt)) th = true).
Proof.
  intros Hc Hf H. unfold evolve in H. apply evolve_ok in H. destruct H as (a1 & w1 & st & a2 & a3 & w3 & Ei & Et & Em & Fi).
  apply init_ok in Ei. destruct Ei as (pop & w2 & best & _ & _ & E1).
  assert (C1 : a_checkers a1 = [CkThreshold opt th]) by (rewrite E1; exact Hc).
  destruct (threshold_check opt th _ _ _ _ _ C1 Et) as (_ & Hc2 & Hf2 & _ & x & Hx & ->).
  assert (F2 : a_final a2 = None) by (rewrite Hf2, E1; exact Hf).
  apply finish_ok in Fi. destruct Fi as [-> ->]. destruct (nle (nabs (nsub x opt)) th) eqn:Ex.
  - destruct Em as [-> ->]. exists x. split; [exact Hx|]. rewrite Ex. cbn. split; [reflexivity|discriminate].
  - apply (target_loop ev sched opt th) in Em; [|exact Hc2|exact F2|eauto]. destruct Em as (y & Hy & F). exists y. split; [exact Hy|exact F].
Qed.

(** For a finite target and threshold. *)
Lemma target_exact : forall ev sched n a w a' w' opt th, a_checkers a = [CkThreshold (Fin opt) (Fin th)] -> a_final a = None ->
  evolve ev sched n (a, w) = (Ok tt, (a', w')) ->
  exists b i x, a_best_run a' = Some b /\ at_ w' b = Some i /\ get_pure_fitness (i_fit i) = Ok (VNum x) /\
    (a_final a' <> None <-> exists q, x = Fin q /\ (Qabs (q - opt) <= th)%Q).
Proof.
  intros ev sched n a w a' w' opt th Hc Hf H. destruct (target_reached _ _ _ _ _ _ _ _ _ Hc Hf H) as (x & (b & i & B & A & P) & F).
  exists b, i, x. split; [exact B|]. split; [exact A|]. split; [exact P|]. rewrite F. destruct x as [q| | |].
  - change (nsub (Fin q) (Fin opt)) with (Fin (q - opt)). destruct (nabs_fin (q - opt)) as (y & -> & Ey). rewrite nle_fin. rewrite Ey.
    split; [eauto|intros (q' & [= <-] & L); exact L].
  - cbn. split; [discriminate|intros (q & [=] & _)].
  - cbn. split; [discriminate|intros (q & [=] & _)].
  - cbn. split; [discriminate|intros (q & [=] & _)].
Qed.
