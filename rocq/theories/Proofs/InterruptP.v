(** * Runs that end with an exception (C84). *)
From Coq Require Import Lia Sorted.
From Verif.Model Require Import Base Num Rng Fitness World Operators Selection Creators Evolution Nsga2.
From Verif.Spec Require Import WorldSpec FitnessSpec SelSpec EvoSpec CompleteSpec InterruptSpec.
From Verif.Proofs Require Import Lib WorldP BreedP EvalP RunP TraceP BestP OnceP RootP CompleteP.
From Verif.Model Require Import Base Num Rng Fitness World Operators Selection Creators Evolution Nsga2.
Open Scope nat_scope.
Open Scope list_scope.

Ltac rb H x s E := apply bind_raise in H; destruct H as [H|(x & s & E & H)].

(** ** Taking a broken run apart *)

Lemma liftM_raised {X} (m : M X) a w e a' w' : liftM m (a, w) = (Raise e, (a', w')) -> a' = a /\ m w = (Raise e, w').
Proof. unfold liftM. cbn [fst snd]. destruct (m w) as [[x|e0] v]; intros H; inversion H; auto. Qed.

Lemma eval_raised ev sched a w e a' w' : act_evaluator ev sched (a, w) = (Raise e, (a', w')) ->
  a' = a /\ evaluate_population ev sched (a_method a) (a_alive a) (a_pop a) w = (Raise e, w').
Proof.
  intros H. unfold act_evaluator in H. rb H a0 s E; [discriminate|]. unfold algo_get in E. injection E as <- <-. cbn [fst] in H.
  rb H o s E; [apply liftM_raised in H; exact H|]. rb H u s2 E2; [discriminate|]. discriminate.
Qed.

Lemma seed_not_raised z a w e a' w' : seed_generators z (a, w) = (Raise e, (a', w')) -> False.
Proof. intros H. discriminate. Qed.

Lemma init_raised ev sched n a w e a' w' : initialize ev sched n (a, w) = (Raise e, (a', w')) ->
  let w0 := snd (liftR (set_seed (a_random_seed a)) w) in let a0 := add_trace (TSeed (a_random_seed a)) a in
  (a' = a0 /\ mapM create_subpopulation (a_pop a) w0 = (Raise e, w')) \/
  (exists pop w1, mapM create_subpopulation (a_pop a) w0 = (Ok pop, w1) /\ a' = set_pop pop a0 /\
     evaluate_population ev sched (a_method a) (a_alive a) pop w1 = (Raise e, w')).
Proof.
  intros H w0 a0. unfold initialize in H. rb H b s E; [discriminate|]. unfold algo_get in E. injection E as <- <-. cbn [fst] in H.
  rb H u s E; [discriminate|]. destruct s as [a1 w1]. apply seed_ok in E as [-> ->]. fold w0 a0 in H.
  rb H pop s E; [left; apply liftM_raised in H; exact H|]. destruct s as [a1 w1]. la E.
  right. exists pop, w1. split; [exact E|]. rb H u1 s E1; [discriminate|]. unfold algo_mod in E1. cbn [fst snd] in E1. injection E1 as _ <-.
  rb H best s E1; [apply eval_raised in H as [-> H]; auto|]. rb H u2 s2 E2; [discriminate|]. rb H u3 s3 E3; [discriminate|]. discriminate.
Qed.

Lemma terminate_raised a w e a' w' : should_terminate (a, w) = (Raise e, (a', w')) -> a' = a /\ w' = w.
Proof.
  intros H. unfold should_terminate in H. rb H b s E; [discriminate|]. unfold algo_get in E. injection E as <- <-. cbn [fst] in H.
  destruct (a_best_run a) as [best|]; [|injection H as _ <- <-; auto]. rb H r s E.
  - apply liftM_raised in H as [-> H]. split; [reflexivity|]. eapply run_checkers_state; eauto.
  - rb H u1 s1 E1; [discriminate|]. rb H u2 s2 E2; discriminate.
Qed.

(** What a broken [generation_iteration] leaves. *)
Definition quiet_raise (it : A unit) : Prop := forall a w e a' w', it (a, w) = (Raise e, (a', w')) ->
  exists tr, a_trace a' = a_trace a ++ tr /\ (tr = [] \/ tr = [TBreed] \/ exists l, tr = [TBreed; TEval l]) /\
    a_gen_num a' = a_gen_num a /\ a_final a' = a_final a.

Lemma iteration_raised ev sched a w e a' w' : generation_iteration ev sched (a, w) = (Raise e, (a', w')) ->
  (a' = a /\ breed (a_pop a) w = (Raise e, w')) \/
  exists pop w1, breed (a_pop a) w = (Ok pop, w1) /\
   let a1 := add_trace TBreed (set_pop pop a) in
   (a' = a1 /\ evaluate_population ev sched (a_method a) (a_alive a) pop w1 = (Raise e, w')) \/
   exists best w2, evaluate_population ev sched (a_method a) (a_alive a) pop w1 = (Ok best, w2) /\
    let a2 := set_best_gen (Some best) (add_trace (TEval (flat_map inds_of pop)) a1) in
    ((exists r, a_best_run a = Some r /\ ind_better_than best r w2 = (Raise e, w') /\ a' = a2) \/
     exists b, match a_best_run a with None => b = true /\ w' = w2 | Some r => ind_better_than best r w2 = (Ok b, w') end /\
       (pop = [] \/ exists s rest, pop = s :: rest /\ get_worst_individual s w' = (Raise e, w')) /\
       a' = if b then set_best_run (Some best) a2 else a2).
Proof.
  intros H. unfold generation_iteration in H. rb H b0 s E; [discriminate|]. unfold algo_get in E. injection E as <- <-. cbn [fst] in H.
  rb H pop s E; [left; apply liftM_raised in H; exact H|]. right. destruct s as [a1 w1]. la E. exists pop, w1. split; [exact E|]. intros a1.
  rb H u1 s E1; [discriminate|]. unfold algo_mod in E1. cbn [fst snd] in E1. injection E1 as _ <-.
  rb H u2 s E1; [discriminate|]. unfold algo_mod in E1. cbn [fst snd] in E1. injection E1 as _ <-. fold a1 in H.
  rb H best s E1; [left; apply eval_raised in H; exact H|]. right. destruct s as [a2 w2]. apply eval_ok in E1 as [E1 ->].
  exists best, w2. split; [exact E1|]. intros a2.
  rb H u3 s E2; [discriminate|]. unfold algo_mod in E2. cbn [fst snd] in E2. injection E2 as _ <-. change (flat_map inds_of (a_pop a1)) with (flat_map inds_of pop) in H. fold a2 in H.
  rb H a3 s E2; [discriminate|]. unfold algo_get in E2. injection E2 as <- <-. cbn [fst] in H. change (a_best_run a2) with (a_best_run a) in H.
  rb H b s E2.
  - left. destruct (a_best_run a) as [r|]; [|discriminate]. apply liftM_raised in H as [-> H]. eauto.
  - right. exists b. destruct s as [a4 w4].
    assert (K : a4 = a2 /\ match a_best_run a with None => b = true /\ w4 = w2 | Some r => ind_better_than best r w2 = (Ok b, w4) end).
    { destruct (a_best_run a) as [r|]; [la E2; auto|]. unfold ret in E2. injection E2 as <- <- <-. auto. }
    destruct K as [-> K]. clear E2. rb H u4 s E2; [destruct b; discriminate|].
    assert (Es : s = (if b then set_best_run (Some best) a2 else a2, w4)) by (destruct b; unfold algo_mod, ret in E2; cbn [fst snd] in E2; congruence).
    subst s. clear E2. change (a_pop a2) with pop in H.
    assert (Ew : w' = w4 /\ (pop = [] \/ exists s rest, pop = s :: rest /\ get_worst_individual s w' = (Raise e, w')) /\ a' = if b then set_best_run (Some best) a2 else a2).
    { destruct pop as [|s rest]; [injection H as _ <- <-; auto|]. rb H x s2 E2; [|discriminate]. apply liftM_raised in H as [-> H].
      pose proof (worst_state _ _ _ _ H) as ->. split; [reflexivity|]. split; [right; exists s, rest; auto|reflexivity]. }
    destruct Ew as (-> & Ew & ->). auto.
Qed.

Lemma simple_quiet_raise ev sched : quiet_raise (generation_iteration ev sched).
Proof.
  intros a w e a' w' H. apply iteration_raised in H as [[-> _]|(pop & w1 & _ & [[-> _]|(best & w2 & _ & [(r & _ & _ & ->)|(b & _ & _ & ->)])])].
  - exists []. rewrite app_nil_r. auto.
  - exists [TBreed]. cbn. auto.
  - exists [TBreed; TEval (flat_map inds_of pop)]. cbn. rewrite <- app_assoc. split; [reflexivity|]. split; [right; right; eauto|auto].
  - exists [TBreed; TEval (flat_map inds_of pop)]. destruct b; cbn; rewrite <- app_assoc; (split; [reflexivity|]); (split; [right; right; eauto|auto]).
Qed.

Lemma nsga2_quiet_raise ev sched so d : quiet_raise (nsga2_generation ev sched so d).
Proof.
  intros a w e a' w' H. unfold nsga2_generation in H. rb H b0 s E; [discriminate|]. unfold algo_get in E. injection E as <- <-. cbn [fst] in H.
  rb H pop s E; [apply liftM_raised in H as [-> H]; exists []; rewrite app_nil_r; auto 8|]. destruct s as [a1 w1]. la E.
  rb H u1 s E1; [discriminate|]. unfold algo_mod in E1. cbn [fst snd] in E1. injection E1 as _ <-.
  rb H u2 s E1; [discriminate|]. unfold algo_mod in E1. cbn [fst snd] in E1. injection E1 as _ <-.
  rb H best s E1; [apply eval_raised in H as [-> H]; exists [TBreed]; cbn; auto 8|]. destruct s as [a2 w2]. apply eval_ok in E1 as [E1 ->].
  rb H pop' s E2; [|discriminate]. apply liftM_raised in H as [-> H]. exists [TBreed; TEval (flat_map inds_of pop)]. cbn. rewrite <- app_assoc. split; [reflexivity|]. split; [right; right; eauto|auto].
Qed.

(** ** The executor *)

Definition same_alive (s s' : est) : Prop := a_alive (fst s') = a_alive (fst s).
Global Instance same_alive_pre : PreOrder same_alive.
Proof. split; [intros s; reflexivity|intros x y z H1 H2; unfold same_alive in *; congruence]. Qed.

Lemma al_mod f : (forall a, a_alive (f a) = a_alive a) -> steps same_alive (algo_mod f).
Proof. intros H [a w]. apply H. Qed.
Lemma al_get : steps same_alive algo_get.
Proof. intros s. reflexivity. Qed.
Lemma al_liftM {X} (m : M X) : steps same_alive (liftM m).
Proof. intros [a w]. unfold liftM. cbn [fst snd]. destruct (m w). reflexivity. Qed.
Lemma al_publish n : steps same_alive (publish n).
Proof. intros [a w]. reflexivity. Qed.

Ltac al := repeat first
  [ apply (st_bind same_alive); [|intros] | apply (st_ret same_alive) | apply (st_raise same_alive) | apply (st_lift same_alive)
  | apply al_get | apply al_liftM | apply al_publish | apply al_mod; reflexivity | match goal with |- steps _ (if ?b then _ else _) => destruct b | |- steps _ (match ?x with _ => _ end) => destruct x end ].

Lemma al_terminate : steps same_alive should_terminate.
Proof. unfold should_terminate. al. Qed.
Lemma al_eval ev sched : steps same_alive (act_evaluator ev sched).
Proof. unfold act_evaluator. al. Qed.
Lemma al_seed z : steps same_alive (seed_generators z).
Proof. unfold seed_generators. al. Qed.
Lemma al_init ev sched n : steps same_alive (initialize ev sched n).
Proof.
  unfold initialize. apply (st_bind same_alive); [apply al_get|]. intros a. apply (st_bind same_alive); [apply al_seed|]. intros _.
  apply (st_bind same_alive); [apply al_liftM|]. intros pop. apply (st_bind same_alive); [al|]. intros _. apply (st_bind same_alive); [apply al_eval|]. intros b. al.
Qed.
Lemma al_simple ev sched : steps same_alive (generation_iteration ev sched).
Proof.
  unfold generation_iteration. apply (st_bind same_alive); [apply al_get|]. intros a. apply (st_bind same_alive); [apply al_liftM|]. intros pop.
  apply (st_bind same_alive); [al|]. intros _. apply (st_bind same_alive); [al|]. intros _. apply (st_bind same_alive); [apply al_eval|]. intros b. al.
Qed.
Lemma al_nsga2 ev sched so d : steps same_alive (nsga2_generation ev sched so d).
Proof.
  unfold nsga2_generation. apply (st_bind same_alive); [apply al_get|]. intros a. apply (st_bind same_alive); [apply al_liftM|]. intros pop.
  apply (st_bind same_alive); [al|]. intros _. apply (st_bind same_alive); [al|]. intros _. apply (st_bind same_alive); [apply al_eval|]. intros b. al.
Qed.
Lemma al_body it g : steps same_alive it -> steps same_alive (body it g).
Proof.
  intros H. unfold body. apply (st_bind same_alive); [al|]. intros _. apply (st_bind same_alive); [unfold update_gen; al|]. intros _.
  apply (st_bind same_alive); [al|]. intros a. apply (st_bind same_alive); [apply al_seed|]. intros _. apply (st_bind same_alive); [al|]. intros _.
  apply (st_bind same_alive); [exact H|]. intros _. apply al_terminate.
Qed.
Lemma al_loop it : steps same_alive it -> forall todo g, steps same_alive (main_loop it todo g).
Proof.
  intros H todo. induction todo as [|todo IH]; intros g; [apply (st_ret same_alive)|]. intros s. rewrite main_loop_body. revert s.
  change (steps same_alive (stop <- body it g ;; if stop then algo_mod (set_final (Some g)) ;;; publish "after_generation" else publish "after_generation" ;;; main_loop it todo (S g))).
  apply (st_bind same_alive); [apply al_body; exact H|]. intros [|]; [al|]. apply (st_bind same_alive); [apply al_publish|]. intros _. apply IH.
Qed.

(** ** The events *)

Lemma body_raised it g a w e a' w' : body it g (a, w) = (Raise e, (a', w')) ->
  (a' = set_gen_num g a /\ regen w w' /\ iterM (fun o => modify o (set_gen g)) (flat_map inds_of (a_pop a)) w = (Raise e, w')) \/
  exists w1, regen w w1 /\ length (w_heap w1) = length (w_heap w) /\
    let a1 := set_gen_seed (next_seed (a_gen_seed a)) (add_trace (TSeed (next_seed (a_gen_seed a))) (set_gen_num g a)) in
    it (a1, w1) = (Raise e, (a', w')) \/ exists a2 w2, it (a1, w1) = (Ok tt, (a2, w2)) /\ should_terminate (a2, w2) = (Raise e, (a', w')).
Proof.
  intros H. unfold body in H. rb H u s E; [discriminate|]. unfold algo_mod in E. cbn [fst snd] in E. injection E as _ <-.
  set (m := iterM (fun o => modify o (set_gen g)) (flat_map inds_of (a_pop a))).
  assert (R1 : steps regen m) by (apply (st_iterM regen); intros; apply regen_set).
  assert (R2 : length (w_heap (snd (m w))) = length (w_heap w)).
  { set (Rl := fun w w' : world => length (w_heap w') = length (w_heap w)).
    assert (PR : PreOrder Rl) by (split; [intros x; reflexivity|intros x y z Hx Hy; unfold Rl in *; congruence]).
    assert (S : steps Rl m).
    { apply (st_iterM Rl). intros o _ v. destruct (at_ v o) as [i|] eqn:E; [rewrite (modify_at _ _ _ _ E); apply put_at_len|].
      unfold modify, bind, load. unfold at_ in E. rewrite E. reflexivity. }
    apply S. }
  specialize (R1 w). rb H u1 s E.
  - left. unfold update_gen in H. rb H b s E; [discriminate|]. unfold algo_get in E. injection E as <- <-. cbn [fst a_pop set_gen_num] in H.
    apply liftM_raised in H as [-> H]. fold m in H. rewrite H in R1. auto.
  - right. destruct s as [a1 w1]. unfold update_gen in E. mb E as b s E2. unfold algo_get in E2. injection E2 as <- <-. cbn [fst a_pop set_gen_num] in E.
    la E. fold m in E. rewrite E in R1, R2. cbn [snd] in R1, R2. rb H b s E1; [discriminate|]. unfold algo_get in E1. injection E1 as <- <-. cbn [fst] in H.
    rb H u2 s E1; [discriminate|]. destruct s as [a3 w3]. apply seed_ok in E1 as [-> ->].
    rb H u3 s E1; [discriminate|]. unfold algo_mod in E1. cbn [fst snd] in E1. injection E1 as _ <-.
    exists (snd (liftR (set_seed (next_seed (a_gen_seed (set_gen_num g a)))) w1)).
    split; [transitivity w1; [exact R1|apply regen_ext, ext_same, liftR_heap]|]. split; [rewrite liftR_heap; exact R2|]. intros a1.
    rb H u4 s E1; [left; exact H|]. right. destruct s as [a3 w3], u4. eauto.
Qed.

Lemma body_broken it g a w e a' w' : quiet it -> quiet_raise it -> body it g (a, w) = (Raise e, (a', w')) ->
  exists tr rest, generation_events = map kind_of tr ++ rest /\ 2 <= length rest /\ a_trace a' = a_trace a ++ tr /\
    a_gen_num a' = g /\ a_final a' = a_final a /\ checks tr = [] /\ published "after_generation" tr = [].
Proof.
  intros Q QR H. apply body_raised in H as [[-> [_ _]]|(w1 & _ & _ & [H|(a2 & w2 & H & Ht)])].
  - exists [], generation_events. cbn. rewrite app_nil_r. repeat split; auto.
  - apply QR in H as (tr & Ht & Htr & Hg & Hf). cbn in Ht, Hg, Hf.
    exists (TSeed (next_seed (a_gen_seed a)) :: tr), (skipn (1 + length tr) generation_events). rewrite Ht, Hg, Hf, <- app_assoc.
    destruct Htr as [->|[->|(l & ->)]]; cbn; repeat split; auto.
  - apply Q in H as (l & Htr & Hg & _ & Hf & _). apply terminate_raised in Ht as [-> ->]. cbn in Htr, Hg, Hf.
    exists [TSeed (next_seed (a_gen_seed a)); TBreed; TEval l], [Check; Publish "after_generation"]. rewrite Htr, Hg, Hf, <- app_assoc. cbn. repeat split; auto.
Qed.

Lemma loop_broken it : quiet it -> quiet_raise it -> forall todo g a w e a' w', main_loop it todo g (a, w) = (Raise e, (a', w')) ->
  exists k tr done rest, k < todo /\ generation_events = done ++ rest /\ 2 <= length rest /\ a_trace a' = a_trace a ++ tr /\
    map kind_of tr = concat (repeat generation_events k) ++ done /\ a_gen_num a' = g + k /\ a_final a' = a_final a /\
    (forall c, In c (checks tr) -> ~ some_true c) /\ published "after_generation" tr = seq g k.
Proof.
  intros Q QR todo. induction todo as [|todo IH]; intros g a w e a' w' H; [discriminate|]. rewrite main_loop_body in H.
  rb H st s E.
  - apply body_broken in H as (tr & rest & Hd & Hr & Ht & Hg & Hf & Hc & Hp); [|exact Q|exact QR].
    exists 0, tr, (map kind_of tr), rest. rewrite Hc, Hp. split; [lia|]. split; [exact Hd|]. split; [exact Hr|]. split; [exact Ht|]. split; [reflexivity|]. split; [lia|]. split; [exact Hf|]. split; [intros c []|reflexivity].
  - destruct s as [a1 w1]. destruct st; [rb H u s2 E2; discriminate|]. rb H u s E2; [discriminate|]. rewrite publish_eq in E2. injection E2 as _ <-.
    apply body_ok in E as (v1 & a2 & w2 & _ & _ & E1 & E2). apply Q in E1 as (l & T2 & N2 & S2 & F2 & C2). cbn in T2, N2, S2, F2, C2.
    apply terminate_ok in E2 as (-> & best & ans & cs & _ & _ & -> & Est). symmetry in Est. apply existsb_none in Est.
    apply IH in H as (k & tr & done & rest & Hk & Hd & Hr & Ht & Hm & Hg & Hf & Hc & Hp). cbn [a_trace add_trace set_checkers a_gen_num a_final] in Ht, Hg, Hf.
    rewrite T2, N2 in Ht. set (p := TPublish _ _ _ _) in Ht. set (ns := next_seed (a_gen_seed a)) in *.
    exists (S k), ([TSeed ns; TBreed; TEval l; TCheck ans; p] ++ tr), done, rest. split; [lia|]. split; [exact Hd|]. split; [exact Hr|].
    split; [rewrite Ht, <- !app_assoc; reflexivity|]. split; [cbn; rewrite Hm; reflexivity|]. split; [lia|]. split; [congruence|].
    split; [intros c [<-|Hin]; auto|]. cbn [published flat_map app]. change (g :: published "after_generation" tr = seq g (S k)). rewrite Hp. reflexivity.
Qed.

(** A run that raises is broken off, or its last step raises. *)
Lemma run_broken ev sched it fin n a w e a' w' : quiet it -> quiet_raise it -> steps same_alive it -> a_trace a = [] ->
  evolve_with ev sched it fin n (a, w) = (Raise e, (a', w')) ->
  broken_off a a' \/ exists a3 w3, fin (a3, w3) = (Raise e, (a', w')) /\ well_run a (a_trace a3) (a_final a3) /\ a_alive a3 = a_alive a.
Proof.
  intros Q QR AL Ht H. unfold evolve_with in H. rb H u s E.
  - left. pose proof (al_init ev sched n (a, w)) as Al. rewrite H in Al. unfold same_alive in Al. cbn [fst snd] in Al. apply init_raised in H. 
    assert (K : map kind_of (a_trace a') = [Seed] /\ a_final a' = a_final a /\ a_gen_num a' = a_gen_num a /\ a_best_run a' = a_best_run a /\ checks (a_trace a') = []).
    { destruct H as [[-> _]|(pop & w1 & _ & -> & _)]; cbn; rewrite Ht; cbn; auto. }
    destruct K as (K1 & K2 & K3 & K4 & K5). unfold broken_off. rewrite K5. split; [exact K2|]. split; [exact Al|]. split; [intros c []|]. left. auto.
  - destruct s as [a1 w1]. pose proof (al_init ev sched n (a, w)) as Al. rewrite E in Al. unfold same_alive in Al. cbn [fst snd] in Al.
    destruct u. pose proof E as Ei. apply init_ok in E as (pop & v1 & best & _ & _ & Ea1).
    rb H st s E.
    + left. apply terminate_raised in H as [-> ->]. unfold broken_off. rewrite Al.
      assert (Tr : a_trace a1 = [TSeed (a_random_seed a); TEval (flat_map inds_of pop); TPublish "init" (a_gen_num a) (Some best) (at_ w1 best)]).
      { rewrite Ea1. cbn. rewrite Ht. reflexivity. }
      rewrite Tr. cbn. split; [rewrite Ea1; reflexivity|]. split; [reflexivity|]. split; [intros c []|]. right. left. split; [reflexivity|]. rewrite Ea1. reflexivity.
    + destruct s as [a2 w2]. pose proof (al_terminate (a1, w1)) as Al2. rewrite E in Al2. unfold same_alive in Al2. cbn [fst snd] in Al2.
      pose proof E as Et. apply terminate_ok in E as (-> & b2 & ans & cs & _ & _ & Ea2 & Est).
      rb H u s E.
      * left. destruct st; [rb H u s E2; discriminate|]. rb H a0 s E2; [discriminate|]. unfold algo_get in E2. injection E2 as <- <-. cbn [fst] in H.
        pose proof (al_loop it AL (a_max_gen a2) 1 (a2, w1)) as Al3. rewrite H in Al3. unfold same_alive in Al3. cbn [fst snd] in Al3.
        apply loop_broken in H as (k & tr & done & rest & Hk & Hd & Hr & Htr & Hm & Hg & Hf & Hc & Hp); [|exact Q|exact QR].
        symmetry in Est. apply existsb_none in Est.
        assert (Tr : a_trace a2 = [TSeed (a_random_seed a); TEval (flat_map inds_of pop); TPublish "init" (a_gen_num a) (Some best) (at_ w1 best); TCheck ans]).
        { rewrite Ea2, Ea1. cbn. rewrite Ht. reflexivity. }
        rewrite Tr in Htr. unfold broken_off. rewrite Htr. split; [rewrite Hf, Ea2, Ea1; reflexivity|]. split; [congruence|].
        split; [intros c Hin; rewrite checks_app in Hin; destruct Hin as [<-|Hin]; auto|]. right. right. exists k, done, rest.
        split; [rewrite Ea2, Ea1 in Hk; exact Hk|]. split; [rewrite Hg; reflexivity|]. split; [exact Hd|]. split; [exact Hr|].
        split; [rewrite map_app, Hm; reflexivity|]. rewrite published_app, Hp. reflexivity.
      * right. destruct s as [a3 w3]. rb H u2 s E2; [discriminate|]. rewrite publish_eq in E2. injection E2 as _ <-.
        eexists _, w3. split; [exact H|].
        assert (Al4 : a_alive a3 = a_alive a2).
        { destruct st.
          - mb E as u3 s E3. unfold algo_mod in E3. cbn [fst snd] in E3. injection E3 as _ <-. rewrite publish_eq in E. injection E as _ <- _. reflexivity.
          - mb E as a0 s E3. unfold algo_get in E3. injection E3 as <- <-. cbn [fst] in E. pose proof (al_loop it AL (a_max_gen a2) 1 (a2, w1)) as S.
            rewrite E in S. exact S. }
        split; [|cbn; congruence].
        refine (run_trace ev sched it (ret tt) n a w _ w3 Q _ Ht _); [intros b v b' v' Hb; unfold ret in Hb; injection Hb as <- <-; auto|].
        unfold evolve_with. rewrite (bind_eq_ok _ _ _ _ _ Ei), (bind_eq_ok _ _ _ _ _ Et), (bind_eq_ok _ _ _ _ _ E). rewrite (bind_eq_ok _ _ _ _ _ (publish_eq _ _ _)). reflexivity.
Qed.

Lemma finish_raised a w e a' w' : finish (a, w) = (Raise e, (a', w')) ->
  a' = set_alive false a /\ w' = w /\ forall b, a_best_run a = Some b -> forall i, at_ w b = Some i -> show i = Raise e.
Proof.
  intros H. unfold finish in H. rb H u s E; [discriminate|]. unfold algo_mod in E. cbn [fst snd] in E. injection E as _ <-.
  unfold show_best in H. rb H b s E; [discriminate|]. unfold algo_get in E. injection E as <- <-. cbn [fst a_best_run set_alive] in H.
  destruct (a_best_run a) as [o|]; [|injection H as _ <- <-; repeat split; discriminate].
  rb H i s E.
  - apply liftM_raised in H as [-> H]. unfold load in H. split; [reflexivity|]. destruct (nth_error (w_heap w) o) as [j|] eqn:Ej; [discriminate|].
    injection H as _ <-. split; [reflexivity|]. intros b Hb i Hi. injection Hb as <-. unfold at_ in Hi. congruence.
  - destruct s as [a1 w1]. la E. apply load_ok in E as [-> E]. unfold lift in H. injection H as H1 H2 H3. subst a' w'. split; [reflexivity|]. split; [reflexivity|].
    intros b Hb j Hj. injection Hb as <-. congruence.
Qed.

Lemma interrupted_events ev sched n a w e a' w' : a_trace a = [] -> evolve ev sched n (a, w) = (Raise e, (a', w')) ->
  broken_off a a' \/
  (well_run a (a_trace a') (a_final a') /\ a_alive a' = false /\
   forall b i, a_best_run a' = Some b -> at_ w' b = Some i -> show i = Raise e).
Proof.
  intros Ht H. unfold evolve in H. apply run_broken in H as [H|(a3 & w3 & H & W & _)];
    [left; exact H| |apply simple_quiet|apply simple_quiet_raise|apply al_simple|exact Ht].
  right. apply finish_raised in H as (-> & -> & H). split; [exact W|]. split; [reflexivity|]. intros b i Hb Hi. exact (H b Hb i Hi).
Qed.

Lemma moo_interrupted_events ev sched so d n a w e a' w' : a_trace a = [] -> nsga2_evolve ev sched so d n (a, w) = (Raise e, (a', w')) ->
  broken_off a a' \/ (well_run a (a_trace a') (a_final a') /\ a_alive a' = a_alive a).
Proof.
  intros Ht H. unfold nsga2_evolve in H. apply run_broken in H as [H|(a3 & w3 & H & W & Al)];
    [left; exact H| |apply nsga2_quiet|apply nsga2_quiet_raise|apply al_nsga2|exact Ht].
  right. assert (Es : a' = a3).
  { unfold nsga2_finish in H. rb H u s E.
    - unfold show_best in H. rb H b s E; [discriminate|]. unfold algo_get in E. injection E as <- <-. cbn [fst] in H.
      destruct (a_best_run a3) as [o|]; [|injection H as _ <- <-; auto]. rb H i s E; [apply liftM_raised in H as [-> _]; reflexivity|].
      destruct s as [a1 w1]. la E. unfold lift in H. injection H as _ <- _. reflexivity.
    - destruct s as [a1 w1]. apply show_best_ok in E as (-> & -> & _). rb H b s E; [discriminate|]. unfold algo_get in E. injection E as <- <-. cbn [fst] in H.
      destruct (a_best_run a3) as [o|]; [|injection H as _ <- <-; auto]. rb H i s E; [apply liftM_raised in H as [-> _]; reflexivity|discriminate]. }
  subst a'. auto.
Qed.

(** ** The best individual *)

(** Only the evaluated individuals are modified, whatever happens. *)
Lemma touch_set (X : oid -> Prop) o v : X o -> steps (frame X) (ind_set_fitness o v).
Proof.
  intros Ho. apply (st_bind (frame X)); [intros w; rewrite load_state; reflexivity|]. intros i.
  apply (st_bind (frame X)); [|intros; apply (st_lift (frame X))]. intros w. unfold store. destruct (o <? length (w_heap w)); [|reflexivity].
  apply (frame_put X w o _ Ho).
Qed.

Lemma fr_load (X : oid -> Prop) o : steps (frame X) (load o).
Proof. intros w. rewrite load_state. reflexivity. Qed.

Lemma fr_better (X : oid -> Prop) o p : steps (frame X) (ind_better_than o p).
Proof.
  apply (st_bind (frame X)); [apply fr_load|]. intros x. apply (st_bind (frame X)); [apply fr_load|]. intros y w. unfold liftR. destruct (better_than _ _ _ _ _) as [r g]. apply (fr_rng X).
Qed.

Lemma fr_scan (X : oid -> Prop) l : steps (frame X) (best_scan l).
Proof.
  destruct l as [|o l]; [apply (st_raise (frame X))|]. cbn [best_scan]. apply (st_foldM (frame X)). intros b x _.
  apply (st_bind (frame X)); [apply fr_better|]. intros; apply (st_ret (frame X)).
Qed.

Lemma fr_assign l : forall rs, steps (frame (fun o => In o l)) (assign_results l rs).
Proof.
  assert (G : forall (X : oid -> Prop) l, (forall o, In o l -> X o) -> forall rs, steps (frame X) (assign_results l rs)).
  { intros X m. induction m as [|o m IH]; intros Hx rs; [destruct rs; apply (st_ret (frame X))|]. destruct rs as [|r rs]; [apply (st_ret (frame X))|].
    cbn [assign_results]. apply (st_bind (frame X)); [apply (st_lift (frame X))|]. intros v. apply (st_bind (frame X)); [apply touch_set, Hx; left; reflexivity|].
    intros _. apply IH. intros; apply Hx; right; assumption. }
  apply G. auto.
Qed.

Lemma fr_evaluate ev sched alive l : steps (frame (fun o => In o l)) (evaluate_inds ev sched ByMap alive l).
Proof.
  set (X := fun o => In o l). unfold evaluate_inds. apply (st_bind (frame X)).
  - apply (st_mapM (frame X)). intros o _. apply (st_bind (frame X)); [apply fr_load|]. intros; apply (st_ret (frame X)).
  - intros gs. apply (st_bind (frame X)); [apply (st_lift (frame X))|]. intros rs. apply (st_bind (frame X)); [apply fr_assign|]. intros _. apply fr_scan.
Qed.

Section Broken.
  Variables (ev : genome -> res fval) (sched : nat -> list nat) (h : bool).
  Hypothesis (EV : gives_numbers ev) (FAIR : fair sched).

  (** What is left of [loop_inv]. *)
  Definition left (a : algo) (w : world) : Prop := exists b, a_best_run a = Some b /\ hist ev h (a_trace a) b w.

  Lemma inv_left a w : loop_inv ev h a w -> left a w.
  Proof. intros H. exact (li_hist _ _ _ _ H). Qed.

  Lemma iteration_left a w e a' w' : loop_inv ev h a w -> generation_iteration ev sched (a, w) = (Raise e, (a', w')) -> left a' w'.
  Proof.
    intros [(s & Es & Hs) Hm Ha (b & Eb & H)] E.
    assert (P : present (flat_map inds_of [s]) w) by (cbn; rewrite app_nil_r; eapply scalar_present; eauto).
    pose proof (breed_all_frame [s] w P) as Fr.
    apply iteration_raised in E. rewrite Es, Hm, Ha, Eb in E.
    destruct E as [[-> E]|(pop & w1 & E & E')].
    { rewrite E in Fr. cbn [snd] in Fr. exists b. split; [exact Eb|]. apply hist_regen with w; [apply regen_frame; exact Fr|exact H]. }
    rewrite E in Fr. cbn [snd] in Fr. destruct (breed_scalar s w pop w1 h Hs E) as (s' & -> & _ & Hs'). cbn [evaluate_population flat_map] in E'. rewrite app_nil_r in E'.
    assert (H1 : hist ev h (a_trace a ++ [TBreed]) b w1).
    { apply hist_skip; [reflexivity|reflexivity|]. apply hist_regen with w; [apply regen_frame; exact Fr|exact H]. }
    assert (New : forall o, In o (inds_of s') -> ~ evd (a_trace a ++ [TBreed]) o).
    { intros o Ho (l & Hl & Hol). rewrite evals_app, app_nil_r in Hl. destruct (hi_vals _ _ _ _ _ H o) as [(i & Hi & _) _]; [exists l; auto|].
      apply at_lt in Hi. pose proof (proj2 (Hs' o Ho)). unfold oid in *. lia. }
    destruct E' as [[-> E2]|(best & w2 & E2 & E3)].
    - pose proof (fr_evaluate ev sched true (inds_of s') w1) as F2. rewrite E2 in F2. cbn [snd] in F2. destruct F2 as [_ F2].
      exists b. split; [exact Eb|]. apply hist_move with w1; [|exact H1]. intros o i Ho Hi. exists (i_gen i). rewrite set_gen_same, F2; [exact Hi|eapply at_lt; eauto|].
      intros C. exact (New o C Ho).
    - assert (K : forall c v, ind_better_than best b w2 = (Ok c, v) -> v = w2 /\ hist ev h (a_trace a ++ [TBreed] ++ [TEval (inds_of s')]) (if c then best else b) w2).
      { intros c v Ec. rewrite app_assoc. destruct (hist_next ev h EV sched (inds_of s') w1 b best w2 c v _ FAIR H1 (fun o Ho => conj (proj1 (Hs' o Ho)) (New o Ho)) E2 Ec) as (-> & K & _). auto. }
      assert (Ok_ : exists c, ind_better_than best b w2 = (Ok c, w2)).
      { destruct (evaluate_ok ev sched (inds_of s') w1 h best w2 FAIR EV (fun o Ho => proj1 (Hs' o Ho)) E2) as (_ & _ & Hin & Hout & score & Hsc & Fb).
        apply first_best_none in Fb as [Hb _].
        assert (Vb : scalar_at w2 h best /\ has_value ev w2 best).
        { destruct (proj1 (Hs' best Hb)) as (i & Hi & S). destruct (Hin best i Hb Hi) as (j & Hj & Ej).
          split; [exists j; split; [exact Hj|eapply evaluated_scalar; eauto]|eapply evaluated_has_value; eauto]. }
        destruct (scored_at w2 h best ev EV (proj1 Vb) (proj2 Vb)) as [Sn On].
        assert (Sb : scored w2 b (score_of w1 b)).
        { destruct (hist_scored ev h EV _ _ _ b H1 (hi_in _ _ _ _ _ H1)) as [(i & Hi & Si) _]. exists i. split; [|exact Si]. rewrite Hout; [exact Hi|]. intros C. exact (New b C (hi_in _ _ _ _ _ H1)). }
        eexists. eapply better_scored; eauto. }
      destruct Ok_ as (c & Ec). destruct (K c w2 Ec) as [_ Kc]. rewrite app_assoc in Kc.
      destruct E3 as [(r & Er & E3 & _)|(c' & E3 & _ & ->)]; [injection Er as <-; congruence|]. rewrite Ec in E3. injection E3 as <- <-.
      destruct c; [exists best|exists b]; (split; [auto|exact Kc]).
  Qed.

  Lemma terminate_left a w e a' w' : loop_inv ev h a w -> should_terminate (a, w) = (Raise e, (a', w')) -> left a' w'.
  Proof. intros H E. apply terminate_raised in E as [-> ->]. apply inv_left. exact H. Qed.

  Lemma body_left a w g e a' w' : loop_inv ev h a w -> body (generation_iteration ev sched) g (a, w) = (Raise e, (a', w')) -> left a' w'.
  Proof.
    intros H E. destruct H as [(s & Es & Hs) Hm Ha (b & Eb & H)]. apply body_raised in E as [[-> [R _]]|(w1 & R & _ & E)].
    - exists b. split; [exact Eb|]. apply hist_regen with w; [exact R|exact H].
    - set (a1 := set_gen_seed _ _) in E.
      assert (I : loop_inv ev h a1 w1).
      { split; [exists s; split; [exact Es|]; intros o Ho; eapply BestP.regen_scalar; eauto|exact Hm|exact Ha|].
        exists b. split; [exact Eb|]. cbn. apply hist_skip; [reflexivity|reflexivity|]. eapply hist_regen; eauto. }
      destruct E as [E|(a2 & w2 & E & E2)]; [eapply iteration_left; eauto|]. eapply terminate_left; [|exact E2]. eapply iteration_inv; eauto.
  Qed.

  Lemma loop_left todo : forall g a w e a' w', loop_inv ev h a w ->
    main_loop (generation_iteration ev sched) todo g (a, w) = (Raise e, (a', w')) -> left a' w'.
  Proof.
    induction todo as [|todo IH]; intros g a w e a' w' H E; [discriminate|]. rewrite main_loop_body in E. rb E st s E1; [eapply body_left; eauto|].
    destruct s as [a1 w1]. eapply body_inv in E1; [|exact EV|exact FAIR|exact H]. destruct st; [rb E u s E2; discriminate|]. rb E u s E2; [discriminate|].
    apply (publish_inv ev h EV _ _ "after_generation") in E1. rewrite publish_eq in E1, E2. injection E2 as _ <-. eapply IH; [exact E1|exact E].
  Qed.

  Lemma evolve_left n a w e a' w' : a_trace a = [] -> a_method a = ByMap -> scalar_population w h (a_pop a) ->
    evolve ev sched n (a, w) = (Raise e, (a', w')) -> (a_best_run a' = a_best_run a /\ evals (a_trace a') = [] /\ recorded (a_trace a') = []) \/ left a' w'.
  Proof.
    intros Ht Hm Hp E. unfold evolve, evolve_with in E. rb E u s E1.
    { left. apply init_raised in E as [[-> _]|(pop & w1 & _ & -> & _)]; cbn; rewrite Ht; auto. }
    right. destruct s as [a1 w1], u. apply (init_inv ev h EV sched FAIR) in E1; auto. rb E st s E2; [eapply terminate_left; eauto|]. destruct s as [a2 w2].
    apply terminate_inv with (ev := ev) (h := h) in E2; [|exact E1]. rb E u s E3.
    { destruct st; [rb E u s E4; discriminate|]. rb E a0 s E4; [discriminate|]. unfold algo_get in E4. injection E4 as <- <-. eapply loop_left; eauto. }
    destruct s as [a3 w3].
    assert (H3 : loop_inv ev h a3 w3).
    { destruct st.
      - mb E3 as u1 s E4. unfold algo_mod in E4. cbn [fst snd] in E4. injection E4 as _ <-.
        assert (H2 : loop_inv ev h (set_final (Some 0) a2) w2) by (destruct E2; split; assumption).
        apply (publish_inv ev h EV _ _ "after_generation") in H2. rewrite publish_eq in E3, H2. injection E3 as _ <- <-. exact H2.
      - mb E3 as a0 s E4. unfold algo_get in E4. injection E4 as <- <-. destruct u. eapply loop_ok; eauto. }
    rb E u1 s E4; [discriminate|]. apply (publish_inv ev h EV _ _ "evolution_finished") in H3. rewrite publish_eq in H3, E4. injection E4 as _ <-.
    apply finish_raised in E as (-> & -> & _). apply inv_left in H3. destruct H3 as (b & Hb & H). exists b. auto.
  Qed.
End Broken.

Lemma interrupted_best ev sched n a w e a' w' h : gives_numbers ev -> fair sched -> a_trace a = [] -> a_method a = ByMap ->
  scalar_population w h (a_pop a) -> evolve ev sched n (a, w) = (Raise e, (a', w')) ->
  (evals (a_trace a') = [] /\ a_best_run a' = a_best_run a) \/
  exists b, a_best_run a' = Some b /\ In b (concat (evals (a_trace a'))) /\
    forall o, In o (concat (evals (a_trace a'))) -> has_value ev w' o /\
      exists x y, scored w' o x /\ scored w' b y /\ ~ better_score h x y.
Proof.
  intros EV F Ht Hm Hp E. destruct (evolve_left ev sched h EV F n a w e a' w' Ht Hm Hp E) as [(A & B & _)|(b & Hb & H)]; [left; auto|right].
  exists b. split; [exact Hb|]. assert (D : forall o, In o (concat (evals (a_trace a'))) <-> evd (a_trace a') o).
  { intros o. rewrite in_concat. split; intros (l & K1 & K2); exists l; auto. }
  split; [apply D, (hi_in _ _ _ _ _ H)|]. intros o Ho. apply D in Ho. destruct (hi_vals _ _ _ _ _ H o Ho) as [_ V]. split; [exact V|].
  exists (score_of w' o), (score_of w' b). destruct (hist_scored ev h EV _ _ _ o H Ho) as [So _]. destruct (hist_scored ev h EV _ _ _ b H (hi_in _ _ _ _ _ H)) as [Sb _].
  split; [exact So|]. split; [exact Sb|]. apply (hi_best _ _ _ _ _ H). exact Ho.
Qed.

Lemma interrupted_recorded ev sched n a w e a' w' h : gives_numbers ev -> fair sched -> a_trace a = [] -> a_method a = ByMap ->
  scalar_population w h (a_pop a) -> evolve ev sched n (a, w) = (Raise e, (a', w')) ->
  (forall o i, In (o, i) (recorded (a_trace a')) -> exists g, at_ w' o = Some (set_gen g i)) /\
  StronglySorted (no_worse h) (map snd (recorded (a_trace a'))).
Proof.
  intros EV F Ht Hm Hp E. destruct (evolve_left ev sched h EV F n a w e a' w' Ht Hm Hp E) as [(_ & _ & R)|(b & Hb & H)].
  - rewrite R. split; [intros o i []|constructor].
  - split; [|apply (hi_mono _ _ _ _ _ H)]. intros o i Hi. apply (hi_rec _ _ _ _ _ H) in Hi as [_ K]. exact K.
Qed.

(** ** Starting again *)

(** A run whose only danger is the fitness function. *)
Section Again.
  Variables (G : genome -> Prop) (ev : genome -> res fval) (sched : nat -> list nat) (h : bool) (s : subpop).
  Hypothesis (Hnum : gives_numbers ev) (Hfair : fair sched).
  Hypothesis (Hhib : sp_hib s = HB h) (Hsize : 1 <= sp_size s).
  Hypothesis Har : forall n, In n (map sel_arity (sp_sels s) ++ map op_arity (sp_ops s)) -> n <> 0 /\ Nat.divide n (sp_size s).
  Hypothesis Hsel : exists sel sels, sp_sels s = sel :: sels /\ tournament_for (sp_size s) sel.
  Hypothesis Hop : Forall (closed_operator G) (sp_ops s).

  Record resumable (a : algo) (w : world) : Prop := {
    rs_pop : exists l, a_pop a = [with_inds s l] /\ length l = sp_size s /\ genomes_in G l w /\ forall o, In o l -> scalar_at w h o;
    rs_check : Forall calm (a_checkers a);
    rs_method : a_method a = ByMap;
    rs_alive : a_alive a = true
  }.
  Definition culprit (e : exn) : Prop := exists g, G g /\ ev g = Raise e.

  Lemma going_resumable a w : going G ev h s a w -> resumable a w.
  Proof.
    intros H. destruct (go_pop _ _ _ _ _ _ H) as (l & P1 & P2 & P3 & P4). split; [exists l; repeat split; auto; intros o Ho; apply P4; exact Ho|apply (go_check _ _ _ _ _ _ H)|apply (go_method _ _ _ _ _ _ H)|apply (go_alive _ _ _ _ _ _ H)].
  Qed.

  Lemma resumable_move a w a' w' : a_pop a' = a_pop a -> a_checkers a' = a_checkers a -> a_method a' = a_method a -> a_alive a' = a_alive a ->
    regen w w' -> resumable a w -> resumable a' w'.
  Proof.
    intros E1 E2 E3 E4 R [(l & P1 & P2 & P3 & P4) C M AL]. split; try congruence. exists l. rewrite E1. split; [exact P1|]. split; [exact P2|].
    split; [eapply genomes_gkeep; [eapply regen_gkeep; exact R|exact P3]|]. intros o Ho. eapply BestP.regen_scalar; eauto.
  Qed.

  Lemma eval_cases l w r w' : l <> [] -> genomes_in G l w -> (forall o, In o l -> scalar_at w h o) -> evaluate_inds ev sched ByMap true l w = (r, w') ->
    gkeep w w' /\ kinds w w' /\ (forall o, ~ In o l -> o < length (w_heap w) -> at_ w' o = at_ w o) /\
    match r with
    | Ok b => In b l /\ forall o, In o l -> has_value ev w' o
    | Raise e => culprit e
    end.
  Proof.
    intros Nl Hg Hs E. pose proof (gk_evaluate ev sched ByMap true l w) as K. pose proof (kinds_evaluate ev sched ByMap true l w) as Kd.
    pose proof (fr_evaluate ev sched true l w) as F. rewrite E in K, Kd, F. cbn [snd] in K, Kd, F. destruct F as [_ F].
    split; [exact K|]. split; [exact Kd|]. split; [intros o Ho Hlt; apply F; assumption|].
    destruct r as [b|e].
    - destruct (evaluate_ok ev sched l w h b w' Hfair Hnum Hs E) as (_ & _ & Hin & _ & score & _ & Fb). apply first_best_none in Fb as [Hb _].
      split; [exact Hb|]. intros o Ho. destruct (Hs o Ho) as (i & Hi & _). destruct (Hin o i Ho Hi) as (j & Hj & Ej). eapply evaluated_has_value; eauto.
    - destruct (all_or_first_raise ev w l (scalar_present _ _ _ Hs)) as [Hv|(pre & o & rest & i & e' & -> & Hi & Ei & Hv)].
      + destruct (evaluate_map ev sched l w h Hfair Hnum Nl Hs Hv) as (b & w1 & sc & E1 & _). congruence.
      + destruct (evaluate_raises ev sched pre o rest w i e' Hfair) as (w1 & E1); auto.
        { intros p Hp. eapply scalar_simple. apply Hs. exact Hp. }
        assert (e = e') by congruence. subst e'. destruct (Hg o) as (i' & Hi' & Gi); [apply in_app_iff; right; left; reflexivity|]. rewrite Hi in Hi'. injection Hi' as <-.
        exists (i_genome i). auto.
  Qed.

  Lemma going_step a w r a' w' : going G ev h s a w -> generation_iteration ev sched (a, w) = (r, (a', w')) ->
    match r with Ok _ => going G ev h s a' w' | Raise e => resumable a' w' /\ culprit e end.
  Proof.
    intros H E. destruct (go_pop _ _ _ _ _ _ H) as (l & P1 & P2 & P3 & P4). destruct (go_best _ _ _ _ _ _ H) as (b0 & B1 & B2 & B3 & B4).
    destruct (breed_total G h (with_inds s l) l w (score_of w)) as (l' & w1 & E1 & L1 & G1); auto.
    { intros o Ho. destruct (P4 o Ho). eapply scored_at; eauto. }
    change (with_inds (with_inds s l) l') with (with_inds s l') in E1. change (sp_size (with_inds s l)) with (sp_size s) in L1.
    destruct (breed_scalar (with_inds s l) w _ w1 h (fun o Ho => proj1 (P4 o Ho)) E1) as (s' & Es & F1 & S1).
    injection Es as <-. change (inds_of (with_inds s l')) with l' in S1.
    assert (Nl : l' <> []) by (apply (nonempty s Hsize); exact L1).
    assert (Nr : ~ In b0 l').
    { intros Hr. destruct B2 as (i & A & _). apply at_lt in A. pose proof (proj2 (S1 b0 Hr)). unfold oid in *. lia. }
    assert (Lt : b0 < length (w_heap w1)) by (destruct B2 as (i & A & _); eapply at_lt, frame_at; eauto).
    destruct r as [[]|e].
    - apply iteration_ok in E as (pop & v1 & best & v2 & c & worst & E2 & E3 & E4 & _ & ->). rewrite P1, E1 in E2. injection E2 as <- <-.
      rewrite (go_method _ _ _ _ _ _ H), (go_alive _ _ _ _ _ _ H) in E3. cbn [evaluate_population] in E3. change (inds_of (with_inds s l')) with l' in E3.
      destruct (eval_cases l' w1 _ _ Nl G1 (fun o Ho => proj1 (S1 o Ho)) E3) as (K2 & Kd & O2 & Ib & V2). rewrite B1 in E4.
      assert (S2 : forall o, In o l' -> scalar_at v2 h o) by (intros o Ho; eapply kinds_scalar; [exact Kd|apply S1; exact Ho]).
      assert (Ar : at_ v2 b0 = at_ w b0).
      { rewrite (O2 b0 Nr Lt). destruct B2 as (i & A & _). rewrite A. eapply frame_at; eauto. }
      assert (Sr : scalar_at v2 h b0) by (destruct B2 as (i & A & S); exists i; rewrite Ar; auto).
      assert (Vr : has_value ev v2 b0) by (destruct B3 as (i & v & A & S); exists i, v; rewrite Ar; auto).
      assert (w' = v2).
      { destruct (scored_at v2 h best ev Hnum (S2 best Ib) (V2 best Ib)) as [Sb' Ob].
        destruct (scored_at v2 h b0 ev Hnum Sr Vr) as [Sr' _]. rewrite (better_scored v2 h best b0 _ _ Sb' Sr' Ob) in E4. congruence. }
      subst w'. assert (Kall : gkeep w v2).
      { intros o i A. destruct (K2 o i (frame_at _ _ _ _ F1 A)) as (j & B & E'). eauto. }
      constructor.
      + exists l'. split; [destruct c; reflexivity|]. split; [exact L1|]. split; [exact (genomes_gkeep _ _ _ _ K2 G1)|auto].
      + destruct c.
        * exists best. split; [reflexivity|]. split; [auto|]. split; [auto|].
          intros o [<-|[]]. exact (genomes_gkeep _ _ _ _ K2 G1 best Ib).
        * exists b0. split; [exact B1|]. split; [exact Sr|]. split; [exact Vr|]. exact (genomes_gkeep _ _ _ _ Kall B4).
      + destruct c; exact (go_check _ _ _ _ _ _ H).
      + destruct c; exact (go_method _ _ _ _ _ _ H).
      + destruct c; exact (go_alive _ _ _ _ _ _ H).
      + intros m Hm. replace (evals (a_trace (after_breeding [with_inds s l'] best c worst a))) with (evals (a_trace a) ++ [l'] ) in Hm.
        * apply in_app_iff in Hm as [Hm|[<-|[]]].
          -- destruct (go_evals _ _ _ _ _ _ H m Hm) as [Q1 Q2]. split; [exact Q1|exact (genomes_gkeep _ _ _ _ Kall Q2)].
          -- split; [exact L1|exact (genomes_gkeep _ _ _ _ K2 G1)].
        * destruct c; cbn; rewrite !evals_app; cbn; rewrite ?app_nil_r; reflexivity.
    - apply iteration_raised in E. rewrite P1, E1 in E. destruct E as [[_ E]|(pop & v1 & E2 & E)]; [discriminate|]. injection E2 as <- <-.
      rewrite (go_method _ _ _ _ _ _ H), (go_alive _ _ _ _ _ _ H) in E. cbn [evaluate_population] in E. change (inds_of (with_inds s l')) with l' in E.
      destruct E as [[-> E3]|(best & v2 & E3 & E4)].
      + destruct (eval_cases l' w1 _ _ Nl G1 (fun o Ho => proj1 (S1 o Ho)) E3) as (K2 & Kd & _ & C). split; [|exact C]. split.
        * exists l'. split; [reflexivity|]. split; [exact L1|]. split; [exact (genomes_gkeep _ _ _ _ K2 G1)|]. intros o Ho. eapply kinds_scalar; [exact Kd|apply S1; exact Ho].
        * exact (go_check _ _ _ _ _ _ H).
        * exact (go_method _ _ _ _ _ _ H).
        * exact (go_alive _ _ _ _ _ _ H).
      + exfalso. destruct (eval_cases l' w1 _ _ Nl G1 (fun o Ho => proj1 (S1 o Ho)) E3) as (K2 & Kd & O2 & Ib & V2). rewrite B1 in E4.
        assert (S2 : forall o, In o l' -> scalar_at v2 h o) by (intros o Ho; eapply kinds_scalar; [exact Kd|apply S1; exact Ho]).
        assert (Ar : at_ v2 b0 = at_ w b0).
        { rewrite (O2 b0 Nr Lt). destruct B2 as (i & A & _). rewrite A. eapply frame_at; eauto. }
        assert (Sr : scalar_at v2 h b0) by (destruct B2 as (i & A & S); exists i; rewrite Ar; auto).
        assert (Vr : has_value ev v2 b0) by (destruct B3 as (i & v & A & S); exists i, v; rewrite Ar; auto).
        destruct (scored_at v2 h best ev Hnum (S2 best Ib) (V2 best Ib)) as [Sb' Ob]. destruct (scored_at v2 h b0 ev Hnum Sr Vr) as [Sr' _].
        pose proof (better_scored v2 h best b0 _ _ Sb' Sr' Ob) as Eb.
        destruct E4 as [(r & Er & E4 & _)|(c & E4 & [E5|(x & rest & E5 & E6)] & _)]; [injection Er as <-; congruence|discriminate|]. injection E5 as <- <-.
        rewrite Eb in E4. injection E4 as _ <-.
        destruct (worst_individual (with_inds s l') v2 (score_of v2) Nl) as (worst & Ew & _); [|congruence].
        intros o Ho. eapply scored_at; eauto.
  Qed.

  Lemma going_seed g a w w1 : regen w w1 -> going G ev h s a w ->
    going G ev h s (set_gen_seed (next_seed (a_gen_seed a)) (add_trace (TSeed (next_seed (a_gen_seed a))) (set_gen_num g a))) w1.
  Proof. intros R H. eapply going_skip; [..|exact R|exact H]; try reflexivity. cbn. rewrite evals_app. cbn. apply app_nil_r. Qed.

  Lemma going_round g a w r a' w' : going G ev h s a w -> body (generation_iteration ev sched) g (a, w) = (r, (a', w')) ->
    match r with Ok _ => going G ev h s a' w' | Raise e => resumable a' w' /\ culprit e end.
  Proof.
    intros H E. destruct r as [st|e].
    - apply body_ok in E as (w1 & a2 & w2 & R & _ & E1 & E2). apply (going_seed g a w w1 R) in H. apply (going_step _ _ _ _ _ H) in E1.
      destruct (going_terminate G ev h s Hnum Hhib Hsize a2 w2 E1) as (st' & a3 & E3 & H3). rewrite E2 in E3. injection E3 as -> -> ->. exact H3.
    - apply body_raised in E as [(_ & _ & E)|(w1 & R & _ & E)].
      + exfalso. destruct (go_pop _ _ _ _ _ _ H) as (l & P1 & _ & P3 & _). rewrite P1 in E. cbn [flat_map] in E. rewrite app_nil_r in E.
        destruct (iter_gen g l w (genomes_present _ _ _ P3)) as (w1 & E1 & _). change (inds_of (with_inds s l)) with l in E. congruence.
      + apply (going_seed g a w w1 R) in H. destruct E as [E|(a2 & w2 & E & E2)]; [exact (going_step _ _ _ _ _ H E)|].
        apply (going_step _ _ _ _ _ H) in E. destruct (going_terminate G ev h s Hnum Hhib Hsize a2 w2 E) as (st' & a3 & E3 & H3). congruence.
  Qed.

  Lemma going_rounds todo : forall g a w r a' w', going G ev h s a w -> main_loop (generation_iteration ev sched) todo g (a, w) = (r, (a', w')) ->
    match r with Ok _ => going G ev h s a' w' | Raise e => resumable a' w' /\ culprit e end.
  Proof.
    induction todo as [|todo IH]; intros g a w r a' w' H E; [cbn in E; unfold ret in E; injection E as <- <- <-; exact H|].
    rewrite main_loop_body in E. unfold bind at 1 in E. destruct (body (generation_iteration ev sched) g (a, w)) as [[st|e] [a1 w1]] eqn:Eb.
    - apply (going_round _ _ _ _ _ _ H) in Eb. destruct st.
      + destruct (going_publish G ev h s "after_generation" (set_final (Some g) a1) w1) as (a2 & E2 & H2); [eapply going_skip; [..|apply regen_refl|exact Eb]; reflexivity|].
        erewrite bind_eq_ok in E; [|reflexivity]. cbn [fst snd] in E. rewrite E2 in E. injection E as <- <- <-. exact H2.
      + destruct (going_publish G ev h s "after_generation" a1 w1 Eb) as (a2 & E2 & H2). rewrite (bind_eq_ok _ _ _ _ _ E2) in E. eapply IH; [exact H2|exact E].
    - injection E as <- <- <-. exact (going_round _ _ _ _ _ _ H Eb).
  Qed.
End Again.

Lemma init_cases G ev sched h s n a w r a' w' : gives_numbers ev -> fair sched -> a_trace a = [] -> configured h a w s -> closed_under G w s ->
  initialize ev sched n (a, w) = (r, (a', w')) ->
  match r with Ok _ => going G ev h s a' w' | Raise e => resumable G h s a' w' /\ culprit G ev e end.
Proof.
  intros Hnum Hfair Htr C K E. pose proof (cf_size _ _ _ _ C) as Hsize.
  destruct (create_total G h a w s C K) as (l & w1 & E1 & L1 & G1 & S1).
  assert (Nl : l <> []) by (apply (nonempty s Hsize); exact L1).
  destruct r as [[]|e].
  - apply init_ok in E as (pop & v1 & best & E2 & E3 & ->). rewrite (cf_pop _ _ _ _ C), E1 in E2. injection E2 as <- <-.
    rewrite (cf_method _ _ _ _ C), (cf_alive _ _ _ _ C) in E3. cbn [evaluate_population] in E3. change (inds_of (with_inds s l)) with l in E3.
    destruct (eval_cases G ev sched h Hnum Hfair l w1 _ _ Nl G1 S1 E3) as (K2 & Kd & _ & Ib & V2).
    assert (S2 : forall o, In o l -> scalar_at w' h o) by (intros o Ho; eapply kinds_scalar; [exact Kd|apply S1; exact Ho]).
    constructor.
    + exists l. split; [reflexivity|]. split; [exact L1|]. split; [exact (genomes_gkeep _ _ _ _ K2 G1)|auto].
    + exists best. split; [reflexivity|]. split; [auto|]. split; [auto|]. intros o [<-|[]]. exact (genomes_gkeep _ _ _ _ K2 G1 best Ib).
    + exact (cf_checkers _ _ _ _ C).
    + exact (cf_method _ _ _ _ C).
    + exact (cf_alive _ _ _ _ C).
    + intros m Hm. cbn in Hm. rewrite Htr in Hm. cbn in Hm. destruct Hm as [<-|[]]. change (inds_of (with_inds s l) ++ []) with (l ++ []). rewrite app_nil_r.
      split; [exact L1|exact (genomes_gkeep _ _ _ _ K2 G1)].
  - apply init_raised in E. rewrite (cf_pop _ _ _ _ C), E1 in E. destruct E as [[_ E]|(pop & v1 & E2 & -> & E3)]; [discriminate|]. injection E2 as <- <-.
    rewrite (cf_method _ _ _ _ C), (cf_alive _ _ _ _ C) in E3. cbn [evaluate_population] in E3. change (inds_of (with_inds s l)) with l in E3.
    destruct (eval_cases G ev sched h Hnum Hfair l w1 _ _ Nl G1 S1 E3) as (K2 & Kd & _ & Cu). split; [|exact Cu]. split.
    + exists l. split; [reflexivity|]. split; [exact L1|]. split; [exact (genomes_gkeep _ _ _ _ K2 G1)|]. intros o Ho. eapply kinds_scalar; [exact Kd|apply S1; exact Ho].
    + exact (cf_checkers _ _ _ _ C).
    + exact (cf_method _ _ _ _ C).
    + exact (cf_alive _ _ _ _ C).
Qed.

Lemma run_resumable G ev sched h s n a w e a' w' : gives_numbers ev -> fair sched -> a_trace a = [] -> configured h a w s -> closed_under G w s ->
  (forall g, G g -> printable g) -> evolve ev sched n (a, w) = (Raise e, (a', w')) -> resumable G h s a' w' /\ culprit G ev e.
Proof.
  intros Hnum Hfair Htr C K P E. pose proof (cf_hib _ _ _ _ C) as Hhib. pose proof (cf_size _ _ _ _ C) as Hsize.
  pose proof (cf_arities _ _ _ _ C) as Har. pose proof (cf_sel _ _ _ _ C) as Hsel. pose proof (proj1 K) as Hop.
  unfold evolve, evolve_with in E. unfold bind at 1 in E. destruct (initialize ev sched n (a, w)) as [[u|e'] [a1 w1]] eqn:Ei.
  2:{ injection E as <- <- <-. exact (init_cases G ev sched h s n a w _ _ _ Hnum Hfair Htr C K Ei). }
  apply (init_cases G ev sched h s n a w _ _ _ Hnum Hfair Htr C K) in Ei.
  destruct (going_terminate G ev h s Hnum Hhib Hsize a1 w1 Ei) as (st & a2 & E3 & H2). rewrite (bind_eq_ok _ _ _ _ _ E3) in E.
  assert (Fin : forall a3 w3, going G ev h s a3 w3 -> (publish "evolution_finished" ;;; finish) (a3, w3) = (Raise e, (a', w')) -> False).
  { intros a3 w3 H3 E4. destruct (going_publish G ev h s "evolution_finished" a3 w3 H3) as (a4 & E5 & H4). rewrite (bind_eq_ok _ _ _ _ _ E5) in E4.
    apply finish_raised in E4 as (_ & _ & E4). destruct (go_best _ _ _ _ _ _ H4) as (b' & B & _ & _ & Gb). destruct (Gb b' (or_introl eq_refl)) as (i & A & Gi).
    specialize (E4 b' B i A). rewrite (show_printable i (P _ Gi)) in E4. discriminate. }
  destruct st.
  - exfalso. destruct (going_publish G ev h s "after_generation" (set_final (Some 0) a2) w1) as (a3 & E4 & H3); [eapply going_skip; [..|apply regen_refl|exact H2]; reflexivity|].
    assert (E5 : (algo_mod (set_final (Some 0)) ;;; publish "after_generation") (a2, w1) = (Ok tt, (a3, w1))) by (erewrite bind_eq_ok; [exact E4|reflexivity]).
    rewrite (bind_eq_ok _ _ _ _ _ E5) in E. exact (Fin _ _ H3 E).
  - unfold bind at 1 in E. destruct ((a0 <- algo_get ;; main_loop (generation_iteration ev sched) (a_max_gen a0) 1) (a2, w1)) as [[u1|e1] [a3 w3]] eqn:El.
    + exfalso. erewrite bind_eq_ok in El; [|reflexivity]. cbn [fst] in El.
      apply (going_rounds G ev sched h s Hnum Hfair Hhib Hsize Har Hsel Hop _ _ _ _ _ _ _ H2) in El. exact (Fin _ _ El E).
    + injection E as <- <- <-. erewrite bind_eq_ok in El; [|reflexivity]. cbn [fst] in El.
      exact (going_rounds G ev sched h s Hnum Hfair Hhib Hsize Har Hsel Hop _ _ _ _ _ _ _ H2 El).
Qed.

(** The first evaluation of a run that ends. *)
Lemma first_evaluation ev sched n a w a' w' s l : a_trace a = [] -> a_pop a = [s] -> sp_inds s = Some l -> evolve ev sched n (a, w) = (Ok tt, (a', w')) ->
  exists rest, evals (a_trace a') = l :: rest.
Proof.
  intros T Hs Hl H. unfold evolve in H. apply evolve_ok in H as (a1 & w1 & st & a2 & a3 & w3 & Hi & Ht & Hm & Hf).
  apply init_ok in Hi as (pop & v & best & Ec & Ee & Ea1). apply terminate_ok in Ht as (_ & b & ans & cs & _ & _ & Ea2 & _).
  apply finish_ok in Hf as [-> _]. rewrite Hs in Ec. cbn [mapM] in Ec. unfold create_subpopulation in Ec. rewrite Hl in Ec. unfold bind, ret in Ec. injection Ec as <- <-.
  assert (E2 : evals (a_trace a2) = [l]).
  { subst a2 a1. cbn. rewrite T, !evals_app. cbn. unfold inds_of. rewrite Hl, app_nil_r. reflexivity. }
  clear Ea1 Ea2. destruct st.
  - destruct Hm as [-> ->]. exists []. cbn. rewrite !evals_app, E2. reflexivity.
  - destruct (loop_trace _ (simple_quiet ev sched) _ _ _ _ _ _ Hm) as (k & tr & _ & Htr & _).
    exists (evals tr). cbn. rewrite evals_app, Htr, evals_app, E2. cbn. rewrite app_nil_r. reflexivity.
Qed.

Lemma run_again G ev ev' sched sched' h s n n' a w e a' w' :
  gives_numbers ev -> fair sched -> a_trace a = [] -> configured h a w s -> closed_under G w s -> (forall g, G g -> printable g) ->
  evolve ev sched n (a, w) = (Raise e, (a', w')) -> gives_numbers ev' -> total_on G ev' -> fair sched' ->
  (exists g, G g /\ ev g = Raise e) /\
  exists l rest a2 w2, a_pop a' = [with_inds s l] /\ evolve ev' sched' n' (anew a', w') = (Ok tt, (a2, w2)) /\
    evals (a_trace a2) = l :: rest /\ forall m, In m (evals (a_trace a2)) -> length m = sp_size s /\ genomes_in G m w2.
Proof.
  intros Hnum Hfair Htr C K P E Hnum' Htot' Hfair'. destruct (run_resumable G ev sched h s n a w e a' w' Hnum Hfair Htr C K P E) as [[(l & P1 & P2 & P3 & P4) Ck Me Al] Cu].
  split; [exact Cu|].
  destruct (run_completes G ev' sched' h (with_inds s l) n' (anew a') w' Hnum' Htot' Hfair' eq_refl) as (a2 & w2 & E2 & V).
  - constructor.
    + exact P1.
    + exact (cf_hib _ _ _ _ C).
    + exact (cf_size _ _ _ _ C).
    + exact (cf_arities _ _ _ _ C).
    + exact (cf_sel _ _ _ _ C).
    + cbn [sp_inds with_inds sp_size]. auto.
    + exact Ck.
    + exact Me.
    + exact Al.
  - split; [exact (proj1 K)|exact P3].
  - exact P.
  - destruct (first_evaluation ev' sched' n' (anew a') w' a2 w2 (with_inds s l) l eq_refl P1 eq_refl E2) as (rest & Er).
    exists l, rest, a2, w2. auto.
Qed.
