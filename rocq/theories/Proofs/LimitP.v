(** * The limits of a run only decide when it stops. *)
From Coq Require Import Lia.
From Verif.Proofs Require Import Lib RunP BestP EvoFinalP OrderP StatP.
From Verif.Model Require Import Evolution Nsga2 World Base.
From Verif.Spec Require Import WorldSpec FitnessSpec EvoSpec LimitSpec.
Open Scope nat_scope.
Open Scope list_scope.

Definition unchecked (e : tev) : bool := match e with TCheck _ => false | _ => true end.

(** The algorithm without its limits and their answers. *)
Definition base (a : algo) : algo :=
  mkAlgo (a_pop a) 0 [] (a_random_seed a) (a_gen_seed a) (a_method a) (a_alive a) (a_best_run a) (a_best_gen a) (a_worst_gen a)
    (a_gen_num a) None (a_stats a) (filter unchecked (a_trace a)).

Definition lrel (s t : algo * world) : Prop := base (fst s) = base (fst t) /\ snd s = snd t.

Lemma l_lift {X} (m : M X) : rel lrel eq (liftM m) (liftM m).
Proof. intros [a w] [b v] [Hb Hw]. cbn in Hb, Hw. subst v. unfold liftM. cbn. destruct (m w) as [[x|e] w']; repeat split; assumption. Qed.

Lemma l_get {Y} (k1 k2 : algo -> A Y) (Q : Y -> Y -> Prop) :
  (forall a b, base a = base b -> rel lrel Q (k1 a) (k2 b)) -> rel lrel Q (bind algo_get k1) (bind algo_get k2).
Proof. intros H [a w] [b v] [Hb Hw]. cbn in Hb, Hw. unfold bind, algo_get. cbn. apply H; [exact Hb|split; assumption]. Qed.

Lemma l_mod f g : (forall a b, base a = base b -> base (f a) = base (g b)) -> rel lrel eq (algo_mod f) (algo_mod g).
Proof. intros H [a w] [b v] [Hb Hw]. cbn in *. split; [reflexivity|]. split; [apply H; exact Hb|exact Hw]. Qed.

Lemma base_pop a b : base a = base b -> a_pop a = a_pop b. Proof. intros H. exact (f_equal a_pop H). Qed.
Lemma base_method a b : base a = base b -> a_method a = a_method b. Proof. intros H. exact (f_equal a_method H). Qed.
Lemma base_alive a b : base a = base b -> a_alive a = a_alive b. Proof. intros H. exact (f_equal a_alive H). Qed.
Lemma base_seed a b : base a = base b -> a_random_seed a = a_random_seed b. Proof. intros H. exact (f_equal a_random_seed H). Qed.
Lemma base_gseed a b : base a = base b -> a_gen_seed a = a_gen_seed b. Proof. intros H. exact (f_equal a_gen_seed H). Qed.
Lemma base_run a b : base a = base b -> a_best_run a = a_best_run b. Proof. intros H. exact (f_equal a_best_run H). Qed.
Lemma base_bgen a b : base a = base b -> a_best_gen a = a_best_gen b. Proof. intros H. exact (f_equal a_best_gen H). Qed.
Lemma base_worst a b : base a = base b -> a_worst_gen a = a_worst_gen b. Proof. intros H. exact (f_equal a_worst_gen H). Qed.
Lemma base_num a b : base a = base b -> a_gen_num a = a_gen_num b. Proof. intros H. exact (f_equal a_gen_num H). Qed.
Lemma base_trace a b : base a = base b -> filter unchecked (a_trace a) = filter unchecked (a_trace b). Proof. intros H. exact (f_equal a_trace H). Qed.

Lemma base_add e a b : base a = base b -> base (add_trace e a) = base (add_trace e b).
Proof.
  intros H. assert (D : forall c, base (add_trace e c) = if unchecked e then add_trace e (base c) else base c).
  { intros c. unfold base, add_trace. cbn. rewrite filter_app. cbn. destruct (unchecked e); [reflexivity|]. rewrite app_nil_r. reflexivity. }
  rewrite !D, H. reflexivity.
Qed.

Lemma l_add e : rel lrel eq (algo_mod (add_trace e)) (algo_mod (add_trace e)).
Proof. apply l_mod. intros a b. apply base_add. Qed.

(** Setters that commute with forgetting the limits. *)
Ltac setter := apply l_mod; let a := fresh in let b := fresh in let H := fresh in intros a b H;
  match goal with |- base (?f a) = base (?f b) => change (f (base a) = f (base b)); rewrite H; reflexivity end.

Lemma l_publish nm : rel lrel eq (publish nm) (publish nm).
Proof.
  intros [a w] [b v] [Hb Hw]. cbn in Hb, Hw. subst v. rewrite !publish_eq, (base_run _ _ Hb), (base_num _ _ Hb).
  split; [reflexivity|]. split; [apply base_add; exact Hb|reflexivity].
Qed.

Lemma l_seed z : rel lrel eq (seed_generators z) (seed_generators z).
Proof. unfold seed_generators. apply r_bind_eq; [apply l_lift|]. intros _. apply l_add. Qed.

Lemma l_eval ev sched : rel lrel eq (act_evaluator ev sched) (act_evaluator ev sched).
Proof.
  unfold act_evaluator. apply l_get. intros a b H. rewrite (base_method _ _ H), (base_alive _ _ H), (base_pop _ _ H).
  apply r_bind_eq; [apply l_lift|]. intros o. apply r_bind_eq; [apply l_add|]. intros _. apply r_ret_eq.
Qed.

Lemma l_init ev sched n : rel lrel eq (initialize ev sched n) (initialize ev sched n).
Proof.
  unfold initialize. apply l_get. intros a b H. rewrite (base_seed _ _ H), (base_pop _ _ H).
  apply r_bind_eq; [apply l_seed|]. intros _. apply r_bind_eq; [apply l_lift|]. intros p.
  apply r_bind_eq; [setter|]. intros _. apply r_bind_eq; [apply l_eval|]. intros o.
  apply r_bind_eq; [setter|]. intros _. apply r_bind_eq; [apply l_publish|]. intros _. setter.
Qed.

Lemma l_update g : rel lrel eq (update_gen g) (update_gen g).
Proof. unfold update_gen. apply l_get. intros a b H. rewrite (base_pop _ _ H). apply l_lift. Qed.

Lemma l_iteration ev sched : rel lrel eq (generation_iteration ev sched) (generation_iteration ev sched).
Proof.
  unfold generation_iteration. apply l_get. intros a b H. rewrite (base_pop _ _ H).
  apply r_bind_eq; [apply l_lift|]. intros p. apply r_bind_eq; [setter|]. intros _. apply r_bind_eq; [apply l_add|]. intros _.
  apply r_bind_eq; [apply l_eval|]. intros o. apply r_bind_eq; [setter|]. intros _.
  apply l_get. intros a' b' H'. rewrite (base_run _ _ H'), (base_pop _ _ H').
  apply r_bind_eq. { destruct (a_best_run b'); [apply l_lift|apply r_ret_eq]. }
  intros c. apply r_bind_eq; [destruct c; [setter|apply r_ret_eq]|]. intros _.
  destruct (a_pop b'); [apply r_raise|]. apply r_bind_eq; [apply l_lift|]. intros x. setter.
Qed.

Lemma l_nsga2 ev sched so d : rel lrel eq (nsga2_generation ev sched so d) (nsga2_generation ev sched so d).
Proof.
  unfold nsga2_generation. apply l_get. intros a b H. rewrite (base_pop _ _ H).
  apply r_bind_eq; [apply l_lift|]. intros p. apply r_bind_eq; [setter|]. intros _. apply r_bind_eq; [apply l_add|]. intros _.
  apply r_bind_eq; [apply l_eval|]. intros o. apply r_bind_eq; [apply l_lift|]. intros p'. setter.
Qed.

(** A check changes nothing but the limits. *)
Lemma check_base a w st a' w' : should_terminate (a, w) = (Ok st, (a', w')) -> base a' = base a /\ w' = w.
Proof.
  intros E. apply terminate_ok in E. destruct E as (-> & best & ans & cs & _ & _ & -> & _). split; [|reflexivity].
  unfold base, add_trace, set_checkers. cbn. rewrite filter_app. cbn. rewrite app_nil_r. reflexivity.
Qed.

Section Loop.
  Variable it : A unit.
  Hypothesis l_it : rel lrel eq it it.
  Hypothesis g_it : grows it.
  (** An invariant between generations, and how worlds change under it. *)
  Variables (I : algo * world -> Prop) (K : world -> world -> Prop).
  Hypothesis i_body : forall g s st s', I s -> body it g s = (Ok st, s') -> I s'.
  Hypothesis i_publish : forall nm s, I s -> I (snd (publish nm s)).
  Hypothesis i_final : forall f a w, I (a, w) -> I (set_final f a, w).
  Hypothesis i_kept : forall k g s s', I s -> main_loop it k g s = (Ok tt, s') -> K (snd s) (snd s').
  Hypothesis k_refl : forall w, K w w.

  (** Up to the check. *)
  Definition round (gen : nat) : A unit :=
    algo_mod (set_gen_num gen) ;;;
    update_gen gen ;;;
    a <- algo_get ;;
    seed_generators (next_seed (a_gen_seed a)) ;;;
    algo_mod (set_gen_seed (next_seed (a_gen_seed a))) ;;;
    it.

  Lemma l_round g : rel lrel eq (round g) (round g).
  Proof.
    unfold round. apply r_bind_eq; [setter|]. intros _. apply r_bind_eq; [apply l_update|]. intros _.
    apply l_get. intros a b H. rewrite (base_gseed _ _ H). apply r_bind_eq; [apply l_seed|]. intros _.
    apply r_bind_eq; [setter|]. intros _. exact l_it.
  Qed.

  Lemma body_round g s : body it g s = (round g ;;; should_terminate) s.
  Proof.
    unfold body, round. rewrite bind_assoc. apply bind_ext. intros _ s1.
    rewrite bind_assoc. apply bind_ext. intros _ s2. rewrite bind_assoc. apply bind_ext. intros a s3.
    rewrite bind_assoc. apply bind_ext. intros _ s4. rewrite bind_assoc. apply bind_ext. intros _ s5. reflexivity.
  Qed.

  Lemma body_rel g s t st s' st' t' : lrel s t -> body it g s = (Ok st, s') -> body it g t = (Ok st', t') -> lrel s' t'.
  Proof.
    intros H E1 E2. rewrite body_round in E1, E2. mb E1 as x1 s1 F1. mb E2 as x2 s2 F2.
    pose proof (l_round g s t H) as L. rewrite F1, F2 in L. destruct L as [_ [L1 L2]].
    destruct s1 as [a1 w1], s2 as [a2 w2], s' as [a1' w1'], t' as [a2' w2']. cbn in L1, L2.
    apply check_base in E1. apply check_base in E2. destruct E1 as [E1 ->], E2 as [E2 ->]. split; cbn; congruence.
  Qed.

  (** [x] is a state that a run ending in [y] passes through, up to the limits. *)
  Definition ahead (x y : algo * world) : Prop := exists s k g, lrel x s /\ I s /\ main_loop it k g s = (Ok tt, y).

  Lemma lrel_sym x y : lrel x y -> lrel y x.
  Proof. intros [A B]. split; auto. Qed.

  Lemma final_base f a : base (set_final f a) = base a. Proof. reflexivity. Qed.

  Lemma loop_compare : forall n m g s t s' t', lrel s t -> I s -> I t -> main_loop it n g s = (Ok tt, s') -> main_loop it m g t = (Ok tt, t') ->
    ahead s' t' \/ ahead t' s'.
  Proof.
    induction n as [|n IH]; intros m g s t s' t' H Is It E1 E2.
    { cbn in E1. injection E1 as <-. left. exists t, m, g. auto. }
    destruct m as [|m].
    { cbn in E2. injection E2 as <-. right. exists s, (S n), g. split; [apply lrel_sym; exact H|auto]. }
    rewrite main_loop_body in E1, E2. mb E1 as st1 s1 F1. mb E2 as st2 s2 F2.
    pose proof (body_rel g _ _ _ _ _ _ H F1 F2) as L. pose proof (i_body _ _ _ _ Is F1) as I1. pose proof (i_body _ _ _ _ It F2) as I2.
    assert (P : forall st k u v, (if st : bool then algo_mod (set_final (Some g)) ;;; publish "after_generation" else publish "after_generation" ;;; main_loop it k (S g)) u = (Ok tt, v) -> I u ->
       exists u', I u' /\ publish "after_generation" u = (Ok tt, u') /\ (if st then lrel v u' /\ I v else main_loop it k (S g) u' = (Ok tt, v))).
    { intros st k [a w] v E Iu. exists (snd (publish "after_generation" (a, w))). split; [apply i_publish; exact Iu|]. split; [rewrite publish_eq; reflexivity|]. destruct st.
      - mb E as x y Fx. unfold algo_mod in Fx. cbn in Fx. injection Fx as _ <-.
        pose proof (i_publish "after_generation" _ (i_final (Some g) a w Iu)) as Iv.
        rewrite publish_eq in E, Iv |- *. injection E as <-. split; [|exact Iv]. split; [|reflexivity].
        cbn. apply (base_add _ (set_final (Some g) a) a). apply final_base.
      - mb E as x y Fx. rewrite publish_eq in Fx |- *. injection Fx as _ <-. exact E. }
    apply P in E1; [|exact I1]. apply P in E2; [|exact I2]. destruct E1 as (u1 & U1 & P1 & E1), E2 as (u2 & U2 & P2 & E2).
    pose proof (l_publish "after_generation" _ _ L) as L'. rewrite P1, P2 in L'. destruct L' as [_ L'].
    assert (T : forall x y z, lrel x y -> lrel y z -> lrel x z) by (intros x y z [A1 A2] [B1 B2]; split; congruence).
    destruct st1.
    - destruct st2.
      + destruct E1 as [E1 V1], E2 as [E2 V2]. left. exists t', 0, 0. split; [|split; [exact V2|reflexivity]].
        apply T with u1; [exact E1|]. apply T with u2; [exact L'|]. apply lrel_sym. exact E2.
      + destruct E1 as [E1 V1]. left. exists u2, m, (S g). split; [|split; [exact U2|exact E2]]. apply T with u1; assumption.
    - destruct st2.
      + destruct E2 as [E2 V2]. right. exists u1, n, (S g). split; [|split; [exact U1|exact E1]]. apply T with u2; [exact E2|apply lrel_sym; exact L'].
      + eapply IH; [exact L'|exact U1|exact U2|exact E1|exact E2].
  Qed.

  Lemma does_unchecked tr : doings tr = doings (filter unchecked tr).
  Proof. unfold doings. induction tr as [|e tr IH]; [reflexivity|]. cbn. destruct e; cbn; rewrite ?IH; reflexivity. Qed.
  Lemma reports_unchecked tr : after_generations tr = after_generations (filter unchecked tr).
  Proof. unfold after_generations. induction tr as [|e tr IH]; [reflexivity|]. cbn. destruct e; cbn; rewrite ?IH; reflexivity. Qed.
  Lemma doings_app t u : doings (t ++ u) = doings t ++ doings u. Proof. apply filter_app. Qed.
  Lemma reports_app t u : after_generations (t ++ u) = after_generations t ++ after_generations u. Proof. apply filter_app. Qed.

  (** Each round does something. *)
  Lemma loop_does k g s s' : main_loop it k g s = (Ok tt, s') ->
    exists t, a_trace (fst s') = a_trace (fst s) ++ t /\ (doings t = [] -> s' = s).
  Proof.
    intros E. destruct k as [|k]; [cbn in E; injection E as <-; exists []; rewrite app_nil_r; auto|].
    assert (X : exists z t, a_trace (fst s') = (a_trace (fst s) ++ [TSeed z]) ++ t).
    { cbn [main_loop] in E. destruct s as [a w]. mb E as x1 s1 F1. unfold algo_mod in F1. cbn in F1. injection F1 as _ <-.
      mb E as x2 s2 F2. unfold update_gen in F2. mb F2 as a0 s3 F3. unfold algo_get in F3. injection F3 as <- <-.
      destruct s2 as [a2 w2]. la F2. mb E as a3 s3 F3. unfold algo_get in F3. injection F3 as <- <-.
      mb E as x3 s3 F3. destruct s3 as [a3 w3]. apply seed_ok in F3. destruct F3 as [-> ->].
      match type of E with ?m ?s = _ => assert (G : grows m); [|pose proof (G s) as Gs; rewrite E in Gs] end.
      { gr; try exact g_it; try apply grows_terminate. apply grows_loop. exact g_it. }
      destruct Gs as (t & Ht). cbn [fst snd] in Ht. eexists _, t. rewrite Ht. reflexivity. }
    destruct X as (z & t & Ht). exists (TSeed z :: t). split; [rewrite Ht, <- app_assoc; reflexivity|]. discriminate.
  Qed.

  Lemma ahead_facts x y : ahead x y ->
    exists t, doings (a_trace (fst y)) = doings (a_trace (fst x)) ++ doings t /\ after_generations (a_trace (fst y)) = after_generations (a_trace (fst x)) ++ after_generations t /\
      (doings t = [] -> lrel x y) /\ K (snd x) (snd y).
  Proof.
    intros (s & k & g & L & Is & E). destruct (loop_does _ _ _ _ E) as (t & Ht & D). exists t.
    destruct L as [L1 L2]. pose proof (base_trace _ _ L1) as Lt.
    rewrite Ht, doings_app, reports_app. rewrite (does_unchecked (a_trace (fst s))), (reports_unchecked (a_trace (fst s))), <- Lt, <- does_unchecked, <- reports_unchecked.
    split; [reflexivity|]. split; [reflexivity|]. split; [intros N; apply D in N; subst y; split; assumption|]. rewrite L2. eapply i_kept; eauto.
  Qed.

  Variable fin : A unit.
  Hypothesis fin_ok : forall a w u a' w', fin (a, w) = (Ok u, (a', w')) -> w' = w /\ a_trace a' = a_trace a /\ same_results a a'.

  Variables (ev : genome -> res fval) (sched : nat -> list nat) (n : nat).

  (** The state before the end, and the final one. *)
  Lemma ending a3 w3 b i a' w' : fin (add_trace (TPublish "evolution_finished" (a_gen_num a3) b i) a3, w3) = (Ok tt, (a', w')) ->
    w' = w3 /\ doings (a_trace a') = doings (a_trace a3) /\ after_generations (a_trace a') = after_generations (a_trace a3) /\ same_results a3 a' /\
    (In TBreed (a_trace a') -> In TBreed (a_trace a3)).
  Proof.
    intros E. apply fin_ok in E. destruct E as (-> & Et & Es). split; [reflexivity|]. rewrite Et. cbn [a_trace add_trace].
    rewrite doings_app, reports_app. cbn. rewrite !app_nil_r. split; [reflexivity|]. split; [reflexivity|]. split; [exact Es|].
    intros H. apply in_app_or in H. destruct H as [H|[H|[]]]; [exact H|discriminate].
  Qed.

  Lemma results_base a b : base a = base b -> same_results a b.
  Proof. intros H. repeat split; [apply base_pop|apply base_run|apply base_bgen|apply base_worst|apply base_num|apply base_gseed]; exact H. Qed.

  Lemma results_trans a b c : same_results a b -> same_results b c -> same_results a c.
  Proof. intros (A1 & A2 & A3 & A4 & A5 & A6) (B1 & B2 & B3 & B4 & B5 & B6). repeat split; congruence. Qed.
  Lemma results_sym a b : same_results a b -> same_results b a.
  Proof. intros (A1 & A2 & A3 & A4 & A5 & A6). repeat split; congruence. Qed.

  Lemma breed_doing tr : In TBreed tr -> In TBreed (doings tr).
  Proof. intros H. apply filter_In. auto. Qed.

  Lemma limits a w m1 c1 m2 c2 r1 r2 : a_trace a = [] ->
    (forall m c s st s', initialize ev sched n (limited m c a, w) = (Ok tt, s) -> should_terminate s = (Ok st, s') -> I s') ->
    evolve_with ev sched it fin n (limited m1 c1 a, w) = (Ok tt, r1) -> evolve_with ev sched it fin n (limited m2 c2 a, w) = (Ok tt, r2) ->
    length (doings (a_trace (fst r1))) <= length (doings (a_trace (fst r2))) -> continues r1 r2 /\ K (snd r1) (snd r2).
  Proof.
    intros Ht Hi E1 E2 Hle. destruct r1 as [a1 w1], r2 as [a2 w2]. apply evolve_ok in E1. apply evolve_ok in E2.
    destruct E1 as (p1 & v1 & st1 & q1 & s1 & x1 & I1 & T1 & L1 & F1). destruct E2 as (p2 & v2 & st2 & q2 & s2 & x2 & I2 & T2 & L2 & F2).
    apply ending in F1. apply ending in F2. destruct F1 as (-> & D1 & R1 & S1 & B1), F2 as (-> & D2 & R2 & S2 & B2).
    assert (L0 : lrel (limited m1 c1 a, w) (limited m2 c2 a, w)) by (split; reflexivity).
    pose proof (l_init ev sched n _ _ L0) as LI. rewrite I1, I2 in LI. destruct LI as [_ [LI1 LI2]]. cbn in LI1, LI2. subst v2.
    pose proof (check_base _ _ _ _ _ T1) as [C1 _]. pose proof (check_base _ _ _ _ _ T2) as [C2 _].
    assert (Lq : lrel (q1, v1) (q2, v1)) by (split; cbn; congruence).
    assert (Dq : doings (a_trace q1) = doings (a_trace q2)).
    { rewrite (does_unchecked (a_trace q1)), (does_unchecked (a_trace q2)). pose proof (base_trace _ _ (proj1 Lq)) as K0. cbn [fst] in K0. rewrite K0. reflexivity. }
    assert (Nq : ~ In TBreed (a_trace q1)).
    { intros H. apply breed_doing in H. rewrite does_unchecked, (base_trace _ _ C1), <- does_unchecked in H.
      apply init_ok in I1. destruct I1 as (pop & y1 & best & _ & _ & ->). cbn in H. rewrite Ht in H. cbn in H. destruct H as [H|[H|[]]]; discriminate. }
    pose proof (Hi _ _ _ _ _ I1 T1) as J1. pose proof (Hi _ _ _ _ _ I2 T2) as J2.
    unfold continues. cbn [fst snd] in *. rewrite D1, D2, R1, R2 in *.
    destruct st1.
    - destruct L1 as [-> ->]. cbn [a_trace add_trace set_final] in *. rewrite doings_app in *. cbn in Hle |- *. rewrite app_nil_r in *.
      destruct st2.
      + destruct L2 as [-> ->]. cbn [a_trace add_trace set_final]. rewrite doings_app. cbn. rewrite app_nil_r.
        split; [|apply k_refl]. split.
        * exists []. rewrite app_nil_r. split; [auto|]. intros _. split; [reflexivity|].
          apply results_trans with q1; [apply results_sym; exact S1|]. apply results_trans with q2; [apply results_base; exact (proj1 Lq)|exact S2].
        * intros H. exfalso. apply B1 in H. apply in_app_or in H. destruct H as [H|[H|[]]]; [apply Nq; exact H|discriminate].
      + split; [|exact (i_kept _ _ _ _ J2 L2)]. split.
        * destruct (loop_does _ _ _ _ L2) as (t & Et & Dt). cbn [fst] in Et. exists (doings t). rewrite Et, doings_app. split; [congruence|].
          intros N. apply Dt in N. injection N as -> ->. split; [reflexivity|].
          apply results_trans with q1; [apply results_sym; exact S1|]. apply results_trans with q2; [apply results_base; exact (proj1 Lq)|exact S2].
        * intros H. exfalso. apply B1 in H. apply in_app_or in H. destruct H as [H|[H|[]]]; [apply Nq; exact H|discriminate].
    - destruct st2.
      + destruct L2 as [-> ->]. cbn [a_trace add_trace set_final] in *. rewrite doings_app in *. cbn in Hle |- *. rewrite app_nil_r in *.
        destruct (loop_does _ _ _ _ L1) as (t & Et & Dt). cbn [fst] in Et. rewrite Et, doings_app in Hle |- *.
        rewrite app_length, Dq in Hle. assert (N : doings t = []) by (destruct (doings t); [reflexivity|cbn in Hle; lia]).
        pose proof (Dt N) as N'. rewrite N, app_nil_r. injection N' as -> ->. split; [|apply k_refl]. split.
        * exists []. rewrite app_nil_r. split; [auto|]. intros _. split; [reflexivity|].
          apply results_trans with q1; [apply results_sym; exact S1|]. apply results_trans with q2; [apply results_base; exact (proj1 Lq)|exact S2].
        * intros H. exfalso. apply B1 in H. apply Nq. exact H.
      + destruct (loop_compare _ _ _ _ _ _ _ Lq J1 J2 L1 L2) as [H|H]; apply ahead_facts in H; destruct H as (t & G1 & G2 & G3 & G4); cbn [fst snd] in G1, G2, G4.
        * split; [|exact G4]. split; [|intros _; eauto]. exists (doings t). split; [exact G1|]. intros N. apply G3 in N. destruct N as [N1 N2]. cbn in N1, N2. split; [auto|].
          apply results_trans with s1; [apply results_sym; exact S1|]. apply results_trans with s2; [apply results_base; exact N1|exact S2].
        * rewrite G1, app_length in Hle. assert (N : doings t = []) by (destruct (doings t); [reflexivity|cbn in Hle; lia]).
          apply G3 in N as N'. destruct N' as [N1 N2]. cbn in N1, N2. subst x2. rewrite G1, N, app_nil_r. split; [|apply k_refl]. split.
          -- exists []. rewrite app_nil_r. split; [reflexivity|]. intros _. split; [auto|].
             apply results_trans with s1; [apply results_sym; exact S1|]. apply results_trans with s2; [apply results_base; auto|exact S2].
          -- intros _. exists []. rewrite app_nil_r. rewrite (reports_unchecked (a_trace s1)), (reports_unchecked (a_trace s2)), (base_trace _ _ N1). reflexivity.
  Qed.
End Loop.

Lemma finish_keeps a w u a' w' : finish (a, w) = (Ok u, (a', w')) -> w' = w /\ a_trace a' = a_trace a /\ same_results a a'.
Proof. intros E. apply finish_ok in E. destruct E as [-> ->]. repeat split. Qed.

Lemma nsga2_finish_keeps a w u a' w' : nsga2_finish (a, w) = (Ok u, (a', w')) -> w' = w /\ a_trace a' = a_trace a /\ same_results a a'.
Proof.
  intros F. unfold nsga2_finish in F. mb F as x z E1. destruct z as [b0 v0]. apply show_best_ok in E1. destruct E1 as (-> & -> & _).
  mb F as y z E1. unfold algo_get in E1. injection E1 as <- <-. cbn in F. destruct (a_best_run a) as [o|]; [|discriminate].
  mb F as v z E1. destruct z as [b1 v1]. la E1. pose proof (steps_pure o w) as S. rewrite E1 in S. cbn in S. subst v1. mr F. repeat split.
Qed.

(** C73 *)
Lemma limits_only ev sched n a w m1 c1 m2 c2 r1 r2 : a_trace a = [] ->
  evolve ev sched n (limited m1 c1 a, w) = (Ok tt, r1) -> evolve ev sched n (limited m2 c2 a, w) = (Ok tt, r2) ->
  length (doings (a_trace (fst r1))) <= length (doings (a_trace (fst r2))) -> continues r1 r2.
Proof.
  intros Ht E1 E2 Hle.
  refine (proj1 (limits (generation_iteration ev sched) (l_iteration ev sched) (grows_iteration ev sched) (fun _ => True) (fun _ _ => True) _ _ _ _ _ finish finish_keeps ev sched n a w m1 c1 m2 c2 r1 r2 Ht _ E1 E2 Hle)); intros; exact I.
Qed.

Lemma limits_only_moo ev sched so d n a w m1 c1 m2 c2 r1 r2 : a_trace a = [] ->
  nsga2_evolve ev sched so d n (limited m1 c1 a, w) = (Ok tt, r1) -> nsga2_evolve ev sched so d n (limited m2 c2 a, w) = (Ok tt, r2) ->
  length (doings (a_trace (fst r1))) <= length (doings (a_trace (fst r2))) -> continues r1 r2.
Proof.
  intros Ht E1 E2 Hle.
  refine (proj1 (limits (nsga2_generation ev sched so d) (l_nsga2 ev sched so d) (grows_nsga2 ev sched so d) (fun _ => True) (fun _ _ => True) _ _ _ _ _ nsga2_finish nsga2_finish_keeps ev sched n a w m1 c1 m2 c2 r1 r2 Ht _ E1 E2 Hle)); intros; exact I.
Qed.

Section Kept.
  Variables (ev : genome -> res fval) (h : bool) (sched : nat -> list nat).
  Hypotheses (EV : gives_numbers ev) (F : fair sched).
  Notation inv_ := (fun s => loop_inv ev h (fst s) (snd s)).

  Lemma body_kept g a w st a' w' : loop_inv ev h a w -> body (generation_iteration ev sched) g (a, w) = (Ok st, (a', w')) -> regen w w'.
  Proof.
    intros [(s & Es & Hs) Hm Ha (b & Eb & H)] E. apply body_ok in E. destruct E as (w1 & a2 & w2 & R1 & L1 & E2 & E3).
    apply terminate_ok in E3. destruct E3 as (-> & _).
    apply iteration_ok in E2. destruct E2 as (pop & v & best & v2 & c & worst & E4 & E5 & E6 & _ & ->).
    cbn [a_pop set_gen_seed add_trace set_gen_num a_method a_alive a_best_run] in E4, E5, E6. rewrite Es in E4.
    assert (Sw : forall o, In o (inds_of s) -> scalar_at w1 h o) by (intros o Ho; eapply BestP.regen_scalar; [exact R1|apply Hs; exact Ho]).
    destruct (breed_scalar _ _ _ _ h Sw E4) as (s' & -> & Fr & N). rewrite Hm, Ha in E5. cbn in E5.
    destruct (evaluate_ok ev sched (inds_of s') v h best v2 F EV (fun o Ho => proj1 (N o Ho)) E5) as (_ & _ & _ & O2 & _).
    transitivity v2.
    - intros o i A. destruct (R1 o i A) as (k & B). exists k.
      assert (Av : at_ v o = Some (set_gen k i)) by (eapply frame_at; eauto).
      assert (No : ~ In o (inds_of s')) by (intros C; apply N in C; apply at_lt in B; unfold oid in *; lia).
      rewrite (O2 o No). exact Av.
    - rewrite Eb in E6. pose proof (g_better regen regen_rng best b v2) as K. rewrite E6 in K. exact K.
  Qed.

  Lemma loop_kept : forall k g s s', inv_ s -> main_loop (generation_iteration ev sched) k g s = (Ok tt, s') -> regen (snd s) (snd s').
  Proof.
    induction k as [|k IH]; intros g [a w] [a' w'] H E; [cbn in E; injection E as <- <-; reflexivity|].
    rewrite main_loop_body in E. mb E as st s E1. destruct s as [a1 w1]. cbn in H |- *.
    pose proof (body_kept _ _ _ _ _ _ H E1) as R. apply (body_inv ev h EV sched F) in E1; [|exact H]. destruct st.
    - mb E as x s E2. unfold algo_mod in E2. cbn in E2. injection E2 as _ <-. rewrite publish_eq in E. injection E as <- <-. exact R.
    - mb E as x s E2. apply (publish_inv ev h EV _ _ "after_generation") in E1. rewrite publish_eq in E2. injection E2 as _ <-.
      transitivity w1; [exact R|]. apply IH in E; [exact E|]. exact E1.
  Qed.

  Lemma longer_better_ n a w m1 c1 m2 c2 a1 w1 a2 w2 : a_trace a = [] -> a_method a = ByMap -> scalar_population w h (a_pop a) ->
    evolve ev sched n (limited m1 c1 a, w) = (Ok tt, (a1, w1)) -> evolve ev sched n (limited m2 c2 a, w) = (Ok tt, (a2, w2)) ->
    length (doings (a_trace a1)) <= length (doings (a_trace a2)) ->
    (forall o i, at_ w1 o = Some i -> exists g, at_ w2 o = Some (set_gen g i)) /\
    exists b1 b2 x y, a_best_run a1 = Some b1 /\ a_best_run a2 = Some b2 /\ scored w2 b1 x /\ scored w2 b2 y /\ ~ better_score h x y.
  Proof.
    intros Ht Hm Hp E1 E2 Hle.
    destruct (limits (generation_iteration ev sched) (l_iteration ev sched) (grows_iteration ev sched) inv_ regen) with (fin := finish) (ev := ev) (sched := sched) (n := n)
      (a := a) (w := w) (m1 := m1) (c1 := c1) (m2 := m2) (c2 := c2) (r1 := (a1, w1)) (r2 := (a2, w2)) as [((more & Dm & _) & _) R]; auto.
    - intros g [b v] st [b' v'] H E. cbn in H |- *. eapply body_inv; eauto.
    - intros nm [b v] H. apply (publish_inv ev h EV b v nm) in H. rewrite publish_eq in H |- *. exact H.
    - intros f b v [A B C D]. split; assumption.
    - exact loop_kept.
    - intros v. reflexivity.
    - exact finish_keeps.
    - intros m c [b v] st [b' v'] I1 I2. cbn. eapply terminate_inv; [|exact I2].
      exact (init_inv ev h EV sched F n (limited m c a) w b v Ht Hm Hp I1).
    - cbn [fst snd] in *. split; [exact R|].
      destruct (best_of_run ev sched n (limited m1 c1 a) w a1 w1 h EV F Ht Hm Hp E1) as (b1 & Eb1 & In1 & _).
      destruct (best_of_run ev sched n (limited m2 c2 a) w a2 w2 h EV F Ht Hm Hp E2) as (b2 & Eb2 & In2 & H).
      assert (Ed : forall tr, evals tr = evals (doings tr)).
      { induction tr as [|e tr IH]; [reflexivity|]. unfold evals, doings in *. destruct e; cbn; rewrite ?IH; reflexivity. }
      assert (In b1 (concat (evals (a_trace a2)))).
      { rewrite Ed, Dm. rewrite evals_app, concat_app. apply in_or_app. left. rewrite <- Ed. exact In1. }
      destruct (H b1 H0) as (_ & x & y & Sx & Sy & N). exists b1, b2, x, y. auto.
  Qed.
End Kept.

Lemma longer_better ev sched n a w m1 c1 m2 c2 a1 w1 a2 w2 h : gives_numbers ev -> fair sched ->
  a_trace a = [] -> a_method a = ByMap -> scalar_population w h (a_pop a) ->
  evolve ev sched n (limited m1 c1 a, w) = (Ok tt, (a1, w1)) -> evolve ev sched n (limited m2 c2 a, w) = (Ok tt, (a2, w2)) ->
  length (doings (a_trace a1)) <= length (doings (a_trace a2)) ->
  (forall o i, at_ w1 o = Some i -> exists g, at_ w2 o = Some (set_gen g i)) /\
  exists b1 b2 x y, a_best_run a1 = Some b1 /\ a_best_run a2 = Some b2 /\ scored w2 b1 x /\ scored w2 b2 y /\ ~ better_score h x y.
Proof. intros EV F. apply (longer_better_ ev h sched EV F). Qed.
