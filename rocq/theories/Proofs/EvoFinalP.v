(** The statements about whole runs, in the form of the properties. *)
From Verif.Proofs Require Export CheckP.
From Verif.Model Require Import Tree World Evolution.
Open Scope nat_scope.

(** C31 *)
Lemma best_of_run ev sched n a w a' w' h : gives_numbers ev -> fair sched -> a_trace a = [] -> a_method a = ByMap ->
  scalar_population w h (a_pop a) -> evolve ev sched n (a, w) = (Ok tt, (a', w')) ->
  exists b, a_best_run a' = Some b /\ In b (concat (evals (a_trace a'))) /\
    forall o, In o (concat (evals (a_trace a'))) -> has_value ev w' o /\
      exists x y, scored w' o x /\ scored w' b y /\ ~ better_score h x y.
Proof.
  intros EV F Ht Hm Hp E. destruct (evolve_inv ev h EV sched F n a w a' w' Ht Hm Hp E) as (b & Eb & H).
  assert (D : forall o, In o (concat (evals (a_trace a'))) <-> evd (a_trace a') o).
  { intros o. rewrite in_concat. unfold evd. reflexivity. }
  exists b. split; [exact Eb|]. split; [apply D; apply (hi_in _ _ _ _ _ H)|]. intros o Ho. apply D in Ho.
  split; [apply (hi_vals _ _ _ _ _ H); exact Ho|].
  destruct (hist_scored ev h EV _ _ _ o H Ho) as [So _]. destruct (hist_scored ev h EV _ _ _ b H (hi_in _ _ _ _ _ H)) as [Sb _].
  exists (score_of w' o), (score_of w' b). split; [exact So|]. split; [exact Sb|]. apply (hi_best _ _ _ _ _ H). exact Ho.
Qed.

(** The evaluated individuals keep the direction. *)
Lemma run_oriented ev sched n a w a' w' h : gives_numbers ev -> fair sched -> a_trace a = [] -> a_method a = ByMap ->
  scalar_population w h (a_pop a) -> evolve ev sched n (a, w) = (Ok tt, (a', w')) ->
  forall o, In o (concat (evals (a_trace a'))) -> oriented w' h o.
Proof.
  intros EV F Ht Hm Hp E o Ho. destruct (evolve_inv ev h EV sched F n a w a' w' Ht Hm Hp E) as (b & Eb & H).
  apply in_concat in Ho. apply (hist_scored ev h EV _ _ _ o H Ho).
Qed.

Lemma best_never_worse ev sched n a w a' w' h : gives_numbers ev -> fair sched -> a_trace a = [] -> a_method a = ByMap ->
  scalar_population w h (a_pop a) -> evolve ev sched n (a, w) = (Ok tt, (a', w')) ->
  (forall name g b i, In (TPublish name g b i) (a_trace a') -> exists o j, b = Some o /\ i = Some j) /\
  StronglySorted (no_worse h) (map snd (recorded (a_trace a'))).
Proof.
  intros EV F Ht Hm Hp E. destruct (evolve_inv ev h EV sched F n a w a' w' Ht Hm Hp E) as (b & _ & H).
  split; [apply (hi_pub _ _ _ _ _ H)|apply (hi_mono _ _ _ _ _ H)].
Qed.

(** C32 *)
Lemma recorded_unchanged ev sched n a w a' w' h : gives_numbers ev -> fair sched -> a_trace a = [] -> a_method a = ByMap ->
  scalar_population w h (a_pop a) -> evolve ev sched n (a, w) = (Ok tt, (a', w')) ->
  forall o i, In (o, i) (recorded (a_trace a')) -> exists g, at_ w' o = Some (set_gen g i).
Proof.
  intros EV F Ht Hm Hp E o i Hi. destruct (evolve_inv ev h EV sched F n a w a' w' Ht Hm Hp E) as (b & _ & H).
  apply (hi_rec _ _ _ _ _ H). exact Hi.
Qed.

(** C34 *)
Lemma run_seeds ev sched n a w a' w' : a_trace a = [] -> evolve ev sched n (a, w) = (Ok tt, (a', w')) ->
  exists k, seeds (a_trace a') = a_random_seed a :: map (fun g => ((a_gen_seed a + Z.of_nat g) mod 2 ^ 32)%Z) (seq 1 k).
Proof.
  intros Ht E. destruct (evolve_well_run ev sched n a w a' w' Ht E) as (k & st & pre & c & _ & _ & _ & _ & S & _).
  exists k. exact S.
Qed.

(** C59 *)
Lemma created_population s w s' w' : create_subpopulation s w = (Ok s', w') ->
  (forall l, sp_inds s = Some l -> s' = s /\ w' = w) /\
  (sp_inds s = None -> exists c l, In c (sp_creators s) /\ s' = with_inds s l /\ length l = sp_size s /\ NoDup l /\
     (forall o, In o l -> at_ w o = None /\ exists i, at_ w' o = Some i)).
Proof.
  intros H. unfold create_subpopulation in H. destruct (sp_inds s) as [l|] eqn:E.
  - unfold ret in H. injection H as <- <-. split; [auto|discriminate].
  - split; [discriminate|]. intros _. mb H as c w1 E1. mb H as l w2 E2. unfold ret in H. injection H as <- <-.
    apply liftR_ok in E1. destruct E1 as (g & E1 & ->). exists c, l. split; [eapply choices_weighted_In; eauto|].
    destruct (create_present _ _ _ _ _ _ E2) as (P & N & L). apply create_makes in E2. destruct E2 as [-> _]. simpl in *.
    split; [reflexivity|]. split; [exact L|]. split; [exact N|]. intros o Ho. split; [|apply P; exact Ho].
    apply in_seq in Ho. apply nth_error_None. lia.
Qed.

(** C40 *)
Lemma one_subpopulation ev sched n a w : length (a_pop a) <> 1 ->
  exists e a' w', evolve ev sched n (a, w) = (Raise e, (a', w')) /\ evals (a_trace a') = evals (a_trace a) /\ a_best_run a' = a_best_run a /\
    ((forall s, In s (a_pop a) -> sp_inds s <> None) -> e = ValueError).
Proof.
  intros L. unfold evolve, evolve_with, initialize, seed_generators. unfold bind, algo_get, liftM, algo_mod. cbn [fst snd].
  destruct (liftR (set_seed (a_random_seed a)) w) as [[u|e] w1] eqn:E1; [|unfold liftR, set_seed in E1; destruct (w_rng w); discriminate].
  cbn [fst snd]. destruct (mapM create_subpopulation (a_pop a) w1) as [[pop|e] w2] eqn:E2; cbn [fst snd].
  - assert (Lp : length pop <> 1) by (rewrite (mapM_length _ _ _ _ _ E2); exact L).
    unfold act_evaluator, bind, algo_get, liftM. cbn [fst snd a_pop set_pop a_method a_alive add_trace].
    assert (E3 : evaluate_population ev sched (a_method a) (a_alive a) pop w2 = (Raise ValueError, w2)).
    { unfold evaluate_population. destruct pop as [|s [|t pop]]; [reflexivity|exfalso; apply Lp; reflexivity|reflexivity]. }
    rewrite E3. exists ValueError. eexists. eexists. split; [reflexivity|]. cbn. rewrite evals_app. cbn. rewrite app_nil_r. auto.
  - exists e. eexists. eexists. split; [reflexivity|]. cbn. rewrite evals_app. cbn. rewrite app_nil_r. split; [reflexivity|]. split; [reflexivity|].
    intros H. exfalso. clear -E2 H. revert w1 E2. induction (a_pop a) as [|s l IH]; intros w1 E2; [discriminate|].
    cbn [mapM] in E2. unfold bind in E2. destruct (create_subpopulation s w1) as [[s'|e'] w3] eqn:E.
    + destruct (mapM create_subpopulation l w3) as [[l'|e''] w4] eqn:E'; [discriminate|].
      apply (IH (fun t Ht => H t (or_intror Ht)) w3). rewrite E'. congruence.
    + unfold create_subpopulation in E. destruct (sp_inds s) eqn:Es; [discriminate|]. exact (H s (or_introl eq_refl) Es).
Qed.

(** C46: averages that are not finite *)
Definition spoiled (l : list num) : Prop := In NaN l \/ In PInf l /\ In NInf l.

Lemma sum_nan xs : forall acc, spoiled (acc :: xs) -> fold_left nadd xs acc = NaN.
Proof.
  unfold spoiled. induction xs as [|x xs IH]; intros acc H; cbn [fold_left].
  - cbn in H. intuition congruence.
  - apply IH. destruct acc, x; cbn in H |- *; intuition (try congruence).
Qed.
Lemma sum_pinf xs : forall acc, ~ In NaN (acc :: xs) -> ~ In NInf (acc :: xs) -> In PInf (acc :: xs) -> fold_left nadd xs acc = PInf.
Proof.
  induction xs as [|x xs IH]; intros acc H1 H2 H3; cbn [fold_left].
  - cbn in H3. intuition congruence.
  - apply IH; destruct acc, x; cbn in H1, H2, H3 |- *; intuition (try congruence).
Qed.
Lemma sum_ninf xs : forall acc, ~ In NaN (acc :: xs) -> ~ In PInf (acc :: xs) -> In NInf (acc :: xs) -> fold_left nadd xs acc = NInf.
Proof.
  induction xs as [|x xs IH]; intros acc H1 H2 H3; cbn [fold_left].
  - cbn in H3. intuition congruence.
  - apply IH; destruct acc, x; cbn in H1, H2, H3 |- *; intuition (try congruence).
Qed.

Lemma average_infinite s w (x : oid -> num) :
  (forall o, In o (inds_of s) -> exists i, at_ w o = Some i /\ get_pure_fitness (i_fit i) = Ok (VNum (x o))) ->
  let some v := exists o, In o (inds_of s) /\ x o = v in
  (some NaN \/ some PInf /\ some NInf -> get_average_fitness s w = (Ok NaN, w)) /\
  (~ some NaN -> ~ some NInf -> some PInf -> get_average_fitness s w = (Ok PInf, w)) /\
  (~ some NaN -> ~ some PInf -> some NInf -> get_average_fitness s w = (Ok NInf, w)).
Proof.
  intros Hx some. set (l := inds_of s) in *.
  assert (Em : mapM pure_fitness l w = (Ok (map (fun o => VNum (x o)) l), w)).
  { apply mapM_pure. intros o Ho. destruct (Hx o Ho) as (i & Hi & Pi). eapply pure_value; eauto. }
  assert (Er : rmap as_num (map (fun o => VNum (x o)) l) = Ok (map x l)).
  { clear. induction l as [|y l IH]; simpl; [reflexivity|]. rewrite IH. reflexivity. }
  assert (S : forall v, some v <-> In v (map x l)).
  { intros v. rewrite in_map_iff. unfold some. split; intros (o & A & B); exists o; auto. }
  assert (N : forall v, some v -> l <> []) by (intros v (o & Ho & _) ->; destruct Ho).
  assert (D : forall v, v = NaN \/ v = PInf \/ v = NInf -> l <> [] -> nsum (map x l) = v -> get_average_fitness s w = (Ok v, w)).
  { intros v Hv Hl Es. unfold get_average_fitness. fold l. rewrite (bind_eq_ok _ _ _ _ _ Em), Er. unfold bind, lift.
    assert (Hn : map x l <> []) by (intros C; apply map_eq_nil in C; contradiction).
    destruct (map x l) as [|y ys] eqn:Ey; [contradiction|]. rewrite Es. unfold ndiv, nof_nat. cbn [length].
    destruct Hv as [->|[->| ->]]; reflexivity. }
  assert (F : forall v, v <> Fin 0 -> In v (Fin 0 :: map x l) <-> In v (map x l)) by (intros v Hv; cbn; intuition congruence).
  repeat split.
  - intros H. apply D; [auto|destruct H as [H|[H _]]; eapply N; eauto|]. apply sum_nan. unfold spoiled. rewrite !F, <- !S by discriminate. exact H.
  - intros H1 H2 H3. apply D; [auto|eapply N; eauto|]. apply sum_pinf; rewrite F, <- S by discriminate; assumption.
  - intros H1 H2 H3. apply D; [auto|eapply N; eauto|]. apply sum_ninf; rewrite F, <- S by discriminate; assumption.
Qed.
