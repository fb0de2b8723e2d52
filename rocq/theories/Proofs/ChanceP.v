(** * Every population of the search space can be the first one, and what follows for the run. *)
From Coq Require Import Lia QArith.
From Verif.Model Require Import Num Rng Vector Tree World Creators Evolution.
From Verif.Spec Require Import WorldSpec FitnessSpec VectorSpec TreeSpec SelSpec EvoSpec CompleteSpec PressureSpec ReachSpec MoveSpec RegSpec.
From Verif.Proofs Require Import Lib WorldP VectorP VecOpP TreeP TreeCreateP TreeOpP PressureP EvalP BestP CheckP EvoFinalP CompleteP CompleteVecP ProgramP ReachP ReachVecP MoveP KindP RegP.
From Verif.Model Require Import Num Rng Vector Tree World Creators Evolution.
Open Scope string_scope.
Open Scope nat_scope.
Open Scope list_scope.

Section Kept.
  Variable ev : genome -> res fval.
  Variable h : bool.
  Hypothesis EV : gives_numbers ev.
  Variable sched : nat -> list nat.
  Hypothesis FAIR : fair sched.

  (** [o] was evaluated as a member of the first population [l]; it is still what it was, up to [gen]. *)
  Definition kept (l : list oid) (was : oid -> option ind) (a : algo) (w : world) : Prop :=
    (exists rest, evals (a_trace a) = l :: rest) /\
    forall o, In o l -> exists i n, was o = Some i /\ at_ w o = Some (set_gen n i).

  Lemma kept_regen l was a w w' : regen w w' -> kept l was a w -> kept l was a w'.
  Proof.
    intros R [A B]. split; [exact A|]. intros o Ho. destruct (B o Ho) as (i & n & Hi & Hn). destruct (R _ _ Hn) as (m & Hm). exists i, m. auto.
  Qed.

  Lemma kept_trace l was a a' w es : a_trace a' = a_trace a ++ es -> kept l was a w -> kept l was a' w.
  Proof.
    intros E [(rest & A) B]. split; [|exact B]. rewrite E, evals_app, A. eexists. reflexivity.
  Qed.

  Lemma kept_evd l was a w o : kept l was a w -> In o l -> evd (a_trace a) o.
  Proof. intros [(rest & A) _] Ho. exists l. rewrite A. split; [left; reflexivity|exact Ho]. Qed.

  Lemma kept_iteration l was a w a' w' : loop_inv ev h a w -> kept l was a w -> generation_iteration ev sched (a, w) = (Ok tt, (a', w')) -> kept l was a' w'.
  Proof.
    intros [(s & Es & Hs) Hm Ha (b & Eb & H)] K E. apply iteration_ok in E.
    destruct E as (pop & w1 & best & w2 & c & worst & E1 & E2 & E3 & _ & ->). rewrite Eb in E3. rewrite Es in E1.
    destruct (breed_scalar s w pop w1 h Hs E1) as (s' & -> & Fr & Hs').
    rewrite Hm, Ha in E2. simpl in E2.
    assert (H1 : hist ev h (a_trace a ++ [TBreed]) b w1).
    { apply hist_skip; [reflexivity|reflexivity|]. apply hist_regen with w; [apply regen_frame; exact Fr|exact H]. }
    assert (New : forall o, In o (inds_of s') -> scalar_at w1 h o /\ ~ evd (a_trace a ++ [TBreed]) o).
    { intros o Ho. destruct (Hs' o Ho) as [A B]. split; [exact A|]. intros (l' & Hl & Hol).
      rewrite evals_app, app_nil_r in Hl. destruct (hi_vals _ _ _ _ _ H o) as [(i & Hi & _) _]; [exists l'; auto|].
      apply at_lt in Hi. lia. }
    destruct (hist_next ev h EV sched (inds_of s') w1 b best w2 c w' (a_trace a ++ [TBreed]) FAIR H1 New E2 E3) as (-> & _).
    destruct (evaluate_ok ev sched (inds_of s') w1 h best w2 FAIR EV (fun o Ho => proj1 (New o Ho)) E2) as (_ & _ & _ & Hout & _).
    apply kept_trace with (a := a) (es := [TBreed; TEval (flat_map inds_of [s'])]).
    { unfold after_breeding. destruct c; cbn; rewrite <- app_assoc; reflexivity. }
    destruct (kept_regen _ _ _ _ _ (regen_frame _ _ Fr) K) as [A B]. split; [exact A|]. intros o Ho.
    rewrite Hout; [apply B; exact Ho|]. intros C. apply (New o C). destruct (kept_evd _ _ _ _ _ K Ho) as (l' & X & Y).
    exists l'. rewrite evals_app, app_nil_r. auto.
  Qed.

  Lemma kept_terminate l was a w st a' w' : kept l was a w -> should_terminate (a, w) = (Ok st, (a', w')) -> kept l was a' w'.
  Proof.
    intros K E. apply terminate_ok in E. destruct E as (-> & best & ans & cs & _ & _ & -> & _).
    apply kept_trace with (a := a) (es := [TCheck ans]); [reflexivity|exact K].
  Qed.

  Lemma kept_body l was a w g st a' w' : loop_inv ev h a w -> kept l was a w -> body (generation_iteration ev sched) g (a, w) = (Ok st, (a', w')) -> kept l was a' w'.
  Proof.
    intros [(s & Es & Hs) Hm Ha (b & Eb & H)] K E. apply body_ok in E. destruct E as (w1 & a2 & w2 & Rg & _ & E1 & E2).
    eapply kept_terminate; [|exact E2]. eapply kept_iteration; [| |exact E1].
    - split; [exists s; split; [exact Es|]; intros o Ho; eapply regen_scalar; eauto|exact Hm|exact Ha|].
      exists b. split; [exact Eb|]. simpl. apply hist_skip; [reflexivity|reflexivity|]. eapply hist_regen; eauto.
    - eapply kept_trace; [|eapply kept_regen; [exact Rg|exact K]]. reflexivity.
  Qed.

  Lemma kept_publish l was a w nm : kept l was a w -> kept l was (fst (snd (publish nm (a, w)))) w.
  Proof. rewrite publish_eq. intros K. eapply kept_trace; [reflexivity|exact K]. Qed.

  Lemma kept_loop l was todo : forall g a w a' w', loop_inv ev h a w -> kept l was a w ->
    main_loop (generation_iteration ev sched) todo g (a, w) = (Ok tt, (a', w')) -> kept l was a' w'.
  Proof.
    induction todo as [|todo IH]; intros g a w a' w' H K E; [simpl in E; unfold ret in E; injection E as <- <-; exact K|].
    rewrite main_loop_body in E. mb E as st s E1. destruct s as [a1 w1]. assert (K1 : kept l was a1 w1) by (eapply kept_body; eauto).
    apply (body_inv ev h EV sched FAIR) in E1; [|exact H]. destruct st.
    - mb E as x s E2. unfold algo_mod in E2. simpl in E2. injection E2 as _ <-.
      assert (K2 : kept l was (set_final (Some g) a1) w1) by exact K1.
      apply (kept_publish _ _ _ _ "after_generation") in K2. rewrite publish_eq in E, K2. injection E as <- <-. exact K2.
    - mb E as x s E2. apply (kept_publish _ _ _ _ "after_generation") in K1. apply (publish_inv ev h EV _ _ "after_generation") in E1. rewrite publish_eq in E2. injection E2 as _ <-.
      eapply IH; [exact E1|exact K1|exact E].
  Qed.

  Lemma first_kept n a w a' w' s l w1 : a_trace a = [] -> a_method a = ByMap -> scalar_population w h (a_pop a) -> a_pop a = [s] ->
    create_subpopulation s (snd (liftR (set_seed (a_random_seed a)) w)) = (Ok (with_inds s l), w1) ->
    evolve ev sched n (a, w) = (Ok tt, (a', w')) ->
    (exists rest, evals (a_trace a') = l :: rest) /\
    forall o i, In o l -> at_ w1 o = Some i -> exists j, at_ w' o = Some j /\ i_genome j = i_genome i.
  Proof.
    intros Ht Hm Hp Es Ec E. unfold evolve in E. apply evolve_ok in E. destruct E as (a1 & w1' & st & a2 & a3 & w3 & E1 & E2 & E3 & E4).
    assert (I1 := E1). apply (init_inv ev h EV sched FAIR) in I1; auto. apply finish_ok in E4. destruct E4 as [-> ->].
    assert (K1 : kept l (fun o => at_ w1' o) a1 w1' /\ forall o i, In o l -> at_ w1 o = Some i -> exists j, at_ w1' o = Some j /\ i_genome j = i_genome i).
    { apply init_ok in E1. destruct E1 as (pop & w2 & best & F1 & F2 & ->). rewrite Es in F1. cbn [mapM] in F1. rewrite (bind_eq_ok _ _ _ _ _ Ec) in F1.
      mr F1. cbn [flat_map] in *. rewrite app_nil_r in *.
      destruct Hp as (s0 & Es0 & Hp). rewrite Es in Es0. injection Es0 as <-.
      assert (S' : forall o, In o l -> scalar_at w2 h o).
      { destruct (sp_inds s) as [l0|] eqn:El.
        - unfold create_subpopulation in Ec. rewrite El in Ec. unfold ret in Ec. injection Ec as E0 <-. intros o Ho.
          assert (l0 = l) as ->. { apply (f_equal sp_inds) in E0. cbn in E0. congruence. }
          destruct (Hp o) as (i & Hi & S); [exact Ho|]. exists i. split; [|exact S]. exact Hi.
        - unfold create_subpopulation in Ec. rewrite El in Ec. destruct Hp as [Hh Hc]. mb Ec as c w4 E4. mb Ec as l' w5 E5. intros o Ho. mr Ec.
          assert (Ic : In c (sp_creators s)).
          { apply liftR_ok in E4. destruct E4 as (g & E4 & _). eapply choices_weighted_In; eauto. }
          eapply create_scalar; eauto. }
      simpl in F2. unfold inds_of in F2 |- *. cbn [with_inds sp_inds] in F2 |- *.
      assert (Al : a_alive a = true) by (eapply eval_alive; [eapply scalar_present; exact S'|exact F2]).
      rewrite Hm, Al in F2. destruct (evaluate_ok ev sched l w2 h best w1' FAIR EV S' F2) as (_ & _ & Hin & _ & _). split.
      - split.
        + cbn. rewrite Ht. eexists. reflexivity.
        + intros o Ho. destruct (S' o Ho) as (i & Hi & _). destruct (Hin o i Ho Hi) as (j & Hj & _). exists j, (i_gen j). rewrite set_gen_same. auto.
      - intros o i Ho Hi. destruct (Hin o i Ho Hi) as (j & Hj & v & _ & ->). eexists. split; [exact Hj|reflexivity]. }
    destruct K1 as [K1 G1].
    assert (K2 := kept_terminate _ _ _ _ _ _ _ K1 E2). apply (terminate_inv ev h) in E2; [|exact I1].
    assert (K3 : kept l (fun o => at_ w1' o) a3 w3).
    { destruct st.
      - destruct E3 as [-> ->]. eapply kept_trace; [reflexivity|]. exact K2.
      - eapply kept_loop; [exact E2|exact K2|exact E3]. }
    destruct K3 as [(rest & A) B]. split.
    - cbn. rewrite evals_app, A. cbn. eexists. reflexivity.
    - intros o i Ho Hi. destruct (G1 o i Ho Hi) as (j & Hj & Eg). destruct (B o Ho) as (j' & m & Hj' & Hm'). rewrite Hj in Hj'. injection Hj' as <-.
      exists (set_gen m j). split; [exact Hm'|exact Eg].
  Qed.
End Kept.

(** ** Any start *)

Lemma choices_weighted_emits {A} (l : list A) ws q : length l = length ws -> nsum ws = Fin q -> (0 < q)%Q ->
  exists a, In a l /\ emits (choices_weighted l ws) [0%N] a.
Proof.
  intros Hl Hs Hq. destruct (choices_weighted_total l ws q (seeded_with []) Hl Hs Hq) as (a & g' & Ea). pose proof (choices_weighted_In _ _ _ _ _ Ea) as Ia.
  exists a. split; [exact Ia|]. clear Ia. revert Ea. unfold choices_weighted. destruct (negb (_ =? _)); [discriminate|]. destruct (_ =? 0); [discriminate|].
  destruct (nle _ _); [discriminate|]. destruct (negb _); [discriminate|]. intros Ea.
  rewrite (bind_eq_ok _ _ _ _ _ (unit_zero (seeded_with []) ltac:(intros [|[|i]] d Hd; [injection Hd as <-; reflexivity|discriminate|discriminate]))) in Ea.
  apply (emits_bind _ _ [0%N] [] _ _ unit_zero).
  destruct (pick_weighted _ _ _ _) as [b|]; [|discriminate]. injection Ea as <- _. apply emits_ret.
Qed.

Definition holding {X} (P : X -> genome -> Prop) (w : world) (o : oid) (x : X) : Prop := exists i, at_ w o = Some i /\ P x (i_genome i).

Lemma seeded_start sd ds w : ahead (w_rng (snd (liftR (set_seed sd) (with_rng w (seeded_with ds))))) ds.
Proof. intros i d H. simpl. apply nth_error_nth. exact H. Qed.

Lemma some_start {X} (P : X -> genome -> Prop) (xs : list X) s sd w : sp_inds s = None ->
  length (sp_creators s) = length (sp_pcr s) -> (exists q, nsum (sp_pcr s) = Fin q /\ (0 < q)%Q) ->
  (forall c, In c (sp_creators s) -> exists ds, forall w1, ahead (w_rng w1) ds ->
     exists os w', create_individuals c (sp_size s) (sp_hib s) w1 = (Ok os, w') /\ Forall2 (holding P w') os xs) ->
  exists g os w', create_subpopulation s (snd (liftR (set_seed sd) (with_rng w g))) = (Ok (with_inds s os), w') /\ Forall2 (holding P w') os xs.
Proof.
  intros Hi Hl (q & Hq & Hpos) H. destruct (choices_weighted_emits _ _ _ Hl Hq Hpos) as (c & Ic & Ec). destruct (H c Ic) as (ds & Hd).
  exists (seeded_with ([0%N] ++ ds)). unfold create_subpopulation. rewrite Hi.
  pose proof (seeded_start sd ([0%N] ++ ds) w) as U. set (w1 := snd _) in *. apply ahead_app in U. destruct U as [U1 U2].
  rewrite (bind_eq_ok _ _ _ _ _ (liftR_eq _ _ _ _ (Ec _ U1))).
  destruct (Hd (mkWorld (w_heap w1) (w_next_id w1) (advance (length [0%N]) (w_rng w1))) U2) as (os & w' & E & F).
  exists os, w'. split; [|exact F]. rewrite (bind_eq_ok _ _ _ _ _ E). reflexivity.
Qed.

Lemma configured_rng h a w s g : configured h a w s -> configured h a (with_rng w g) s.
Proof. intros []. split; auto. Qed.

Lemma configured_scalar h a w s : configured h a w s -> scalar_population w h (a_pop a).
Proof.
  intros C. exists s. split; [apply (cf_pop _ _ _ _ C)|]. pose proof (cf_inds _ _ _ _ C) as Hi. destruct (sp_inds s); [apply Hi|].
  split; [rewrite (cf_hib _ _ _ _ C); reflexivity|apply Hi].
Qed.

(** Any first population. *)
Lemma any_first {X} (P : X -> genome -> Prop) (G : genome -> Prop) (xs : list X) ev sched h s n a w : gives_numbers ev -> fair sched -> a_trace a = [] ->
  configured h a w s -> sp_inds s = None ->
  (forall g, exists a' w', evolve ev sched n (a, with_rng w g) = (Ok tt, (a', w')) /\
    forall l, In l (evals (a_trace a')) -> length l = sp_size s /\ genomes_in G l w') ->
  (forall c, In c (sp_creators s) -> exists ds, forall w1, ahead (w_rng w1) ds ->
     exists os w', create_individuals c (sp_size s) (sp_hib s) w1 = (Ok os, w') /\ Forall2 (holding P w') os xs) ->
  exists g a' w' l rest, evolve ev sched n (a, with_rng w g) = (Ok tt, (a', w')) /\ evals (a_trace a') = l :: rest /\ Forall2 (holding P w') l xs /\
    forall l, In l (evals (a_trace a')) -> genomes_in G l w'.
Proof.
  intros EV Hf Ht C Hi Hrun Hc. pose proof (cf_inds _ _ _ _ C) as Hw. rewrite Hi in Hw. destruct Hw as (Hl & Hq & _).
  destruct (some_start P xs s (a_random_seed a) w Hi Hl Hq Hc) as (g & os & w1 & E1 & F1). destruct (Hrun g) as (a' & w' & E & Hg).
  destruct (first_kept ev h EV sched Hf n a (with_rng w g) a' w' s os w1) as ((rest & Er) & K); auto.
  { apply (cf_method _ _ _ _ C). } { apply configured_scalar with s. apply configured_rng, C. } { apply (cf_pop _ _ _ _ C). }
  exists g, a', w', os, rest. split; [exact E|]. split; [exact Er|]. split; [|intros l Hl'; apply Hg, Hl'].
  clear -F1 K. assert (K' : forall o i, In o os -> at_ w1 o = Some i -> exists j, at_ w' o = Some j /\ i_genome j = i_genome i) by exact K. clear K.
  induction F1 as [|o x os xs (i & Hi & Hp) F IH]; constructor; [|apply IH; intros; apply K'; [right|]; assumption].
  destruct (K' o i (or_introl eq_refl) Hi) as (j & Hj & Ej). exists j. split; [exact Hj|]. rewrite Ej. exact Hp.
Qed.

(** A run that evaluates an optimal genome ends with an optimal best individual. *)
Lemma optimum_kept (G : genome -> Prop) ev sched h s n a w a' w' o i x : gives_numbers ev -> fair sched -> a_trace a = [] ->
  configured h a w s -> all_kinds no_penalty w -> (sp_inds s = None -> Forall (made_with no_penalty) (sp_creators s)) ->
  evolve ev sched n (a, w) = (Ok tt, (a', w')) -> (forall l, In l (evals (a_trace a')) -> genomes_in G l w') ->
  In o (concat (evals (a_trace a'))) -> at_ w' o = Some i -> ev (i_genome i) = Ok (VNum x) ->
  (forall g y, G g -> ev g = Ok (VNum y) -> ~ better_score h y x) ->
  exists b j y, a_best_run a' = Some b /\ at_ w' b = Some j /\ ev (i_genome j) = Ok (VNum y) /\ get_pure_fitness (i_fit j) = Ok (VNum y) /\ neq_num y x = true.
Proof.
  intros EV Hf Ht C Hk Hm E Hg Ho Hi Hx Hopt.
  assert (K : all_kinds no_penalty w').
  { pose proof (run_kinds no_penalty ev sched n a w Hk) as R. rewrite E in R. apply R. intros s' Hs Hn. rewrite (cf_pop _ _ _ _ C) in Hs.
    destruct Hs as [<-|[]]. apply Forall_forall, Hm, Hn. }
  destruct (best_of_run ev sched n a w a' w' h EV Hf Ht (cf_method _ _ _ _ C) (configured_scalar _ _ _ _ C) E) as (b & Eb & Ib & V).
  destruct (V b Ib) as [(j & v & Hj & Hv & Pv) _]. destruct (EV _ _ Hv) as (y & -> & Ny). destruct (V o Ho) as [(i' & v' & Hi' & Hv' & Pv') (x1 & x2 & S1 & S2 & N)].
  assert (i' = i) as -> by congruence. assert (v' = VNum x) as -> by congruence.
  rewrite (plain_score _ _ _ _ _ K S1 Hi Pv'), (plain_score _ _ _ _ _ K S2 Hj Pv) in N.
  assert (Nx : is_nan x = false) by (destruct (EV _ _ Hx) as (z & [= <-] & Z); exact Z).
  exists b, j, y. repeat (split; [assumption|]).
  assert (Gj : G (i_genome j)).
  { apply in_concat in Ib. destruct Ib as (l & Hl & Hb). destruct (Hg l Hl b Hb) as (j' & Hj' & Gj). congruence. }
  specialize (Hopt _ _ Gj Hv). unfold better_score in N, Hopt. destruct (nlt_total y x Ny Nx) as [T|[T|T]]; destruct h; congruence.
Qed.

(** ** Vectors *)

Lemma Forall2_impl_ {A B} (P Q : A -> B -> Prop) l m : (forall a b, P a b -> Q a b) -> Forall2 P l m -> Forall2 Q l m.
Proof. intros H F. induction F; constructor; auto. Qed.

Lemma vector_start k b len cs h c : vector_creator k b len c -> (k = KFloat -> wide b) -> Forall (search_space k b len) cs ->
  exists ds, forall w1, ahead (w_rng w1) ds ->
    exists os w', create_individuals c (length cs) h w1 = (Ok os, w') /\ Forall2 (holding (fun c g => g = GVec (mkVec k b len c)) w') os cs.
Proof.
  intros Hc Hw Hs. destruct c as [len' b' k' fc upd| |]; try contradiction. destruct Hc as (-> & -> & -> & Hc & _).
  destruct (vectors_by_draws k b len fc upd h Hc Hw) as (f & (_ & _ & Sur) & H).
  assert (X : exists dss, Forall (cell_draws k b len) dss /\ map f dss = cs).
  { induction Hs as [|c cs Hc' Hs IH]; [exists []; split; [constructor|reflexivity]|]. destruct IH as (dss & F & E). destruct (Sur c Hc') as (ds & Hd & Ed).
    exists (ds :: dss). split; [constructor; assumption|simpl; congruence]. }
  destruct X as (dss & Fd & <-). exists (concat dss). intros w1 U. destruct (H dss w1 Fd U) as (os & w' & E & F). exists os, w'. rewrite map_length. split; [exact E|].
  clear -F. induction F; constructor; auto.
Qed.

Lemma C95_vectors k b len ev sched h s n a w cs : gives_numbers ev -> total_on (vectors k b len) ev -> fair sched -> a_trace a = [] ->
  configured h a w s -> Forall (vector_operator k b len) (sp_ops s) -> sp_inds s = None -> Forall (vector_creator k b len) (sp_creators s) ->
  (k = KFloat -> wide b) -> length cs = sp_size s -> Forall (search_space k b len) cs ->
  exists g a' w' l rest, evolve ev sched n (a, with_rng w g) = (Ok tt, (a', w')) /\ evals (a_trace a') = l :: rest /\
    Forall2 (fun o c => vec_at w' o (mkVec k b len c)) l cs.
Proof.
  intros EV Hto Hf Ht C Hop Hi Hc Hw Hlen Hs.
  destruct (any_first (fun c g => g = GVec (mkVec k b len c)) (vectors k b len) cs ev sched h s n a w) as (g & a' & w' & l & rest & E & El & F & _); auto.
  { intros g. apply (vector_run_completes k b len ev sched h s); auto; [apply configured_rng, C|]. rewrite Hi. exact Hc. }
  { intros c Ic. rewrite <- Hlen. apply vector_start; auto. rewrite Forall_forall in Hc. auto. }
  exists g, a', w', l, rest. auto.
Qed.

Lemma C95_best_vector k b len ev sched h s n a w c x : gives_numbers ev -> total_on (vectors k b len) ev -> fair sched -> a_trace a = [] ->
  configured h a w s -> Forall (vector_operator k b len) (sp_ops s) -> sp_inds s = None -> Forall (vector_creator k b len) (sp_creators s) ->
  (k = KFloat -> wide b) -> all_kinds no_penalty w -> Forall (made_with no_penalty) (sp_creators s) ->
  search_space k b len c -> ev (GVec (mkVec k b len c)) = Ok (VNum x) ->
  (forall g y, vectors k b len g -> ev g = Ok (VNum y) -> ~ better_score h y x) ->
  exists g a' w' o i y, evolve ev sched n (a, with_rng w g) = (Ok tt, (a', w')) /\ a_best_run a' = Some o /\ at_ w' o = Some i /\
    ev (i_genome i) = Ok (VNum y) /\ get_pure_fitness (i_fit i) = Ok (VNum y) /\ neq_num y x = true.
Proof.
  intros EV Hto Hf Ht C Hop Hi Hc Hw Hk Hm Hs Hx Hopt.
  destruct (any_first (fun c g => g = GVec (mkVec k b len c)) (vectors k b len) (repeat c (sp_size s)) ev sched h s n a w) as (g & a' & w' & l & rest & E & El & F & Hg); auto.
  { intros g. apply (vector_run_completes k b len ev sched h s); auto; [apply configured_rng, C|]. rewrite Hi. exact Hc. }
  { intros c' Ic. pose proof (vector_start k b len (repeat c (sp_size s)) (sp_hib s) c') as V. rewrite repeat_length in V. apply V; auto; [rewrite Forall_forall in Hc; auto|]. apply Forall_forall. intros z Hz. apply repeat_spec in Hz. subst. exact Hs. }
  pose proof (cf_size _ _ _ _ C) as Hz. destruct (sp_size s) as [|m]; [lia|]. simpl in F. destruct l as [|o l']; [inversion F|]. assert (H0 : holding (fun c g => g = GVec (mkVec k b len c)) w' o c) by (inversion F; assumption). destruct H0 as (i & Ai & Gi).
  destruct (optimum_kept (vectors k b len) ev sched h s n a (with_rng w g) a' w' o i x) as (bo & j & y & B1 & B2 & B3 & B4 & B5); auto.
  { apply configured_rng, C. } { rewrite El. left. reflexivity. } { rewrite Gi. exact Hx. }
  exists g, a', w', bo, j, y. auto 10.
Qed.

(** ** Trees *)

Definition nodes_are (l : list node) (g : genome) : Prop := exists t, g = GTree t /\ t_nodes t = l.

Lemma holding_nodes w os rs : Forall2 (has_nodes w) os (map flatten rs) -> Forall2 (holding (fun r g => nodes_are (flatten r) g) w) os rs.
Proof.
  intros F. remember (map flatten rs) as ls eqn:E. revert rs E. induction F as [|o l os ls (t & (i & Hi & Hg) & Hn) F IH]; intros [|r rs] E; try discriminate; constructor.
  - injection E as -> ->. exists i. split; [exact Hi|]. exists t. auto.
  - apply IH. injection E as _ E. exact E.
Qed.

Lemma tree_start t0 rs h c : tree_creator t0 (length rs) c -> clear_terminals t0 (t_root_type t0) -> (forall e, t_erc t0 = Some e -> erc_proper e) -> can_make t0 c rs ->
  exists ds, forall w1, ahead (w_rng w1) ds ->
    exists os w', create_individuals c (length rs) h w1 = (Ok os, w') /\ Forall2 (holding (fun r g => nodes_are (flatten r) g) w') os rs.
Proof.
  intros Hc Hcl He Hm.
  assert (B : forall p, gp_for t0 p -> clear_terminals (blank_tree p (t_tset t0)) (g_root p)).
  { intros p (_ & Ef & Ee & Er). destruct t0 as [fs ts er rt ns]. cbn in *. unfold blank_tree. rewrite Ef, Ee, Er. exact Hcl. }
  assert (X : lays (create_individuals c (length rs) h) (map flatten rs)).
  { destruct c as [|m p|mn mx grow full]; try contradiction; cbn [create_individuals].
    - destruct Hm as [Hp Hr]. apply trees_laid with (tset := t_tset t0); auto; [apply Hc|]. intros e Ee. apply He. destruct Hc as (_ & _ & <- & _). exact Ee.
    - destruct Hc as (Hg & Hf & Hmn & Hn), Hm as [Hp Hr]. apply half_laid with (tg := t_tset t0) (tf := t_tset t0); auto; [apply Hg|apply Hf|].
      intros e [Ee|Ee]; apply He; [destruct Hg as (_ & _ & <- & _)|destruct Hf as (_ & _ & <- & _)]; exact Ee. }
  destruct X as (ds & X). exists ds. intros w1 U. destruct (X w1 U) as (w' & E & _ & _ & F & _). eexists. exists w'. split; [exact E|]. apply holding_nodes, F.
Qed.

Lemma C95_programs t0 Q ev sched h s n a w rs : gives_numbers ev -> total_on (trees_of t0 Q) ev -> fair sched -> a_trace a = [] ->
  configured h a w s -> supplied t0 (t_root_type t0) -> typed_terminals t0 (t_root_type t0) -> Forall tree_operator (sp_ops s) ->
  node_kind t0 (sp_ops s) Q -> sp_inds s = None -> Forall (tree_creator t0 (sp_size s)) (sp_creators s) -> printable_terminals t0 ->
  clear_terminals t0 (t_root_type t0) -> (forall e, t_erc t0 = Some e -> erc_proper e) ->
  length rs = sp_size s -> Forall (fun c => can_make t0 c rs) (sp_creators s) ->
  exists g a' w' l rest, evolve ev sched n (a, with_rng w g) = (Ok tt, (a', w')) /\ evals (a_trace a') = l :: rest /\
    Forall2 (fun o r => has_nodes w' o (flatten r)) l rs.
Proof.
  intros EV Hto Hf Ht C Hs Htt Hop Hk Hi Hc Hpr Hcl He Hlen Hm.
  destruct (any_first (fun r g => nodes_are (flatten r) g) (trees_of t0 Q) rs ev sched h s n a w) as (g & a' & w' & l & rest & E & El & F & _); auto.
  { intros g. apply (program_run_completes t0 Q ev sched h s); auto; [apply configured_rng, C|]. rewrite Hi. exact Hc. }
  { intros c Ic. rewrite <- Hlen. rewrite Forall_forall in Hc, Hm. apply (tree_start t0); auto. rewrite Hlen. auto. }
  exists g, a', w', l, rest. split; [exact E|]. split; [exact El|]. eapply Forall2_impl_; [|exact F]. intros o r (i & Ai & t & Et & En). exists t. split; [exists i|]; auto.
Qed.

Lemma C95_best_program t0 Q ev sched h s n a w rs r x : gives_numbers ev -> total_on (trees_of t0 Q) ev -> fair sched -> a_trace a = [] ->
  configured h a w s -> supplied t0 (t_root_type t0) -> typed_terminals t0 (t_root_type t0) -> Forall tree_operator (sp_ops s) ->
  node_kind t0 (sp_ops s) Q -> sp_inds s = None -> Forall (tree_creator t0 (sp_size s)) (sp_creators s) -> printable_terminals t0 ->
  clear_terminals t0 (t_root_type t0) -> (forall e, t_erc t0 = Some e -> erc_proper e) ->
  all_kinds no_penalty w -> Forall (made_with no_penalty) (sp_creators s) ->
  length rs = sp_size s -> Forall (fun c => can_make t0 c rs) (sp_creators s) -> In r rs ->
  (forall t, trees_of t0 Q (GTree t) -> t_nodes t = flatten r -> ev (GTree t) = Ok (VNum x)) ->
  (forall g y, trees_of t0 Q g -> ev g = Ok (VNum y) -> ~ better_score h y x) ->
  exists g a' w' o i y, evolve ev sched n (a, with_rng w g) = (Ok tt, (a', w')) /\ a_best_run a' = Some o /\ at_ w' o = Some i /\
    ev (i_genome i) = Ok (VNum y) /\ get_pure_fitness (i_fit i) = Ok (VNum y) /\ neq_num y x = true.
Proof.
  intros EV Hto Hf Ht C Hs Htt Hop Hk Hi Hc Hpr Hcl He Hak Hmw Hlen Hm Hr Hx Hopt.
  destruct (any_first (fun r g => nodes_are (flatten r) g) (trees_of t0 Q) rs ev sched h s n a w) as (g & a' & w' & l & rest & E & El & F & Hg); auto.
  { intros g. apply (program_run_completes t0 Q ev sched h s); auto; [apply configured_rng, C|]. rewrite Hi. exact Hc. }
  { intros c Ic. rewrite <- Hlen. rewrite Forall_forall in Hc, Hm. apply (tree_start t0); auto. rewrite Hlen. auto. }
  assert (X : exists o, In o l /\ holding (fun r g => nodes_are (flatten r) g) w' o r).
  { clear -F Hr. induction F as [|o r' l rs H F IH]; [destruct Hr|]. destruct Hr as [<-|Hr]; [exists o; split; [left; reflexivity|exact H]|].
    destruct (IH Hr) as (o' & Ho & H'). exists o'. split; [right|]; assumption. }
  destruct X as (o & Ho & i & Ai & t & Et & En).
  destruct (Hg l) with (o := o) as (i' & Ai' & Gi); [rewrite El; left; reflexivity|exact Ho|]. assert (i' = i) as -> by congruence.
  destruct (optimum_kept (trees_of t0 Q) ev sched h s n a (with_rng w g) a' w' o i x) as (bo & j & y & B1 & B2 & B3 & B4 & B5); auto.
  { apply configured_rng, C. } { rewrite El. cbn [concat]. apply in_or_app. left. exact Ho. } { rewrite Et in *. apply Hx; assumption. }
  exists g, a', w', bo, j, y. auto 10.
Qed.
