(** * The individuals an algorithm reports, and where they are found. *)
From Coq Require Import Lia QArith.
From Verif.Proofs Require Export EvoFinalP.
From Verif.Model Require Import Tree World Evolution Population.
Open Scope nat_scope.
Open Scope list_scope.

Lemma contains_in s o l : sp_inds s = Some l -> exists b, contains_individual s o = Ok b /\ (b = true <-> In o l).
Proof.
  intros E. unfold contains_individual. rewrite E. eexists. split; [reflexivity|]. rewrite existsb_exists. split.
  - intros (x & Hx & H). apply Nat.eqb_eq in H. subst. exact Hx.
  - intros H. exists o. split; [exact H|apply Nat.eqb_refl].
Qed.

Lemma find_first pop o : (forall s, In s pop -> sp_inds s <> None) ->
  (exists pre s post, pop = pre ++ s :: post /\ find_individual_subpopulation pop o = Ok (length pre) /\ In o (inds_of s) /\
     forall p, In p pre -> ~ In o (inds_of p)) \/
  (find_individual_subpopulation pop o = Raise ValueError /\ forall s, In s pop -> ~ In o (inds_of s)).
Proof.
  induction pop as [|s pop IH]; intros H.
  - right. split; [reflexivity|]. intros s [].
  - cbn [find_individual_subpopulation]. destruct (sp_inds s) as [l|] eqn:E; [|exfalso; exact (H s (or_introl eq_refl) E)].
    assert (L : inds_of s = l) by (unfold inds_of; rewrite E; reflexivity).
    destruct (contains_in s o l E) as (b & -> & Hb). cbn [rbind]. destruct b.
    + left. exists [], s, pop. split; [reflexivity|]. split; [reflexivity|]. split; [rewrite L; apply Hb; reflexivity|]. intros p [].
    + assert (N : ~ In o l) by (intros C; apply Hb in C; discriminate).
      destruct IH as [(pre & t & post & -> & -> & Hi & Hp)|[-> Hn]].
      * intros t Ht. apply H. right. exact Ht.
      * left. exists (s :: pre), t, post. split; [reflexivity|]. split; [reflexivity|]. split; [exact Hi|].
        intros p [<-|Hq]; [rewrite L; exact N|apply Hp; exact Hq].
      * right. split; [reflexivity|]. intros t [<-|Ht]; [rewrite L; exact N|apply Hn; exact Ht].
Qed.

(** ** There is only one first best *)

Lemma first_best_unique h score l o p : first_best h score l o -> first_best h score l p -> o = p.
Proof.
  intros Ho Hp. pose proof (first_best_none h score l o Ho) as [Io No]. pose proof (first_best_none h score l p Hp) as [Ip Np].
  destruct Ho as (a & b & -> & Ha & Hb). destruct Hp as (c & d & E & Hc & Hd).
  destruct (in_dec Nat.eq_dec p a) as [A|A]; [exfalso; exact (Np o Io (Ha p A))|].
  destruct (in_dec Nat.eq_dec o c) as [C|C]; [exfalso; exact (No p Ip (Hc o C))|].
  clear -E A C. revert c E C. induction a as [|x a IH]; intros [|y c] E C; cbn in E.
  - injection E as -> _. reflexivity.
  - injection E as -> _. exfalso. apply C. left. reflexivity.
  - injection E as -> _. exfalso. apply A. left. reflexivity.
  - injection E as -> E. apply (IH (fun H => A (or_intror H)) c E (fun H => C (or_intror H))).
Qed.

(** ** The invariant of a run *)

Section Extremes.
  Variables (ev : genome -> res fval) (h : bool) (sched : nat -> list nat) (bg wg : option oid).
  Hypothesis EV : gives_numbers ev.
  Hypothesis FAIR : fair sched.

  Record ext_inv (a : algo) (w : world) : Prop := {
    xi_loop : loop_inv ev h a w;
    xi_hib : forall s, In s (a_pop a) -> sp_hib s = HB h;
    xi_last : exists s before, a_pop a = [s] /\ sp_inds s <> None /\ evals (a_trace a) = before ++ [inds_of s] /\
      (forall o l, In l before -> In o l -> ~ In o (inds_of s)) /\
      (before = [] -> a_best_gen a = bg /\ a_worst_gen a = wg) /\
      (before <> [] -> exists b c score, a_best_gen a = Some b /\ a_worst_gen a = Some c /\
         (forall o, In o (inds_of s) -> scored w o (score o)) /\
         first_best h score (inds_of s) b /\ first_best (negb h) score (inds_of s) c)
  }.

  Lemma breed_hib s w pop w' : breed [s] w = (Ok pop, w') -> exists s', pop = [s'] /\ sp_hib s' = sp_hib s /\ sp_inds s' <> None.
  Proof.
    intros H. unfold breed in H. simpl in H. mb H as s' w1 E. mr H. exists s'. split; [reflexivity|].
    unfold breed_subpop in E. mb E as c1 w2 E1. mb E as c2 w3 E2. destruct (sp_sels s) as [|x l]; [discriminate|].
    mb E as c3 w4 E3. mb E as c4 w5 E4.
    unfold ret in E. injection E as <- <-. split; [reflexivity|discriminate].
  Qed.

  Lemma ext_iteration a w a' w' w0 z g : ext_inv a w0 -> regen w0 w ->
    generation_iteration ev sched (set_gen_seed z (add_trace (TSeed z) (set_gen_num g a)), w) = (Ok tt, (a', w')) -> ext_inv a' w'.
  Proof.
    intros [L Hh (s & before & Es & Hn & Ee & Hd & _ & _)] Rg E.
    assert (L1 : loop_inv ev h (set_gen_seed z (add_trace (TSeed z) (set_gen_num g a))) w).
    { destruct L as [(s0 & Es0 & Hs) Hm Ha (b & Eb & H)].
      split; [exists s0; split; [exact Es0|]; intros o Ho; eapply regen_scalar; eauto|exact Hm|exact Ha|].
      exists b. split; [exact Eb|]. simpl. apply hist_skip; [reflexivity|reflexivity|]. eapply hist_regen; eauto. }
    split.
    - eapply iteration_inv; eauto.
    - apply iteration_ok in E. destruct E as (pop & w1 & best & w2 & c & worst & E1 & _ & _ & _ & ->). cbn in E1. rewrite Es in E1.
      apply breed_hib in E1. destruct E1 as (s' & -> & Eh & _). intros t Ht. 
      assert (Et : t = s') by (destruct c; cbn in Ht; destruct Ht as [<-|[]]; reflexivity). subst t. rewrite Eh. apply Hh. rewrite Es. left. reflexivity.
    - assert (L2 : loop_inv ev h a' w') by (eapply iteration_inv; eauto).
      assert (E' := E). apply iteration_ok in E'. destruct E' as (pop & w1 & best & w2 & c & worst & E1 & E2 & E3 & (s1 & rest & Ep & Ew) & Ea).
      cbn in E1. rewrite Es in E1. destruct (breed_hib _ _ _ _ E1) as (s' & Ep' & Eh & Hn'). rewrite Ep' in Ep. injection Ep as <- <-. subst pop.
      destruct L1 as [(s0 & Es0 & Hs) Hm Ha (b0 & Eb & H)]. cbn in Es0. rewrite Es in Es0. injection Es0 as <-.
      destruct (breed_scalar s w [s'] w1 h Hs E1) as (s'' & Es'' & Fr & Hs'). injection Es'' as <-.
      cbn in Hm, Ha. cbn in E2. rewrite Hm, Ha in E2.
      assert (W2 : w' = w2).
      { cbn in Eb, E3. rewrite Eb in E3.
        assert (H1 : hist ev h ((a_trace a ++ [TSeed z]) ++ [TBreed]) b0 w1).
        { apply hist_skip; [reflexivity|reflexivity|]. apply hist_regen with w; [apply regen_frame; exact Fr|exact H]. }
        destruct (hist_next ev h EV sched (inds_of s') w1 b0 best w2 c w' _ FAIR H1) as (-> & _); [|exact E2|exact E3|reflexivity].
        intros o Ho. destruct (Hs' o Ho) as [A B]. split; [exact A|]. intros (l & Hl & Hol).
        rewrite evals_app, app_nil_r in Hl. destruct (hi_vals _ _ _ _ _ H o) as [(i & Hi & _) _]; [exists l; auto|].
        apply at_lt in Hi. lia. }
      subst w'.
      destruct (evaluate_ok ev sched (inds_of s') w1 h best w2 FAIR EV (fun o Ho => proj1 (Hs' o Ho)) E2) as (Ne & _ & _ & _ & score & Hsc & Fb).
      destruct (worst_individual s' w2 score Ne Hsc) as (o & Eo & Fo). rewrite Eo in Ew. injection Ew as ->.
      assert (Hb : sp_hib s' = HB h) by (rewrite Eh; apply Hh; rewrite Es; left; reflexivity). rewrite Hb in Fo. cbn [hib_truthy] in Fo.
      assert (Tr : evals (a_trace a') = evals (a_trace a) ++ [inds_of s']).
      { rewrite Ea. assert (X : evals ((a_trace a ++ [TSeed z]) ++ [TBreed]) = evals (a_trace a)).
        { rewrite !evals_app. cbn. rewrite !app_nil_r. reflexivity. }
        assert (Y : a_trace a' = ((a_trace a ++ [TSeed z]) ++ [TBreed]) ++ [TEval (inds_of s')]).
        { rewrite Ea. unfold after_breeding. cbn [flat_map]. rewrite app_nil_r. destruct c; reflexivity. }
        rewrite <- Ea, Y, evals_app, X. reflexivity. }
      exists s', (evals (a_trace a)). split; [rewrite Ea; destruct c; reflexivity|]. split; [exact Hn'|]. split; [exact Tr|]. split.
      + intros p l Hl Hp Hi. destruct (Hs' p Hi) as [_ Lp].
        destruct (hi_vals _ _ _ _ _ H p) as [(i & Hi' & _) _].
        { exists l. split; [|exact Hp]. cbn. rewrite evals_app, in_app_iff. left. exact Hl. }
        apply at_lt in Hi'. lia.
      + split.
        * intros C. rewrite Ee in C. destruct before; discriminate.
        * intros _. exists best, worst, score. split; [rewrite Ea; destruct c; reflexivity|].
          split; [rewrite Ea; destruct c; reflexivity|]. split; [exact Hsc|]. split; assumption.
  Qed.

  (** Steps that keep the population, the evaluations, the two individuals and the world. *)
  Lemma ext_keep a w a' : loop_inv ev h a' w -> a_pop a' = a_pop a -> evals (a_trace a') = evals (a_trace a) ->
    a_best_gen a' = a_best_gen a -> a_worst_gen a' = a_worst_gen a -> ext_inv a w -> ext_inv a' w.
  Proof.
    intros L E1 E2 E3 E4 [_ Hh Hl]. split; [exact L|rewrite E1; exact Hh|]. rewrite E1, E2, E3, E4. exact Hl.
  Qed.

  Lemma ext_terminate a w st a' w' : ext_inv a w -> should_terminate (a, w) = (Ok st, (a', w')) -> ext_inv a' w'.
  Proof.
    intros X E. pose proof (terminate_inv ev h a w st a' w' (xi_loop _ _ X) E) as L.
    apply terminate_ok in E. destruct E as (-> & best & ans & cs & _ & _ & -> & _).
    apply ext_keep with a; auto; cbn; rewrite ?evals_app; cbn; rewrite ?app_nil_r; reflexivity.
  Qed.

  Lemma ext_publish a w nm : ext_inv a w -> ext_inv (fst (snd (publish nm (a, w)))) w.
  Proof.
    intros X. pose proof (publish_inv ev h EV a w nm (xi_loop _ _ X)) as L. rewrite publish_eq in *. cbn [fst snd] in *.
    apply ext_keep with a; auto; cbn; rewrite ?evals_app; cbn; rewrite ?app_nil_r; reflexivity.
  Qed.

  Lemma ext_set_final a w f : ext_inv a w -> ext_inv (set_final f a) w.
  Proof. intros X. apply ext_keep with a; auto. destruct (xi_loop _ _ X); split; assumption. Qed.

  Lemma ext_loop todo : forall g a w a' w', ext_inv a w ->
    main_loop (generation_iteration ev sched) todo g (a, w) = (Ok tt, (a', w')) -> ext_inv a' w'.
  Proof.
    induction todo as [|todo IH]; intros g a w a' w' H E; [simpl in E; unfold ret in E; injection E as <- <-; exact H|].
    rewrite main_loop_body in E. mb E as st s E1. destruct s as [a1 w1].
    assert (X : ext_inv a1 w1).
    { apply body_ok in E1. destruct E1 as (v1 & a2 & v2 & Rg & _ & E1 & E2).
      eapply ext_terminate; [|exact E2]. eapply ext_iteration; [exact H|exact Rg|exact E1]. }
    destruct st.
    - mb E as x s E2. unfold algo_mod in E2. simpl in E2. injection E2 as _ <-. apply (ext_set_final _ _ (Some g)) in X.
      apply (ext_publish _ _ "after_generation") in X. rewrite publish_eq in E, X. injection E as <- <-. exact X.
    - mb E as x s E2. apply (ext_publish _ _ "after_generation") in X. rewrite publish_eq in E2. injection E2 as _ <-.
      eapply IH; [|exact E]. exact X.
  Qed.

  Lemma create_hib s w s' w' : create_subpopulation s w = (Ok s', w') -> sp_hib s' = sp_hib s /\ sp_inds s' <> None.
  Proof.
    intros H. unfold create_subpopulation in H. destruct (sp_inds s) as [l|] eqn:E.
    - unfold ret in H. injection H as <- <-. split; [reflexivity|]. rewrite E. discriminate.
    - mb H as c w1 E1. mb H as l w2 E2. unfold ret in H. injection H as <- <-. split; [reflexivity|discriminate].
  Qed.

  Lemma ext_init n a w a' w' : a_trace a = [] -> a_method a = ByMap -> scalar_population w h (a_pop a) ->
    (forall s, In s (a_pop a) -> sp_hib s = HB h) -> a_best_gen a = bg -> a_worst_gen a = wg ->
    initialize ev sched n (a, w) = (Ok tt, (a', w')) -> ext_inv a' w'.
  Proof.
    intros Ht Hm Hp Hh Hb Hw E. pose proof (init_inv ev h EV sched FAIR n a w a' w' Ht Hm Hp E) as L.
    destruct Hp as (s & Es & _). apply init_ok in E. destruct E as (pop & w1 & best & E1 & _ & ->).
    rewrite Es in E1. simpl in E1. mb E1 as s' w2 E3. mr E1. apply create_hib in E3. destruct E3 as [Eh Hn].
    split; [exact L| |].
    - intros t [<-|[]]. rewrite Eh. apply Hh. rewrite Es. left. reflexivity.
    - exists s', []. split; [reflexivity|]. split; [exact Hn|]. cbn. rewrite Ht. cbn. rewrite app_nil_r. split; [reflexivity|].
      split; [intros o l []|]. split; [intros _; split; assumption|]. intros C. contradiction.
  Qed.

  Lemma ext_evolve n a w a' w' : a_trace a = [] -> a_method a = ByMap -> scalar_population w h (a_pop a) ->
    (forall s, In s (a_pop a) -> sp_hib s = HB h) -> a_best_gen a = bg -> a_worst_gen a = wg ->
    evolve ev sched n (a, w) = (Ok tt, (a', w')) -> exists a3, a' = set_alive false a3 /\ ext_inv a3 w'.
  Proof.
    intros Ht Hm Hp Hh Hb Hw E. unfold evolve in E. apply evolve_ok in E. destruct E as (a1 & w1 & st & a2 & a3 & w3 & E1 & E2 & E3 & E4).
    apply ext_init in E1; auto. apply ext_terminate in E2; [|exact E1]. apply finish_ok in E4. destruct E4 as [-> ->].
    assert (H3 : ext_inv a3 w3).
    { destruct st.
      - destruct E3 as [-> ->]. apply (ext_set_final _ _ (Some 0)) in E2. apply (ext_publish _ _ "after_generation") in E2. exact E2.
      - eapply ext_loop; eauto. }
    apply (ext_publish _ _ "evolution_finished") in H3. rewrite publish_eq in H3. eexists. split; [reflexivity|exact H3].
  Qed.
End Extremes.

Lemma reported_extremes ev sched n a w a' w' h : gives_numbers ev -> fair sched -> a_trace a = [] -> a_method a = ByMap ->
  scalar_population w h (a_pop a) -> (forall s, In s (a_pop a) -> sp_hib s = HB h) ->
  evolve ev sched n (a, w) = (Ok tt, (a', w')) ->
  exists before current, evals (a_trace a') = before ++ [current] /\
    (before = [] -> a_best_gen a' = a_best_gen a /\ a_worst_gen a' = a_worst_gen a) /\
    (before <> [] -> exists b c score, a_best_gen a' = Some b /\ a_worst_gen a' = Some c /\
       (forall o, In o current -> scored w' o (score o)) /\ first_best h score current b /\ first_best (negb h) score current c /\
       get_best_individuals (a_pop a') w' = (Ok [b], w') /\ get_worst_individuals (a_pop a') w' = (Ok [c], w')).
Proof.
  intros EV F Ht Hm Hp Hh E.
  destruct (ext_evolve ev h sched (a_best_gen a) (a_worst_gen a) EV F n a w a' w' Ht Hm Hp Hh eq_refl eq_refl E) as (a3 & -> & [_ Hh' (s & before & Es & _ & Ee & _ & H0 & H1)]).
  exists before, (inds_of s). split; [exact Ee|]. split; [exact H0|]. intros Hb. destruct (H1 Hb) as (b & c & score & Eb & Ec & Hs & Fb & Fc).
  exists b, c, score. split; [exact Eb|]. split; [exact Ec|]. split; [exact Hs|]. split; [exact Fb|]. split; [exact Fc|].
  assert (Ne : inds_of s <> []) by (intros C; rewrite C in Fb; destruct Fb as ([|? ?] & ? & D & _); discriminate).
  assert (Hib : sp_hib s = HB h) by (apply Hh'; rewrite Es; left; reflexivity).
  cbn [a_pop set_alive]. rewrite Es.
  destruct (best_individual s w' h score Hib Ne Hs) as (o & Eo & Fo). destruct (worst_individual s w' score Ne Hs) as (p & Epp & Fp).
  rewrite Hib in Fp. cbn [hib_truthy] in Fp. rewrite (first_best_unique _ _ _ _ _ Fo Fb) in Eo. rewrite (first_best_unique _ _ _ _ _ Fp Fc) in Epp.
  unfold get_best_individuals, get_worst_individuals. cbn [mapM]. unfold bind. rewrite Eo, Epp. split; reflexivity.
Qed.

Lemma found_in_run ev sched n a w a' w' h : gives_numbers ev -> fair sched -> a_trace a = [] -> a_method a = ByMap ->
  scalar_population w h (a_pop a) -> (forall s, In s (a_pop a) -> sp_hib s = HB h) ->
  evolve ev sched n (a, w) = (Ok tt, (a', w')) ->
  exists before current, evals (a_trace a') = before ++ [current] /\
    (forall o, In o current -> find_individual_subpopulation (a_pop a') o = Ok 0) /\
    (forall o, In o (concat before) -> find_individual_subpopulation (a_pop a') o = Raise ValueError).
Proof.
  intros EV F Ht Hm Hp Hh E.
  destruct (ext_evolve ev h sched (a_best_gen a) (a_worst_gen a) EV F n a w a' w' Ht Hm Hp Hh eq_refl eq_refl E) as (a3 & -> & [_ _ (s & before & Es & Hn & Ee & Hd & _ & _)]).
  exists before, (inds_of s). split; [exact Ee|]. cbn [a_pop set_alive]. rewrite Es. cbn [find_individual_subpopulation].
  destruct (sp_inds s) as [l|] eqn:El; [|contradiction]. assert (L : inds_of s = l) by (unfold inds_of; rewrite El; reflexivity).
  split; intros o Ho; destruct (contains_in s o l El) as (b & -> & Hb); cbn [rbind]; destruct b; try reflexivity.
  - rewrite L in Ho. apply Hb in Ho. discriminate.
  - apply in_concat in Ho as (k & Hk & Ho). exfalso. apply (Hd o k Hk Ho). rewrite L. apply Hb. reflexivity.
Qed.

Lemma best_lists pop w (h : subpop -> bool) score :
  (forall s, In s pop -> sp_hib s = HB (h s) /\ inds_of s <> [] /\ forall o, In o (inds_of s) -> scored w o (score o)) ->
  exists bs cs, get_best_individuals pop w = (Ok bs, w) /\ get_worst_individuals pop w = (Ok cs, w) /\
    Forall2 (fun s b => first_best (h s) score (inds_of s) b) pop bs /\
    Forall2 (fun s c => first_best (negb (h s)) score (inds_of s) c) pop cs.
Proof.
  induction pop as [|s pop IH]; intros H.
  - exists [], []. repeat split; constructor.
  - destruct (H s (or_introl eq_refl)) as (Hh & Ne & Hs). destruct IH as (bs & cs & Eb & Ec & Fb & Fc); [intros t Ht; apply H; right; exact Ht|].
    destruct (best_individual s w (h s) score Hh Ne Hs) as (b & Ebb & Fbb). destruct (worst_individual s w score Ne Hs) as (c & Ecc & Fcc).
    rewrite Hh in Fcc. cbn [hib_truthy] in Fcc. exists (b :: bs), (c :: cs). unfold get_best_individuals, get_worst_individuals in *. cbn [mapM].
    unfold bind. rewrite Ebb, Ecc, Eb, Ec. repeat split; constructor; assumption.
Qed.

Lemma average_lists pop w (q : oid -> Q) :
  (forall s, In s pop -> inds_of s <> [] /\ forall o, In o (inds_of s) -> exists i, at_ w o = Some i /\ get_pure_fitness (i_fit i) = Ok (VNum (Fin (q o)))) ->
  exists avs, get_average_fitnesses pop w = (Ok (map Fin avs), w) /\
    Forall2 (fun s a => a * inject_Z (Z.of_nat (length (inds_of s))) == fold_right (fun o x => q o + x) 0 (inds_of s))%Q pop avs.
Proof.
  induction pop as [|s pop IH]; intros H; [exists []; split; [reflexivity|constructor]|].
  destruct (H s (or_introl eq_refl)) as (Ne & Hs). destruct IH as (avs & E & F); [intros t Ht; apply H; right; exact Ht|].
  destruct (average_fitness s w q Ne Hs) as (a & Ea & Ha & _). exists (a :: avs). unfold get_average_fitnesses in *. cbn [mapM].
  unfold bind. rewrite Ea, E. split; [reflexivity|]. constructor; assumption.
Qed.
