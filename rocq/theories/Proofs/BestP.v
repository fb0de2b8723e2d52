(** Proofs about best_of_run_ (C31, C32). *)
From Verif.Proofs Require Export RunP.
From Verif.Model Require Import Tree World Evolution.
Open Scope nat_scope.

Definition evd (tr : list tev) (o : oid) : Prop := exists l, In l (evals tr) /\ In o l.

Lemma evals_app t t' : evals (t ++ t') = evals t ++ evals t'.
Proof. apply flat_map_app. Qed.
Lemma recorded_app t t' : recorded (t ++ t') = recorded t ++ recorded t'.
Proof. apply flat_map_app. Qed.

Lemma StronglySorted_snoc {A} (R : A -> A -> Prop) l x : StronglySorted R l -> (forall y, In y l -> R y x) -> StronglySorted R (l ++ [x]).
Proof.
  induction 1 as [|y l S IH F]; intros H; simpl; [repeat constructor|]. constructor; [apply IH; intros; apply H; simpl; auto|].
  apply Forall_app. split; [exact F|]. constructor; [apply H; left; reflexivity|constructor].
Qed.

Lemma pick_weighted_In {A} (l : list A) : forall ws acc t a, pick_weighted l ws acc t = Some a -> In a l.
Proof.
  induction l as [|x l IH]; intros ws acc t a H; [discriminate|].
  destruct l as [|y l]; [injection H as <-; left; reflexivity|]. destruct ws as [|c ws]; [injection H as <-; left; reflexivity|].
  cbn [pick_weighted] in H. destruct (nlt t (nadd acc c)); [injection H as <-; left; reflexivity|]. right. eapply IH. exact H.
Qed.

Lemma choices_weighted_In {A} (l : list A) ws g a g' : choices_weighted l ws g = (Ok a, g') -> In a l.
Proof.
  intros H. unfold choices_weighted in H. destruct (negb (_ =? _)); [discriminate|]. destruct (_ =? 0); [discriminate|].
  destruct (nle _ _); [discriminate|]. destruct (negb _); [discriminate|].
  mb H as u g1 E. destruct (pick_weighted _ _ _ _) as [b|] eqn:P; [|discriminate]. mr H. eapply pick_weighted_In; eauto.
Qed.

Definition published_any (e : tev) : bool := match e with TPublish _ _ _ _ => true | _ => false end.

Section Hist.
  Variable ev : genome -> res fval.
  Variable h : bool.
  Hypothesis EV : gives_numbers ev.

  Record hist (tr : list tev) (b : oid) (w : world) : Prop := {
    hi_vals : forall o, evd tr o -> scalar_at w h o /\ has_value ev w o;
    hi_in : evd tr b;
    hi_best : forall o, evd tr o -> ~ better_score h (score_of w o) (score_of w b);
    hi_rec : forall o i, In (o, i) (recorded tr) -> evd tr o /\ exists n, at_ w o = Some (set_gen n i);
    hi_mono : StronglySorted (no_worse h) (map snd (recorded tr));
    hi_pub : forall nm g bo so, In (TPublish nm g bo so) tr -> exists o i, bo = Some o /\ so = Some i
  }.

  Lemma hist_scored tr b w o : hist tr b w -> evd tr o -> scored w o (score_of w o) /\ oriented w h o.
  Proof. intros H Ho. destruct (hi_vals _ _ _ H o Ho). eapply scored_at; eauto. Qed.

  Lemma regen_score w w' o i : regen w w' -> at_ w o = Some i -> score_of w' o = score_of w o.
  Proof. intros R H. destruct (R o i H) as (n & Hn). unfold score_of. rewrite H, Hn. reflexivity. Qed.

  Lemma regen_scalar w w' o : regen w w' -> scalar_at w h o -> scalar_at w' h o.
  Proof. intros R (i & H & S). destruct (R o i H) as (n & Hn). exists (set_gen n i). split; [exact Hn|exact S]. Qed.

  Lemma regen_value w w' o : regen w w' -> has_value ev w o -> has_value ev w' o.
  Proof. intros R (i & v & H & E & P). destruct (R o i H) as (n & Hn). exists (set_gen n i), v. auto. Qed.

  (** Only the objects evaluated so far matter. *)
  Lemma hist_move tr b w w' : (forall o i, evd tr o -> at_ w o = Some i -> exists n, at_ w' o = Some (set_gen n i)) -> hist tr b w -> hist tr b w'.
  Proof.
    intros R H.
    assert (Sc : forall o, evd tr o -> score_of w' o = score_of w o).
    { intros o Ho. destruct (hi_vals _ _ _ H o Ho) as [(i & Hi & _) _]. destruct (R o i Ho Hi) as (n & Hn). unfold score_of. rewrite Hi, Hn. reflexivity. }
    split.
    - intros o Ho. destruct (hi_vals _ _ _ H o Ho) as [(i & Hi & S) (i' & v & Hi' & E & P)]. rewrite Hi in Hi'. injection Hi' as <-.
      destruct (R o i Ho Hi) as (n & Hn). split; [exists (set_gen n i); auto|exists (set_gen n i), v; auto].
    - apply (hi_in _ _ _ H).
    - intros o Ho. rewrite !Sc; [|apply (hi_in _ _ _ H)|exact Ho]. apply (hi_best _ _ _ H). exact Ho.
    - intros o i Hi. destruct (hi_rec _ _ _ H o i Hi) as [He (n & Hn)]. split; [exact He|].
      destruct (R o _ He Hn) as (m & Hm). exists m. exact Hm.
    - apply (hi_mono _ _ _ H).
    - apply (hi_pub _ _ _ H).
  Qed.

  Lemma hist_regen tr b w w' : regen w w' -> hist tr b w -> hist tr b w'.
  Proof. intros R. apply hist_move. intros o i _. apply R. Qed.

  (** Events that neither evaluate nor record. *)
  Lemma hist_skip tr b w e : evals [e] = [] -> published_any e = false -> hist tr b w -> hist (tr ++ [e]) b w.
  Proof.
    intros E1 E2 [A B C D E F]. assert (E3 : recorded [e] = []) by (destruct e; try reflexivity; discriminate).
    unfold evd in *. split; unfold evd; rewrite ?evals_app, ?recorded_app, ?E1, ?E3, ?app_nil_r; auto.
    intros nm g bo so Hi. apply in_app_or in Hi. destruct Hi as [Hi|[->|[]]]; [eauto|discriminate].
  Qed.

  Lemma no_worse_refl_score (i j : ind) a b : scores (i_fit i) (isize i) a -> scores (i_fit j) (isize j) b -> ~ better_score h a b -> no_worse h i j.
  Proof.
    intros (_ & _ & Ei & _) (_ & _ & Ej & _) N x y (_ & _ & Ei' & _) (_ & _ & Ej' & _).
    rewrite Ei in Ei'. rewrite Ej in Ej'. injection Ei' as <-. injection Ej' as <-. exact N.
  Qed.

  Lemma hist_publish tr b w nm g : hist tr b w -> hist (tr ++ [TPublish nm g (Some b) (at_ w b)]) b w.
  Proof.
    intros H. destruct (hi_vals _ _ _ H b (hi_in _ _ _ H)) as [(i & Hi & S) _]. rewrite Hi.
    assert (Ev : evals (tr ++ [TPublish nm g (Some b) (Some i)]) = evals tr) by (rewrite evals_app; apply app_nil_r).
    assert (Rc : recorded (tr ++ [TPublish nm g (Some b) (Some i)]) = recorded tr ++ [(b, i)]) by (rewrite recorded_app; reflexivity).
    pose proof (hist_scored _ _ _ b H (hi_in _ _ _ H)) as [(i' & Hi' & Sb) _]. rewrite Hi in Hi'. injection Hi' as <-.
    split; unfold evd in *; rewrite ?Ev, ?Rc.
    - apply (hi_vals _ _ _ H).
    - apply (hi_in _ _ _ H).
    - apply (hi_best _ _ _ H).
    - intros o j Hj. apply in_app_or in Hj. destruct Hj as [Hj|[Hj|[]]]; [apply (hi_rec _ _ _ H); exact Hj|].
      injection Hj as <- <-. split; [apply (hi_in _ _ _ H)|]. exists (i_gen i). rewrite set_gen_same. exact Hi.
    - rewrite map_app. apply StronglySorted_snoc; [apply (hi_mono _ _ _ H)|]. intros j Hj.
      apply in_map_iff in Hj. destruct Hj as ([o j'] & <- & Hj). simpl. destruct (hi_rec _ _ _ H o j' Hj) as [Ho (n & Hn)].
      pose proof (hist_scored _ _ _ o H Ho) as [(k & Hk & Sk) _]. rewrite Hn in Hk. injection Hk as <-.
      eapply no_worse_refl_score; [exact Sk|exact Sb|]. apply (hi_best _ _ _ H). exact Ho.
    - intros nm' g' bo so Hi'. apply in_app_or in Hi'. destruct Hi' as [Hi'|[Hi'|[]]]; [apply (hi_pub _ _ _ H) in Hi'; exact Hi'|].
      injection Hi' as <- <- <- <-. eauto.
  Qed.

  Lemma better_irrefl x : ~ better_score h x x.
  Proof. unfold better_score. destruct h; rewrite nlt_irrefl; discriminate. Qed.
  Lemma better_trans x y z : better_score h x y -> better_score h y z -> better_score h x z.
  Proof. unfold better_score. destruct h; intros; eapply nlt_trans; eauto. Qed.
  Lemma better_negtrans x y z : is_nan x = false -> is_nan y = false -> is_nan z = false ->
    ~ better_score h x y -> ~ better_score h y z -> ~ better_score h x z.
  Proof.
    intros Nx Ny Nz. rewrite <- !better_b_false. unfold better_b. destruct h; intros A B; [apply (nlt_negtrans z y x)|apply (nlt_negtrans x y z)]; assumption.
  Qed.

  Lemma first_best_none score l b : first_best h score l b -> In b l /\ forall o, In o l -> ~ better_score h (score o) (score b).
  Proof.
    intros (p & q & -> & Hp & Hq). split; [apply in_or_app; right; left; reflexivity|]. intros o Ho. apply in_app_or in Ho.
    destruct Ho as [Ho|[<-|Ho]]; [|apply better_irrefl|auto]. intros C. apply (better_irrefl (score o)). eapply better_trans; eauto.
  Qed.

  (** A first evaluation. *)
  Lemma hist_first sched l w b w' tr : fair sched -> evals tr = [] -> existsb published_any tr = false -> (forall o, In o l -> scalar_at w h o) ->
    evaluate_inds ev sched ByMap true l w = (Ok b, w') -> hist (tr ++ [TEval l]) b w' /\ kinds w w'.
  Proof.
    intros F E1 E3 Hs H.
    assert (NP : forall nm g bo so, ~ In (TPublish nm g bo so) tr).
    { intros nm g bo so Hi. assert (C : existsb published_any tr = true) by (apply existsb_exists; eexists; split; [exact Hi|reflexivity]). congruence. }
    assert (E2 : recorded tr = []).
    { clear -E3. induction tr as [|e tr IH]; [reflexivity|]. simpl in E3. apply orb_false_iff in E3. destruct E3 as [A B]. destruct e; simpl; auto; discriminate. }
    destruct (evaluate_ok ev sched l w h b w' F EV Hs H) as (_ & _ & Hin & Hout & score & Hsc & Fb).
    apply first_best_none in Fb. destruct Fb as [Hb Fb].
    assert (Ev : evals (tr ++ [TEval l]) = [l]) by (rewrite evals_app, E1; reflexivity).
    assert (Rc : recorded (tr ++ [TEval l]) = []) by (rewrite recorded_app, E2; reflexivity).
    assert (D : forall o, evd (tr ++ [TEval l]) o -> In o l) by (intros o (k & Hk & Ho); rewrite Ev in Hk; destruct Hk as [<-|[]]; exact Ho).
    split.
    - split.
      + intros o Ho. apply D in Ho. destruct (Hs o Ho) as (i & Hi & S). destruct (Hin o i Ho Hi) as (j & Hj & Ej).
        split; [exists j; split; [exact Hj|eapply evaluated_scalar; eauto]|eapply evaluated_has_value; eauto].
      + exists l. rewrite Ev. simpl. auto.
      + intros o Ho. apply D in Ho. rewrite (scored_score _ _ _ (Hsc o Ho)), (scored_score _ _ _ (Hsc b Hb)). auto.
      + rewrite Rc. intros o i [].
      + rewrite Rc. constructor.
      + intros nm g bo so Hi. apply in_app_or in Hi. destruct Hi as [Hi|[Hi|[]]]; [exfalso; eapply NP; exact Hi|discriminate].
    - intros o i Hi. destruct (in_dec Nat.eq_dec o l) as [Ho|Ho].
      + destruct (Hin o i Ho Hi) as (j & Hj & v & _ & ->). eexists. split; [exact Hj|]. repeat split.
      + exists i. rewrite Hout by exact Ho. split; [exact Hi|apply fit_kind_refl].
  Qed.

  (** A later evaluation, of new individuals; the winner is compared with the best so far. *)
  Lemma hist_next sched l w b best w1 c w2 tr : fair sched -> hist tr b w ->
    (forall o, In o l -> scalar_at w h o /\ ~ evd tr o) ->
    evaluate_inds ev sched ByMap true l w = (Ok best, w1) -> ind_better_than best b w1 = (Ok c, w2) ->
    w2 = w1 /\ hist (tr ++ [TEval l]) (if c then best else b) w1 /\ forall o, In o l -> scalar_at w1 h o.
  Proof.
    intros F H Hs E1 E2.
    destruct (evaluate_ok ev sched l w h best w1 F EV (fun o Ho => proj1 (Hs o Ho)) E1) as (_ & _ & Hin & Hout & score & Hsc & Fb).
    apply first_best_none in Fb. destruct Fb as [Hb Fb].
    assert (H1 : hist tr b w1).
    { apply hist_move with w; [|exact H]. intros o i Ho Hi. exists (i_gen i). rewrite set_gen_same, Hout; [exact Hi|].
      intros Hl. apply (Hs o Hl). exact Ho. }
    assert (V : forall o, In o l -> scalar_at w1 h o /\ has_value ev w1 o).
    { intros o Ho. destruct (proj1 (Hs o Ho)) as (i & Hi & S). destruct (Hin o i Ho Hi) as (j & Hj & Ej).
      split; [exists j; split; [exact Hj|eapply evaluated_scalar; eauto]|eapply evaluated_has_value; eauto]. }
    destruct (hist_scored _ _ _ b H1 (hi_in _ _ _ H1)) as [Sb _].
    destruct (scored_at w1 h best ev EV (proj1 (V best Hb)) (proj2 (V best Hb))) as [Sn On].
    rewrite (better_scored w1 h best b _ _ Sn Sb On) in E2. injection E2 as Ec <-. split; [reflexivity|]. split; [|intros o Ho; apply V; exact Ho].
    assert (Ev : evals (tr ++ [TEval l]) = evals tr ++ [l]) by (rewrite evals_app; reflexivity).
    assert (Rc : recorded (tr ++ [TEval l]) = recorded tr) by (rewrite recorded_app; apply app_nil_r).
    assert (D : forall o, evd (tr ++ [TEval l]) o <-> evd tr o \/ In o l).
    { intros o. unfold evd. rewrite Ev. split.
      - intros (k & Hk & Ho). apply in_app_or in Hk. destruct Hk as [Hk|[<-|[]]]; [left; eauto|right; exact Ho].
      - intros [(k & Hk & Ho)|Ho]; [exists k|exists l]; (split; [apply in_or_app|]; simpl; auto). }
    assert (NN : forall o, evd tr o \/ In o l -> is_nan (score_of w1 o) = false).
    { intros o [Ho|Ho]; [destruct (hist_scored _ _ _ o H1 Ho) as [S _]; eapply scored_not_nan; eauto|].
      destruct (V o Ho) as [V1 V2]. destruct (scored_at w1 h o ev EV V1 V2) as [S _]. eapply scored_not_nan; eauto. }
    assert (Bl : forall o, In o l -> ~ better_score h (score_of w1 o) (score_of w1 best)).
    { intros o Ho. rewrite (scored_score _ _ _ (Hsc o Ho)), (scored_score _ _ _ (Hsc best Hb)). auto. }
    split.
    - intros o Ho. apply D in Ho. destruct Ho as [Ho|Ho]; [apply (hi_vals _ _ _ H1); exact Ho|auto].
    - apply D. destruct c; [right; exact Hb|left; apply (hi_in _ _ _ H1)].
    - intros o Ho. apply D in Ho. destruct c.
      + apply better_b_iff in Ec. destruct Ho as [Ho|Ho]; [|auto]. intros C.
        apply (hi_best _ _ _ H1 o Ho). eapply better_trans; eauto.
      + apply better_b_false in Ec. destruct Ho as [Ho|Ho]; [apply (hi_best _ _ _ H1); exact Ho|].
        apply better_negtrans with (score_of w1 best); auto. apply NN. left. apply (hi_in _ _ _ H1).
    - rewrite Rc. intros o i Hi. destruct (hi_rec _ _ _ H1 o i Hi) as [A B]. split; [apply D; left; exact A|exact B].
    - rewrite Rc. apply (hi_mono _ _ _ H1).
    - intros nm g bo so Hi. apply in_app_or in Hi. destruct Hi as [Hi|[Hi|[]]]; [apply (hi_pub _ _ _ H1) in Hi; exact Hi|discriminate].
  Qed.

  (** ** The loop *)

  (** The state between generations. *)
  Record loop_inv (a : algo) (w : world) : Prop := {
    li_pop : exists s, a_pop a = [s] /\ forall o, In o (inds_of s) -> scalar_at w h o;
    li_method : a_method a = ByMap;
    li_alive : a_alive a = true;
    li_hist : exists b, a_best_run a = Some b /\ hist (a_trace a) b w
  }.

  Lemma eval_alive sched m alive l w b w' : present l w -> evaluate_inds ev sched m alive l w = (Ok b, w') -> alive = true.
  Proof.
    intros P H. destruct alive; [reflexivity|]. destruct l as [|x l].
    - destruct m; simpl in H; try discriminate H. unfold evaluate_inds in H. simpl in H. mb H as gs w1 E. mr E. mb H as rs w2 E2. mr E2.
      mb H as outs w3 E3. mb H as us w4 E4. mb H as u w5 E5. discriminate.
    - rewrite evaluate_dead in H; [discriminate|exact P|discriminate].
  Qed.

  Variable sched : nat -> list nat.
  Hypothesis FAIR : fair sched.

  Lemma iteration_inv a w a' w' : loop_inv a w -> generation_iteration ev sched (a, w) = (Ok tt, (a', w')) -> loop_inv a' w'.
  Proof.
    intros [(s & Es & Hs) Hm Ha (b & Eb & H)] E. apply iteration_ok in E.
    destruct E as (pop & w1 & best & w2 & c & worst & E1 & E2 & E3 & _ & ->). rewrite Eb in E3. rewrite Es in E1.
    destruct (breed_scalar s w pop w1 h Hs E1) as (s' & -> & Fr & Hs').
    rewrite Hm, Ha in E2. simpl in E2.
    assert (H1 : hist (a_trace a ++ [TBreed]) b w1).
    { apply hist_skip; [reflexivity|reflexivity|]. apply hist_regen with w; [apply regen_frame; exact Fr|exact H]. }
    destruct (hist_next sched (inds_of s') w1 b best w2 c w' (a_trace a ++ [TBreed]) FAIR H1) as (-> & H2 & Hs2); [|exact E2|exact E3|].
    - intros o Ho. destruct (Hs' o Ho) as [A B]. split; [exact A|]. intros (l & Hl & Hol).
      rewrite evals_app, app_nil_r in Hl. destruct (hi_vals _ _ _ H o) as [(i & Hi & _) _]; [exists l; auto|].
      apply at_lt in Hi. lia.
    - unfold after_breeding. simpl flat_map. rewrite app_nil_r. split.
      + exists s'. destruct c; (split; [reflexivity|exact Hs2]).
      + destruct c; exact Hm.
      + destruct c; exact Ha.
      + exists (if c then best else b). destruct c; simpl; (split; [auto|exact H2]).
  Qed.

  Lemma terminate_inv a w st a' w' : loop_inv a w -> should_terminate (a, w) = (Ok st, (a', w')) -> loop_inv a' w'.
  Proof.
    intros [(s & Es & Hs) Hm Ha (b & Eb & H)] E. apply terminate_ok in E. destruct E as (-> & best & ans & cs & _ & _ & -> & _).
    split; [exists s; auto|exact Hm|exact Ha|]. exists b. split; [exact Eb|]. apply hist_skip; [reflexivity|reflexivity|exact H].
  Qed.

  Lemma publish_inv a w nm : loop_inv a w -> loop_inv (fst (snd (publish nm (a, w)))) w.
  Proof.
    intros [(s & Es & Hs) Hm Ha (b & Eb & H)]. rewrite publish_eq. simpl. split; [exists s; auto|exact Hm|exact Ha|].
    exists b. split; [exact Eb|]. simpl. rewrite Eb. apply hist_publish. exact H.
  Qed.

  Lemma body_inv a w g st a' w' : loop_inv a w -> body (generation_iteration ev sched) g (a, w) = (Ok st, (a', w')) -> loop_inv a' w'.
  Proof.
    intros [(s & Es & Hs) Hm Ha (b & Eb & H)] E. apply body_ok in E. destruct E as (w1 & a2 & w2 & Rg & _ & E1 & E2).
    eapply terminate_inv; [|exact E2]. eapply iteration_inv; [|exact E1].
    split; [exists s; split; [exact Es|]; intros o Ho; eapply regen_scalar; eauto|exact Hm|exact Ha|].
    exists b. split; [exact Eb|]. simpl. apply hist_skip; [reflexivity|reflexivity|]. eapply hist_regen; eauto.
  Qed.

  Lemma loop_ok todo : forall g a w a' w', loop_inv a w ->
    main_loop (generation_iteration ev sched) todo g (a, w) = (Ok tt, (a', w')) -> loop_inv a' w'.
  Proof.
    induction todo as [|todo IH]; intros g a w a' w' H E; [simpl in E; unfold ret in E; injection E as <- <-; exact H|].
    rewrite main_loop_body in E. mb E as st s E1. destruct s as [a1 w1]. apply body_inv in E1; [|exact H]. destruct st.
    - mb E as x s E2. unfold algo_mod in E2. simpl in E2. injection E2 as _ <-. 
      assert (H2 : loop_inv (set_final (Some g) a1) w1) by (destruct E1; split; assumption).
      apply (publish_inv _ _ "after_generation") in H2. rewrite publish_eq in E, H2. injection E as <- <-. exact H2.
    - mb E as x s E2. apply (publish_inv _ _ "after_generation") in E1. rewrite publish_eq in E2. injection E2 as _ <-.
      eapply IH; [|exact E]. exact E1.
  Qed.

  Lemma init_inv n a w a' w' : a_trace a = [] -> a_method a = ByMap -> scalar_population w h (a_pop a) ->
    initialize ev sched n (a, w) = (Ok tt, (a', w')) -> loop_inv a' w'.
  Proof.
    intros Ht Hm (s & Es & Hp) E. apply init_ok in E. destruct E as (pop & w1 & best & E1 & E2 & ->).
    rewrite Es in E1. simpl in E1. mb E1 as s' w2 E3. mr E1.
    assert (S' : forall o, In o (inds_of s') -> scalar_at w1 h o).
    { unfold create_subpopulation in E3. destruct (sp_inds s) as [l|] eqn:El.
      - unfold ret in E3. injection E3 as <- <-. unfold inds_of. rewrite El. intros o Ho.
        destruct (Hp o Ho) as (i & Hi & S). exists i. split; [|exact S]. exact Hi.
      - destruct Hp as [Hh Hc]. mb E3 as c w3 E4. mb E3 as l w4 E5. intros o Ho. mr E3. unfold inds_of in Ho. simpl in Ho.
        assert (Ic : In c (sp_creators s)).
        { apply liftR_ok in E4. destruct E4 as (g & E4 & _). eapply choices_weighted_In; eauto. }
        eapply create_scalar; eauto. }
    simpl in E2.
    assert (Al : a_alive a = true) by (eapply eval_alive; [eapply scalar_present; exact S'|exact E2]).
    rewrite Hm, Al in E2. destruct (hist_first sched (inds_of s') w1 best w' [TSeed (a_random_seed a)] FAIR eq_refl eq_refl S' E2) as [H K].
    split; [exists s'; split; [reflexivity|]; intros o Ho; eapply kinds_scalar; eauto|exact Hm|exact Al|].
    exists best. split; [reflexivity|]. simpl. rewrite Ht. simpl. rewrite app_nil_r. apply (hist_publish _ _ _ "init" (a_gen_num a)) in H. exact H.
  Qed.

  Lemma evolve_inv n a w a' w' : a_trace a = [] -> a_method a = ByMap -> scalar_population w h (a_pop a) ->
    evolve ev sched n (a, w) = (Ok tt, (a', w')) -> exists b, a_best_run a' = Some b /\ hist (a_trace a') b w'.
  Proof.
    intros Ht Hm Hp E. unfold evolve in E. apply evolve_ok in E. destruct E as (a1 & w1 & st & a2 & a3 & w3 & E1 & E2 & E3 & E4).
    apply init_inv in E1; auto. apply terminate_inv in E2; [|exact E1]. apply finish_ok in E4. destruct E4 as [-> ->].
    assert (H3 : loop_inv a3 w3).
    { destruct st.
      - destruct E3 as [-> ->]. assert (H2 : loop_inv (set_final (Some 0) a2) w1) by (destruct E2; split; assumption).
        apply (publish_inv _ _ "after_generation") in H2. exact H2.
      - eapply loop_ok; eauto. }
    apply (publish_inv _ _ "evolution_finished") in H3. rewrite publish_eq in H3. destruct H3 as [_ _ _ (b & Eb & H)].
    exists b. split; [exact Eb|exact H].
  Qed.
End Hist.
