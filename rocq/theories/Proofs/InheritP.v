(** * Later generations only contain what the operators make from earlier ones. *)
From Coq Require Import Lia Permutation.
From Verif.Model Require Import Num Rng Vector Tree World Creators Evolution.
From Verif.Spec Require Import WorldSpec FitnessSpec VectorSpec TreeSpec SelSpec EvoSpec CompleteSpec ShowSpec InheritSpec.
From Verif.Proofs Require Import Lib WorldP VectorP VecOpP TreeP TreeOpP TreeFinalP VecFinalP RunP EvalP BestP CompleteP CompleteVecP CompleteTreeP ProgramP RootP EvoFinalP ChanceP.
From Verif.Model Require Import Num Rng Vector Tree World Creators Evolution.
Open Scope string_scope.
Open Scope nat_scope.
Open Scope list_scope.

Lemma genomes_of_gkeep w w' l g : gkeep w w' -> genomes_of w l g -> genomes_of w' l g.
Proof. intros K (o & i & Ho & A & E). destruct (K o i A) as (j & Aj & Ej). exists o, j. split; [exact Ho|]. split; [exact Aj|congruence]. Qed.

Lemma genomes_of_in G w l : genomes_in G l w -> forall g, genomes_of w l g -> G g.
Proof. intros H g (o & i & Ho & A & <-). destruct (H o Ho) as (i' & A' & Gi). congruence. Qed.

Lemma genomes_self w l : present l w -> genomes_in (genomes_of w l) l w.
Proof. intros P o Ho. destruct (P o Ho) as (i & A). exists i. split; [exact A|]. exists o, i. auto. Qed.

Section Inherit.
  Variables (B : genome -> Prop) (ev : genome -> res fval) (sched : nat -> list nat) (h : bool) (s : subpop).
  Variable D : (genome -> Prop) -> genome -> Prop.
  Hypothesis (Hnum : gives_numbers ev) (Htot : total_on B ev) (Hfair : fair sched).
  Hypothesis (Hhib : sp_hib s = HB h) (Hsize : 1 <= sp_size s).
  Hypothesis Har : forall n, In n (map sel_arity (sp_sels s) ++ map op_arity (sp_ops s)) -> n <> 0 /\ Nat.divide n (sp_size s).
  Hypothesis Hsel : exists sel sels, sp_sels s = sel :: sels /\ tournament_for (sp_size s) sel.
  Hypothesis Hop : Forall (closed_operator B) (sp_ops s).
  Hypothesis HD : closure B D.
  Hypothesis HDop : forall S : genome -> Prop, (forall g, S g -> B g) -> Forall (closed_operator (D S)) (sp_ops s).

  Notation going := (going B ev h s).

  Definition lineage (a : algo) (w : world) : Prop :=
    (exists l pre, a_pop a = [with_inds s l] /\ evals (a_trace a) = pre ++ [l]) /\ descends D w (evals (a_trace a)).

  Lemma genomes_mono (P Q : genome -> Prop) l w : (forall g, P g -> Q g) -> genomes_in P l w -> genomes_in Q l w.
  Proof. intros H G o Ho. destruct (G o Ho) as (i & A & Pi). exists i. auto. Qed.

  Lemma descends_gkeep w w' ls : gkeep w w' -> descends D w ls -> descends D w' ls.
  Proof.
    intros K H before l after l' E Hl. apply genomes_mono with (P := D (genomes_of w l)).
    - apply (proj1 (proj2 HD)). intros g. apply genomes_of_gkeep, K.
    - eapply genomes_gkeep; [exact K|eauto].
  Qed.

  Lemma lineage_skip a a' w w' : a_pop a' = a_pop a -> evals (a_trace a') = evals (a_trace a) -> gkeep w w' -> lineage a w -> lineage a' w'.
  Proof. intros E1 E2 K [L H]. split; [rewrite E1, E2; exact L|]. rewrite E2. eapply descends_gkeep; eauto. Qed.

  Lemma lineage_iteration a w a' w' : going a w -> lineage a w -> generation_iteration ev sched (a, w) = (Ok tt, (a', w')) -> lineage a' w'.
  Proof.
    intros H [(l & pre & P0 & Ee) L] E. destruct (go_pop _ _ _ _ _ _ H) as (l0 & P1 & P2 & P3 & P4).
    assert (l0 = l) as ->. { rewrite P0 in P1. apply (f_equal (map sp_inds)) in P1. cbn in P1. congruence. }
    clear P1. assert (Hl : In l (evals (a_trace a))) by (rewrite Ee; apply in_or_app; right; left; reflexivity).
    assert (Hb : forall g, genomes_of w l g -> B g) by (apply genomes_of_in; exact P3).
    apply iteration_ok in E. destruct E as (pop & w1 & best & w2 & c & worst & E1 & E2 & E3 & _ & ->).
    destruct (breed_total (D (genomes_of w l)) h (with_inds s l) l w (score_of w)) as (l' & w1' & F1 & L1 & G1); auto.
    { apply genomes_mono with (P := genomes_of w l); [apply (proj1 HD), Hb|]. apply genomes_self. eapply genomes_present; eauto. }
    { intros o Ho. destruct (P4 o Ho). eapply scored_at; eauto. }
    change (with_inds (with_inds s l) l') with (with_inds s l') in F1.
    rewrite P0, F1 in E1. injection E1 as <- <-.
    destruct (breed_scalar (with_inds s l) w _ w1' h (fun o Ho => proj1 (P4 o Ho)) F1) as (s' & Es & Fr & S1).
    injection Es as <-. change (inds_of (with_inds s l')) with l' in S1.
    assert (K1 : gkeep w w1') by (intros o i A; exists i; split; [eapply frame_at; eauto|reflexivity]).
    rewrite (go_method _ _ _ _ _ _ H), (go_alive _ _ _ _ _ _ H) in E2.
    destruct (evaluate_ok ev sched l' w1' h best w2 Hfair Hnum (fun o Ho => proj1 (S1 o Ho)) E2) as (_ & _ & Hin & Hout & _).
    assert (K2 : gkeep w1' w2).
    { intros o i A. destruct (in_dec Nat.eq_dec o l') as [Ho|Ho].
      - destruct (Hin o i Ho A) as (j & Aj & v & _ & ->). eexists. split; [exact Aj|reflexivity].
      - exists i. split; [rewrite Hout; assumption|reflexivity]. }
    assert (K3 : gkeep w2 w').
    { destruct (go_best _ _ _ _ _ _ H) as (r & B1 & _). rewrite B1 in E3. pose proof (gk_better best r w2) as X. rewrite E3 in X. exact X. }
    assert (K4 : gkeep w1' w') by (etransitivity; eauto). assert (K : gkeep w w') by (etransitivity; eauto).
    assert (Ev : evals (a_trace (after_breeding [with_inds s l'] best c worst a)) = evals (a_trace a) ++ [l']).
    { destruct c; cbn; rewrite !evals_app; cbn; rewrite ?app_nil_r; reflexivity. }
    split; [exists l', (evals (a_trace a)); split; [destruct c; reflexivity|exact Ev]|].
    rewrite Ev. pose proof (descends_gkeep _ _ _ K L) as L2.
    assert (Gl : genomes_in (D (genomes_of w' l)) l' w').
    { apply genomes_mono with (P := D (genomes_of w l)); [apply (proj1 (proj2 HD)); intros g; apply genomes_of_gkeep, K|eapply genomes_gkeep; [exact K4|exact G1]]. }
    intros before m after m' Em Hm. destruct (exists_last (l := after)) as (after' & z & ->); [intros ->; destruct Hm|].
    change (m :: after' ++ [z]) with ((m :: after') ++ [z]) in Em. rewrite app_assoc in Em. apply app_inj_tail in Em. destruct Em as [Em <-].
    apply in_app_or in Hm. destruct Hm as [Hm|[<-|[]]]; [eapply L2; eauto|].
    rewrite Ee in Em. destruct (exists_last (l := m :: after')) as (front & y & Ey); [discriminate|]. rewrite Ey, app_assoc in Em. apply app_inj_tail in Em. destruct Em as [Em <-].
    destruct after' as [|y' after''].
    - destruct front as [|f front]; [|destruct front; discriminate]. injection Ey as ->. exact Gl.
    - assert (Il : In l (y' :: after'')).
      { destruct front as [|f front]; [discriminate|]. injection Ey as _ ->. apply in_or_app. right. left. reflexivity. }
      assert (El : evals (a_trace a) = before ++ m :: y' :: after'') by (rewrite Ee, Em, <- app_assoc, <- Ey; reflexivity).
      pose proof (L2 before m _ l El Il) as G2. apply genomes_mono with (P := D (D (genomes_of w' m))); [intros g; apply (proj2 (proj2 HD))|].
      apply genomes_mono with (P := D (genomes_of w' l)); [|exact Gl]. apply (proj1 (proj2 HD)). apply genomes_of_in. exact G2.
  Qed.

  Lemma lineage_terminate a w st a' w' : lineage a w -> should_terminate (a, w) = (Ok st, (a', w')) -> lineage a' w'.
  Proof.
    intros K E. apply terminate_ok in E. destruct E as (-> & best & ans & cs & _ & _ & -> & _). eapply lineage_skip; [..|exact K]; try reflexivity.
    cbn. rewrite evals_app. cbn. apply app_nil_r.
  Qed.

  Lemma lineage_publish nm a w : lineage a w -> lineage (fst (snd (publish nm (a, w)))) w.
  Proof.
    rewrite publish_eq. intros K. eapply lineage_skip; [..|exact K]; try reflexivity. cbn. rewrite evals_app. cbn. apply app_nil_r.
  Qed.

  Lemma lineage_body g a w st a' w' : going a w -> lineage a w -> body (generation_iteration ev sched) g (a, w) = (Ok st, (a', w')) -> lineage a' w'.
  Proof.
    intros H K E. apply body_ok in E. destruct E as (w1 & a2 & w2 & Rg & _ & E1 & E2).
    assert (Ee : forall z, evals (a_trace (set_gen_seed z (add_trace (TSeed z) (set_gen_num g a)))) = evals (a_trace a)) by (intros z; cbn; rewrite evals_app; cbn; apply app_nil_r).
    eapply lineage_terminate; [|exact E2]. eapply lineage_iteration; [| |exact E1].
    - eapply going_skip; [..|exact Rg|exact H]; try reflexivity. apply Ee.
    - eapply lineage_skip; [..|exact K]; [reflexivity|apply Ee|apply regen_gkeep; exact Rg].
  Qed.

  Lemma lineage_loop todo : forall g a w a' w', going a w -> lineage a w ->
    main_loop (generation_iteration ev sched) todo g (a, w) = (Ok tt, (a', w')) -> lineage a' w'.
  Proof.
    induction todo as [|todo IH]; intros g a w a' w' H K E; [simpl in E; unfold ret in E; injection E as <- <-; exact K|].
    rewrite main_loop_body in E. mb E as st x E1. destruct x as [a1 w1]. assert (K1 : lineage a1 w1) by (eapply lineage_body; eauto).
    assert (H1 : going a1 w1).
    { destruct (going_body B ev sched h s Hnum Htot Hfair Hhib Hsize Har Hsel Hop g a w H) as (st' & a1' & w1' & E1' & H1). rewrite E1 in E1'. injection E1' as <- <- <-. exact H1. }
    destruct st.
    - mb E as x y E2. unfold algo_mod in E2. simpl in E2. injection E2 as _ <-.
      assert (K2 : lineage (set_final (Some g) a1) w1) by exact K1.
      apply (lineage_publish "after_generation") in K2. rewrite publish_eq in E, K2. injection E as <- <-. exact K2.
    - mb E as x y E2. apply (lineage_publish "after_generation") in K1. destruct (going_publish B ev h s "after_generation" a1 w1 H1) as (a2 & E2' & H2).
      rewrite E2 in E2'. injection E2' as _ ->. rewrite publish_eq in E2, K1. injection E2 as _ <-. eapply IH; [exact H2|exact K1|exact E].
  Qed.
End Inherit.

Lemma run_descends B D ev sched h s n a w a' w' : gives_numbers ev -> total_on B ev -> fair sched -> a_trace a = [] -> configured h a w s -> closed_under B w s ->
  closure B D -> (forall S : genome -> Prop, (forall g, S g -> B g) -> Forall (closed_operator (D S)) (sp_ops s)) ->
  evolve ev sched n (a, w) = (Ok tt, (a', w')) -> descends D w' (evals (a_trace a')).
Proof.
  intros Hnum Htot Hfair Htr C K HD HDop E. pose proof (cf_hib _ _ _ _ C) as Hhib. pose proof (cf_size _ _ _ _ C) as Hsize.
  pose proof (cf_arities _ _ _ _ C) as Har. pose proof (cf_sel _ _ _ _ C) as Hsel. pose proof (proj1 K) as Hop.
  destruct (init_going B ev sched h s n a w Hnum Htot Hfair Htr C K) as (a1 & w2 & l & Ei & H1 & P1 & T1 & _).
  assert (L1 : lineage s D a1 w2).
  { split; [exists l, []; split; [exact P1|exact T1]|]. rewrite T1. intros before m after m' Em Hm. destruct before as [|b before]; [injection Em as _ <-; destruct Hm|].
    destruct before; discriminate. }
  unfold evolve in E. apply evolve_ok in E. destruct E as (a1' & w1 & st & a2 & a3 & w3 & E1 & E2 & E3 & E4).
  rewrite Ei in E1. injection E1 as <- <-.
  assert (L2 := lineage_terminate B s D HD _ _ _ _ _ L1 E2).
  destruct (going_terminate B ev h s Hnum Hhib Hsize a1 w2 H1) as (st' & a2' & E2' & H2). rewrite E2 in E2'. injection E2' as <- <-.
  apply finish_ok in E4. destruct E4 as [-> ->].
  assert (L3 : lineage s D a3 w3).
  { destruct st.
    - destruct E3 as [-> ->]. assert (L3 : lineage s D (set_final (Some 0) a2) w2) by exact L2. apply (lineage_publish B s D HD "after_generation") in L3. exact L3.
    - eapply lineage_loop; eauto. }
  apply (lineage_publish B s D HD "evolution_finished") in L3. rewrite publish_eq in L3. exact (proj2 L3).
Qed.

(** ** Vectors *)

Section Cells.
  Variables (k : vkind) (b : bounds) (len : nat).

  Definition mixed (S : genome -> Prop) (g : genome) : Prop :=
    vectors k b len g /\ forall v j x, g = GVec v -> nth_error (v_cells v) j = Some x -> exists v', S (GVec v') /\ nth_error (v_cells v') j = Some x.

  Lemma mixed_closure : closure (vectors k b len) mixed.
  Proof.
    split; [|split].
    - intros S H g Hg. split; [exact (H g Hg)|]. intros v j x -> Hx. exists v. auto.
    - intros S T H g [V C]. split; [exact V|]. intros v j x E Hx. destruct (C v j x E Hx) as (v' & Hs & Hj). exists v'. auto.
    - intros S g [V C]. split; [exact V|]. intros v j x E Hx. destruct (C v j x E Hx) as (v' & [_ C'] & Hj). exact (C' v' j x eq_refl Hj).
  Qed.

  Lemma mixed_closed S op : vector_operator k b len op -> recombines op -> closed_operator (mixed S) op.
  Proof.
    intros H R. unfold recombines in R. destruct (op_kind op) as [p|m n| | | |] eqn:K; try contradiction; [|unfold vector_operator in H; rewrite K in H; destruct H|apply identity_closed, K].
    intros l w Hl Hn Hg. destruct (vector_closed k b len op H l w Hl Hn) as (w1 & E1 & G1); [eapply genomes_mono; [|exact Hg]; intros g [V _]; exact V|].
    exists w1. split; [exact E1|]. unfold vector_operator in H. rewrite K in H. destruct H as [Ha Hp]. rewrite Ha in Hl. destruct l as [|o [|q [|]]]; try discriminate Hl.
    destruct (Hg o) as (io & Ao & (vo & Eo & So & Ko & Bo & Lo) & Co); [left; reflexivity|]. destruct (Hg q) as (iq & Aq & (vq & Eq & Sq & Kq & Bq & Lq) & Cq); [right; left; reflexivity|].
    destruct (crossover_op op p o q [] w vo vq K) as (co & cq & w' & E & Wo & Wq & M1 & M2 & M3).
    { intros ->. inversion Hn as [|? ? N _]. apply N. left. reflexivity. } { intros x []. } { exists io. auto. } { exists iq. auto. } { congruence. } { congruence. }
    rewrite E1 in E. injection E as <-.
    assert (Co' : forall j x, nth_error (v_cells vo) j = Some x -> exists v', S (GVec v') /\ nth_error (v_cells v') j = Some x) by (intros j x; apply Co; exact Eo).
    assert (Cq' : forall j x, nth_error (v_cells vq) j = Some x -> exists v', S (GVec v') /\ nth_error (v_cells v') j = Some x) by (intros j x; apply Cq; exact Eq).
    intros x [<-|[<-|[]]].
    - destruct (G1 o (or_introl eq_refl)) as (i & A & V). exists i. split; [exact A|]. split; [exact V|]. intros v j x E Hx.
      destruct Wo as (i' & A' & E'). assert (i' = i) as -> by congruence. rewrite E' in E. injection E as <-. cbn [v_cells with_cells] in Hx.
      destruct (M3 j) as [[X _]|[X _]]; rewrite X in Hx; auto.
    - destruct (G1 q (or_intror (or_introl eq_refl))) as (i & A & V). exists i. split; [exact A|]. split; [exact V|]. intros v j x E Hx.
      destruct Wq as (i' & A' & E'). assert (i' = i) as -> by congruence. rewrite E' in E. injection E as <-. cbn [v_cells with_cells] in Hx.
      destruct (M3 j) as [[_ X]|[_ X]]; rewrite X in Hx; auto.
  Qed.
End Cells.

Lemma genes_inherited k b len ev sched h s n a w : gives_numbers ev -> total_on (vectors k b len) ev -> fair sched -> a_trace a = [] ->
  configured h a w s -> Forall (vector_operator k b len) (sp_ops s) -> Forall recombines (sp_ops s) ->
  match sp_inds s with Some l => genomes_in (vectors k b len) l w | None => Forall (vector_creator k b len) (sp_creators s) end ->
  exists a' w', evolve ev sched n (a, w) = (Ok tt, (a', w')) /\
    forall before l after l' j x, evals (a_trace a') = before ++ l :: after -> In l' after -> carried w' l' j x -> carried w' l j x.
Proof.
  intros Hn Ht Hf Htr C Ho Hr Hi. destruct (vector_run_completes k b len ev sched h s n a w Hn Ht Hf Htr C Ho Hi) as (a' & w' & E & _).
  exists a', w'. split; [exact E|].
  assert (Dd : descends (mixed k b len) w' (evals (a_trace a'))).
  { apply (run_descends (vectors k b len) (mixed k b len) ev sched h s n a w a' w'); auto.
    - split.
      + eapply Forall_impl; [|exact Ho]. intros op. apply vector_closed.
      + destruct (sp_inds s); [exact Hi|]. rewrite Forall_forall in Hi. intros c Hc. apply vector_creator_closed. auto.
    - apply mixed_closure.
    - intros S _. rewrite Forall_forall in *. intros op Hop. apply mixed_closed; auto. }
  intros before l after l' j x El Hl (o & v & Hol & (i & A & Ev) & Hx). destruct (Dd before l after l' El Hl o Hol) as (i' & A' & _ & M).
  assert (i' = i) as -> by congruence. destruct (M v j x Ev Hx) as (v' & (o' & j' & Ho' & Aj & Ej) & Hj). exists o', v'. split; [exact Ho'|]. split; [exists j'; auto|exact Hj].
Qed.

Lemma best_inherits k b len ev sched h s n a w : gives_numbers ev -> total_on (vectors k b len) ev -> fair sched -> a_trace a = [] ->
  configured h a w s -> Forall (vector_operator k b len) (sp_ops s) -> Forall recombines (sp_ops s) ->
  match sp_inds s with Some l => genomes_in (vectors k b len) l w | None => Forall (vector_creator k b len) (sp_creators s) end ->
  exists a' w' first rest o v, evolve ev sched n (a, w) = (Ok tt, (a', w')) /\ evals (a_trace a') = first :: rest /\ a_best_run a' = Some o /\ vec_at w' o v /\
    forall j x, nth_error (v_cells v) j = Some x -> carried w' first j x.
Proof.
  intros Hn Ht Hf Htr C Ho Hr Hi. destruct (genes_inherited k b len ev sched h s n a w Hn Ht Hf Htr C Ho Hr Hi) as (a' & w' & E & G).
  destruct (vector_run_completes k b len ev sched h s n a w Hn Ht Hf Htr C Ho Hi) as (a'' & w'' & E' & V). rewrite E in E'. injection E' as <- <-.
  destruct (best_of_run ev sched n a w a' w' h Hn Hf Htr (cf_method _ _ _ _ C) (configured_scalar _ _ _ _ C) E) as (o & Eb & Io & _).
  apply in_concat in Io as (l & Il & Io). destruct (V l Il) as [_ Vl]. destruct (Vl o Io) as (i & A & v & Ev & _).
  destruct (evals (a_trace a')) as [|first rest] eqn:El; [destruct Il|]. exists a', w', first, rest, o, v. split; [exact E|]. split; [exact El|]. split; [exact Eb|].
  split; [exists i; auto|]. intros j x Hx. assert (Cx : carried w' l j x) by (exists o, v; split; [exact Io|split; [exists i; auto|exact Hx]]).
  destruct Il as [<-|Il]; [exact Cx|]. exact (G [] first rest l j x eq_refl Il Cx).
Qed.

Lemma list_of_cells {A} (c d : list A) : length d = length c -> (forall j x, nth_error d j = Some x -> nth_error c j = Some x) -> d = c.
Proof.
  revert d. induction c as [|y c IH]; intros [|x d] L H; try discriminate; [reflexivity|]. pose proof (H 0 x eq_refl) as X. injection X as ->. f_equal.
  apply IH; [simpl in L; lia|]. intros j z Hz. exact (H (S j) z Hz).
Qed.

Lemma converged_stays k b len ev sched h s n a w c : gives_numbers ev -> total_on (vectors k b len) ev -> fair sched -> a_trace a = [] ->
  configured h a w s -> Forall (vector_operator k b len) (sp_ops s) -> Forall recombines (sp_ops s) ->
  match sp_inds s with Some l => genomes_in (vectors k b len) l w | None => Forall (vector_creator k b len) (sp_creators s) end ->
  exists a' w', evolve ev sched n (a, w) = (Ok tt, (a', w')) /\
    forall before l after l', evals (a_trace a') = before ++ l :: after -> In l' after ->
      (forall o, In o l -> vec_at w' o (mkVec k b len c)) -> forall o, In o l' -> exists v, vec_at w' o v /\ v_cells v = c.
Proof.
  intros Hn Ht Hf Htr C Ho Hr Hi. destruct (genes_inherited k b len ev sched h s n a w Hn Ht Hf Htr C Ho Hr Hi) as (a' & w' & E & G).
  exists a', w'. split; [exact E|]. intros before l after l' El Hl Hc o Hol.
  destruct (vector_run_completes k b len ev sched h s n a w Hn Ht Hf Htr C Ho Hi) as (a'' & w'' & E' & V). rewrite E in E'. injection E' as <- <-.
  assert (Il : In l (evals (a_trace a'))) by (rewrite El; apply in_or_app; right; left; reflexivity).
  assert (Il' : In l' (evals (a_trace a'))) by (rewrite El; apply in_or_app; right; right; exact Hl).
  destruct (V l' Il') as [_ V']. destruct (V' o Hol) as (i & A & v & Ev & Sv & _ & _ & Lv). exists v. split; [exists i; auto|].
  destruct (V l Il) as [Ls Vl]. destruct l as [|p l]; [pose proof (cf_size _ _ _ _ C); simpl in Ls; lia|].
  destruct (Vl p (or_introl eq_refl)) as (ip & Ap & vp & Evp & _ & _ & _ & Lp). destruct (Hc p (or_introl eq_refl)) as (ip' & Ap' & Ep').
  assert (vp = mkVec k b len c) as -> by congruence.
  apply list_of_cells; [unfold vsize in *; cbn [v_cells] in *; congruence|]. intros j x Hx.
  destruct (G before (p :: l) after l' j x El Hl) as (q & vq & Hq & Wq & Hxq); [exists o, v; split; [exact Hol|split; [exists i; auto|exact Hx]]|].
  destruct (Hc q Hq) as (iq & Aq & Eq). destruct Wq as (iq' & Aq' & Eq'). assert (vq = mkVec k b len c) as -> by congruence. exact Hxq.
Qed.

(** ** Copies *)

Lemma copies_only B ev sched h s n a w : gives_numbers ev -> total_on B ev -> fair sched -> a_trace a = [] -> configured h a w s -> closed_under B w s ->
  (forall g, B g -> printable g) -> Forall (fun op => op_kind op = OIdentity) (sp_ops s) ->
  exists a' w', evolve ev sched n (a, w) = (Ok tt, (a', w')) /\
    forall before l after l' o, evals (a_trace a') = before ++ l :: after -> In l' after -> In o l' ->
      exists p i j, In p l /\ at_ w' p = Some i /\ at_ w' o = Some j /\ i_genome j = i_genome i.
Proof.
  intros Hn Ht Hf Htr C K P Ho. destruct (run_completes B ev sched h s n a w Hn Ht Hf Htr C K P) as (a' & w' & E & _). exists a', w'. split; [exact E|].
  assert (Dd : descends (fun S => S) w' (evals (a_trace a'))).
  { apply (run_descends B (fun S => S) ev sched h s n a w a' w'); auto.
    - split; [|split]; auto.
    - intros S _. eapply Forall_impl; [|exact Ho]. intros op. apply identity_closed. }
  intros before l after l' o El Hl Hol. destruct (Dd before l after l' El Hl o Hol) as (j & Aj & p & i & Hp & Ai & Ei). exists p, i, j. auto.
Qed.

(** ** Trees *)

Section Nodes.
  Variables (t0 : tree) (Q : node -> Prop).
  Hypothesis (Hs : supplied t0 (t_root_type t0)) (Htt : typed_terminals t0 (t_root_type t0)).

  Definition pooled (S : genome -> Prop) (n : node) : Prop := Q n /\ exists t, S (GTree t) /\ In n (t_nodes t).
  Definition recombined (S : genome -> Prop) : genome -> Prop := trees_of t0 (pooled S).

  Lemma pooled_closure : closure (trees_of t0 Q) recombined.
  Proof.
    split; [|split].
    - intros S H g Hg. destruct (H g Hg) as [T A]. split; [exact T|]. intros t n E Hn. split; [eauto|]. exists t. subst. auto.
    - intros S T H g [Tg A]. split; [exact Tg|]. intros t n E Hn. destruct (A t n E Hn) as [Qn (t' & St & Hn')]. split; [exact Qn|]. exists t'. auto.
    - intros S g [Tg A]. split; [exact Tg|]. intros t n E Hn. destruct (A t n E Hn) as [Qn (t' & [_ A'] & Hn')]. exact (A' t' n eq_refl Hn').
  Qed.

  Lemma exchange_closed P op : tree_operator op -> op_arity op <> 0 -> recombines op -> closed_operator (trees_of t0 P) op.
  Proof.
    intros Hop Na R. unfold recombines in R. destruct (op_kind op) as [p|m n| |mn mx|mu sigma|] eqn:K; try contradiction; [unfold tree_operator in Hop; rewrite K in Hop; destruct Hop| |apply identity_closed, K].
    intros l w Hl Hn Hg.
    destruct (tree_closed t0 op Hs Htt Na Hop l w Hl Hn (of_trees _ _ _ _ Hg)) as (w1 & E1 & G1). exists w1. split; [exact E1|].
    apply genomes_trees in G1 as (ts1 & T1 & F1). apply of_iff. exists ts1. split; [exact T1|]. split; [exact F1|].
    apply of_iff in Hg as (ts & T & F & A). pose proof (proj1 Hs) as Hh.
    assert (Fc : Forall complete_tree ts) by (eapply Forall_impl; [|exact F]; intros t; apply class_complete; exact Hh).
    assert (Fs : Forall (same_primitives t0) ts) by (eapply Forall_impl; [|exact F]; intros t Ht; apply class_iff in Ht as (P' & _); exact P').
    assert (Same : forall ts', trees_at w1 l ts' -> ts' = ts1).
    { intros ts' T'. clear - T' T1. revert ts1 T1. induction T' as [|o t l ts' (i & A & E) T' IH]; intros ts1 T1; inversion T1 as [|? t1 ? ? (i1 & A1 & E1)]; subst; [reflexivity|].
      f_equal; [congruence|auto]. }
    destruct (crossover_final op l ts w (t_fset t0) K (eq_sym Hl) Hn) as (w' & ts' & E & T' & X & _ & _ & Pe & _); auto.
    { intros ->. simpl in Hl. congruence. }
    { intros t Ht. rewrite Forall_forall in Fs. apply (Fs t Ht). }
    rewrite E1 in E. injection E as <-. apply Same in T' as ->. rewrite all_nodes in *. intros n Hn'. apply A. eapply Permutation_in; [apply Permutation_sym; exact Pe|exact Hn'].
  Qed.
End Nodes.

Lemma nodes_inherited t0 Q ev sched h s n a w : gives_numbers ev -> total_on (trees_of t0 Q) ev -> fair sched -> a_trace a = [] ->
  configured h a w s -> supplied t0 (t_root_type t0) -> typed_terminals t0 (t_root_type t0) -> Forall tree_operator (sp_ops s) -> Forall recombines (sp_ops s) ->
  node_kind t0 (sp_ops s) Q ->
  match sp_inds s with Some l => genomes_in (trees_of t0 Q) l w | None => Forall (tree_creator t0 (sp_size s)) (sp_creators s) end ->
  printable_terminals t0 ->
  exists a' w', evolve ev sched n (a, w) = (Ok tt, (a', w')) /\
    forall before l after l' x, evals (a_trace a') = before ++ l :: after -> In l' after -> occurs w' l' x -> occurs w' l x.
Proof.
  intros Hn Ht Hf Htr C Hs Htt Ho Hr K Hi P. destruct (program_run_completes t0 Q ev sched h s n a w Hn Ht Hf Htr C Hs Htt Ho K Hi P) as (a' & w' & E & _).
  exists a', w'. split; [exact E|].
  assert (Dd : descends (recombined t0 Q) w' (evals (a_trace a'))).
  { apply (run_descends (trees_of t0 Q) (recombined t0 Q) ev sched h s n a w a' w'); auto.
    - eapply program_run_closed; eauto.
    - apply pooled_closure.
    - intros S _. apply Forall_forall. intros op Hop. apply exchange_closed; auto; [rewrite Forall_forall in Ho; auto| |rewrite Forall_forall in Hr; auto].
      apply (cf_arities _ _ _ _ C). apply in_or_app. right. apply in_map, Hop. }
  intros before l after l' x El Hl (o & t & Hol & (i & A & Et) & Hx). destruct (Dd before l after l' El Hl o Hol) as (i' & A' & _ & M).
  assert (i' = i) as -> by congruence. destruct (M t x Et Hx) as (_ & t' & (o' & j' & Ho' & Aj & Ej) & Hj). exists o', t'. split; [exact Ho'|]. split; [exists j'; auto|exact Hj].
Qed.
