(** * A configured multi-objective run completes (C71). *)
From Coq Require Import Lia Permutation QArith.
From Verif.Proofs Require Export CompleteP CompleteVecP MooRunP.
From Verif.Model Require Import Num Fitness Tree World Nsga2.
Open Scope nat_scope.
Open Scope list_scope.

(** ** Breeding *)

Lemma clones_total l : forall w, present l w -> exists cs w', mapM clone l w = (Ok cs, w').
Proof.
  induction l as [|o l IH]; intros w Hp; [exists [], w; reflexivity|]. destruct (Hp o (or_introl eq_refl)) as (i & A).
  destruct (IH (push (bump w) (cloned i (w_next_id w)))) as (cs & w' & E).
  { intros p Q. destruct (Hp p (or_intror Q)) as (j & B). exists j. unfold at_, push, bump in *. cbn [w_heap].
    rewrite nth_error_app1; [exact B|]. apply nth_error_Some. congruence. }
  exists (length (w_heap w) :: cs), w'. cbn [mapM]. rewrite (bind_eq_ok _ _ _ _ _ (clone_at _ _ _ A)), (bind_eq_ok _ _ _ _ _ E). reflexivity.
Qed.

Lemma reset_total l : forall w, present l w -> exists w', iterM set_fitness_not_evaluated l w = (Ok tt, w').
Proof.
  induction l as [|o l IH]; intros w Hp; [exists w; reflexivity|]. destruct (Hp o (or_introl eq_refl)) as (i & A).
  pose proof (modify_at o (fun i => set_fit (set_not_evaluated (i_fit i)) i) w i A) as E.
  destruct (IH (put_at w o (set_fit (set_not_evaluated (i_fit i)) i))) as (w' & E').
  { intros p Q. destruct (Hp p (or_intror Q)) as (j & B). destruct (Nat.eq_dec o p) as [->|N].
    - eexists. eapply at_put_same; eauto.
    - exists j. rewrite at_put_other by exact N. exact B. }
  exists w'. cbn [iterM]. unfold set_fitness_not_evaluated at 1. rewrite (bind_eq_ok _ _ _ _ _ E). exact E'.
Qed.

Lemma fr_reset (X : oid -> Prop) l : Forall X l -> steps (frame X) (iterM set_fitness_not_evaluated l).
Proof.
  intros H. apply (st_iterM (frame X)). intros o Ho w. rewrite Forall_forall in H. destruct (at_ w o) as [i|] eqn:A.
  - unfold set_fitness_not_evaluated. rewrite (modify_at _ _ _ _ A). apply frame_put. auto.
  - unfold set_fitness_not_evaluated, modify, load, bind. unfold at_ in A. rewrite A. reflexivity.
Qed.

Lemma doubling_total G s l w : sp_inds s = Some l -> length l = sp_size s -> NoDup l -> sp_n_elite s = 0 ->
  (forall op, In op (sp_ops s) -> op_arity op <> 0 /\ Nat.divide (op_arity op) (sp_size s)) ->
  (exists k replace n sels, sp_sels s = SelTournament k replace n :: sels /\ n <> 0 /\ (replace = false -> k <= sp_size s)) ->
  Forall (closed_operator G) (sp_ops s) -> genomes_in G l w ->
  exists cs w', nsga2_breed_subpop s w = (Ok (with_inds s (cs ++ l)), w') /\ length cs = length l /\ NoDup (cs ++ l) /\
    genomes_in G (cs ++ l) w' /\ (forall o, In o (cs ++ l) -> unevaluated w' o) /\ frame (fun o => In o l) w w'.
Proof.
  intros Hl Hlen Hn He Ha (k & rep & n & sels & Hs & Hn0 & Hrep) Hop Hg.
  pose proof (genomes_present _ _ _ Hg) as Hp.
  destruct (clones_total l w Hp) as (cs & w1 & E1).
  destruct (clones_plain l w Hp cs w1 E1) as (Ecs & js & Hh & F).
  pose proof (frame_ext w w1 (ex_intro _ js Hh)) as F1.
  assert (G1 : genomes_in G l w1) by (apply (genomes_frame _ _ _ _ _ F1); [intros o _ []|exact Hg]).
  assert (Gc : genomes_in G cs w1).
  { intros c Hc. rewrite Ecs in Hc. apply in_seq in Hc. pose proof (Forall2_len _ _ _ F) as Hl'.
    destruct (nth_error_ex l (c - length (w_heap w))) as (o & Ho); [lia|].
    destruct (nth_error_ex js (c - length (w_heap w))) as (j & Hj); [lia|].
    destruct (Forall2_nth _ _ _ _ _ _ F Ho Hj) as (i & A & Gj & _).
    destruct (Hg o (nth_error_In _ _ Ho)) as (i' & A' & Gi). rewrite A in A'. injection A' as <-.
    exists j. split; [|rewrite Gj; exact Gi]. unfold at_. rewrite Hh, nth_error_app2 by lia. exact Hj. }
  destruct (operators_total G (sp_ops s) Hop l w1) as (w2 & E2 & G2); [rewrite Hlen; exact Ha|exact Hn|exact G1|].
  assert (F2 : frame (fun o => In o l) w1 w2).
  { pose proof (fr_operators (fun o => In o l) (sp_ops s) l) as Q. specialize (Q ltac:(apply Forall_forall; auto) w1). rewrite E2 in Q. exact Q. }
  assert (Fresh : forall c, In c cs -> length (w_heap w) <= c) by (intros c Hc; rewrite Ecs in Hc; apply in_seq in Hc; lia).
  assert (Old : forall o, In o l -> o < length (w_heap w)) by (intros o Ho; destruct (Hp o Ho) as (i & A); eapply at_lt; eauto).
  assert (Dis : forall c, In c cs -> ~ In c l) by (intros c Hc Hx; specialize (Fresh c Hc); specialize (Old c Hx); unfold oid in *; lia).
  assert (G3 : genomes_in G (cs ++ l) w2) by (apply genomes_app; [apply (genomes_frame _ _ _ _ _ F2); [exact Dis|exact Gc]|exact G2]).
  destruct (reset_total (cs ++ l) w2 (genomes_present _ _ _ G3)) as (w3 & E3).
  assert (K3 : gkeep w2 w3).
  { pose proof (st_iterM gkeep set_fitness_not_evaluated (cs ++ l) (fun x _ => gk_reset x) w2) as Q. rewrite E3 in Q. exact Q. }
  assert (F3 : frame (fun o => In o (cs ++ l)) w2 w3).
  { pose proof (fr_reset (fun o => In o (cs ++ l)) (cs ++ l)) as Q. specialize (Q ltac:(apply Forall_forall; auto) w2). rewrite E3 in Q. exact Q. }
  exists cs, w3.
  assert (E : nsga2_breed_subpop s w = (Ok (with_inds s (cs ++ l)), w3)).
  { unfold nsga2_breed_subpop, inds_of. rewrite Hl, He. cbn [Nat.ltb Nat.leb]. erewrite bind_eq_ok; [|reflexivity].
    rewrite (bind_eq_ok _ _ _ _ _ E1), (bind_eq_ok _ _ _ _ _ E2). cbv zeta. rewrite (bind_eq_ok _ _ _ _ _ E3), Hs.
    assert (T : select (SelTournament k rep n) l (cs ++ l) w3 = (Ok (cs ++ l), w3)).
    { cbn [select]. unfold tournament_select. replace (negb rep && (length l <? k)) with false.
      - rewrite (proj2 (Nat.eqb_neq _ _) Hn0). replace (length l - length (cs ++ l)) with 0 by (rewrite app_length; lia).
        rewrite Nat.div_0_l by exact Hn0. erewrite bind_eq_ok; [|reflexivity]. erewrite bind_eq_ok; [|reflexivity]. rewrite app_nil_r. reflexivity.
      - symmetry. destruct rep; [reflexivity|]. apply Nat.ltb_ge. rewrite Hlen. auto. }
    rewrite (bind_eq_ok _ _ _ _ _ T). reflexivity. }
  split; [exact E|]. split; [rewrite Ecs; apply seq_length|]. split.
  { apply NoDup_app_intro; [rewrite Ecs; apply seq_NoDup|exact Hn|exact Dis]. }
  split; [exact (genomes_gkeep _ _ _ _ K3 G3)|]. split.
  - intros o Ho. destruct (G3 o Ho) as (i & A & _). destruct (reset_all _ _ _ _ E3) as [_ Q]. destruct (Q o i A) as (j & B & _ & _ & _ & V).
    exists j. auto.
  - destruct F1 as [L1 F1], F2 as [L2 F2], F3 as [L3 F3]. split; [lia|]. intros o Ho Nl.
    rewrite F3; [|lia|]. { rewrite F2; [|lia|exact Nl]. apply F1; [exact Ho|intros []]. }
    intros Hc. apply in_app_iff in Hc as [Hc|Hc]; [specialize (Fresh o Hc); unfold oid in *; lia|auto].
Qed.

(** ** Evaluation *)

Section Evaluation.
Variable ev : genome -> res fval.
Variable h : list bool.
Hypothesis EV : gives_objectives ev (length h).

Lemma assign_total inds : forall gs w, Forall2 (genome_at w) inds gs -> NoDup inds ->
  (forall o, In o inds -> moo_at w h o /\ unevaluated w o) -> (forall g, In g gs -> exists v, ev g = Ok v) ->
  exists w', assign_results inds (map ev gs) w = (Ok tt, w').
Proof.
  induction inds as [|o inds IH]; intros gs w F N H T; inversion F as [|? g ? gs' Hg F']; subst; [exists w; reflexivity|].
  apply NoDup_cons_iff in N as [No N]. destruct (T g (or_introl eq_refl)) as (v & Ev). destruct (EV g v Ev) as (qs & Lq & ->).
  destruct (H o (or_introl eq_refl)) as [(i & A & C & D) (i' & A' & U)]. rewrite A in A'. injection A' as <-.
  assert (Es : exists f, set_fitness (i_fit i) (VList (map Fin qs)) = (Ok tt, f)).
  { unfold set_fitness. rewrite C, U. destruct D as [->|(d & -> & _)]; eexists; reflexivity. }
  destruct Es as (f & Es).
  destruct (IH gs' (put_at w o (set_fit f i))) as (w' & E').
  - clear - F' No. induction F' as [|p g l gs (k & B & Gk) F IH]; constructor.
    + exists k. rewrite at_put_other by (intros ->; apply No; simpl; auto). auto.
    + apply IH. intros Hi. apply No. simpl. auto.
  - exact N.
  - intros p Hp. assert (Np : o <> p) by (intros ->; contradiction). destruct (H p (or_intror Hp)) as [(j & B & Cj) (j' & B' & Uj)].
    split; [exists j|exists j']; rewrite at_put_other by exact Np; auto.
  - intros g' Hg'. apply T. right. exact Hg'.
  - exists w'. cbn [map assign_results]. rewrite Ev. erewrite bind_eq_ok; [|reflexivity].
    erewrite bind_eq_ok; [exact E'|]. unfold ind_set_fitness. rewrite (bind_eq_ok _ _ _ _ _ (load_at _ _ _ A)). rewrite Es. cbn [fst snd]. cbv zeta.
    rewrite (bind_eq_ok _ _ _ _ _ (store_at o (set_fit f i) i w A)). reflexivity.
Qed.

Definition with_objectives (w : world) (o : oid) : Prop := exists i v, at_ w o = Some i /\ objectives (i_fit i) h v.

Lemma better_total w a b : with_objectives w a -> with_objectives w b ->
  exists x w', ind_better_than a b w = (Ok x, w') /\ w_heap w' = w_heap w.
Proof.
  intros (i & u & A & Oa) (j & v & B & Ob). unfold ind_better_than.
  rewrite (bind_eq_ok _ _ _ _ _ (load_at _ _ _ A)), (bind_eq_ok _ _ _ _ _ (load_at _ _ _ B)).
  unfold liftR, better_than. rewrite (ob_class _ _ _ Oa). destruct (neq_num (ft_rank (i_fit i)) PInf) eqn:E.
  - unfold nsga2_better_than. rewrite E. destruct (random_bool (w_rng w)) as [[x|e] g] eqn:Er.
    + exists x. eexists. split; reflexivity.
    + cbv in Er. destruct (w_rng w); discriminate.
  - rewrite (better_ranked _ _ _ _ h _ _ _ Oa Ob E). eexists. eexists. split; reflexivity.
Qed.

Lemma scan_total l : l <> [] -> forall w, (forall o, In o l -> with_objectives w o) ->
  exists b w', best_scan l w = (Ok b, w') /\ In b l /\ w_heap w' = w_heap w.
Proof.
  intros N w H. destruct l as [|a l]; [congruence|]. cbn [best_scan].
  assert (K : forall m x v, incl m (a :: l) -> In x (a :: l) -> w_heap v = w_heap w ->
    exists b w', foldM (fun best o => b <- ind_better_than o best ;; ret (if b then o else best)) m x v = (Ok b, w') /\ In b (a :: l) /\ w_heap w' = w_heap w).
  { induction m as [|y m IH]; intros x v Im Ix Hv; [exists x, v; split; [reflexivity|auto]|].
    assert (W : forall o, In o (a :: l) -> with_objectives v o).
    { intros o Ho. destruct (H o Ho) as (i & u & A & O). exists i, u. unfold at_ in *. rewrite Hv. auto. }
    destruct (better_total v y x) as (c & v1 & E & Hh); [apply W, Im; simpl; auto|apply W; exact Ix|].
    destruct (IH (if c then y else x) v1) as (b & w' & E' & R).
    - intros z Hz. apply Im. right. exact Hz.
    - destruct c; [apply Im; left; reflexivity|exact Ix].
    - congruence.
    - exists b, w'. split; [|exact R]. cbn [foldM]. erewrite bind_eq_ok; [exact E'|]. rewrite (bind_eq_ok _ _ _ _ _ E). reflexivity. }
  apply K; [intros z Hz; right; exact Hz|left; reflexivity|reflexivity].
Qed.

Lemma moo_eval_total G sched s l w : total_on G ev -> fair sched -> l <> [] -> NoDup l -> genomes_in G l w ->
  (forall o, In o l -> moo_at w h o /\ unevaluated w o) ->
  exists b w', evaluate_population ev sched ByMap true [with_inds s l] w = (Ok b, w') /\ In b l /\
    (forall o, In o l -> assessed ev h w w' o) /\ (forall o, ~ In o l -> at_ w' o = at_ w o).
Proof.
  intros T Fr Nl N Hg Hm. destruct (load_genomes l w (genomes_present _ _ _ Hg)) as (gs & E1 & F1).
  destruct (assign_total l gs w F1 N Hm) as (w1 & E2).
  { intros g Hi. destruct (In_nth_error _ _ Hi) as (k & Hk). pose proof (Forall2_len _ _ _ F1) as Ll.
    destruct (nth_error_ex l k) as (o & Ho); [rewrite Ll; eapply nth_error_lt; eauto|].
    destruct (Forall2_nth _ _ _ _ _ _ F1 Ho Hk) as (i & A & <-). destruct (Hg o (nth_error_In _ _ Ho)) as (i' & A' & Gi).
    rewrite A in A'. injection A' as <-. apply T. exact Gi. }
  destruct (assign_moo ev h EV l gs w tt w1 F1 (fun o Ho => proj1 (Hm o Ho)) E2) as (_ & As & Ot & _).
  destruct (scan_total l Nl w1) as (b & w2 & E3 & Ib & Hh).
  { intros o Ho. destruct (As o Ho) as (i & j & qs & _ & B & _ & _ & _ & O). exists j, (map Fin qs). auto. }
  exists b, w2. split.
  { cbn [evaluate_population]. change (inds_of (with_inds s l)) with l. unfold evaluate_inds. rewrite (bind_eq_ok _ _ _ _ _ E1).
    rewrite (executor_map_fair ev sched gs Fr). erewrite bind_eq_ok; [|reflexivity]. rewrite (bind_eq_ok _ _ _ _ _ E2). exact E3. }
  assert (X : forall o, at_ w2 o = at_ w1 o) by (intros o; unfold at_; rewrite Hh; reflexivity).
  split; [exact Ib|]. split; intros o Ho; [|rewrite X; auto].
  destruct (As o Ho) as (i & j & qs & A & B & R). exists i, j, qs. rewrite X. auto.
Qed.

Lemma assessed_known w w' o : assessed ev h w w' o -> moo_at w' h o /\ has_value ev w' o.
Proof.
  intros (i & j & qs & A & B & Gj & Ev & Lq & O). split.
  - exists j. split; [exact B|]. split; [apply O|left; apply O].
  - exists j, (VList (map Fin qs)). split; [exact B|]. split; [rewrite Gj; exact Ev|]. unfold get_pure_fitness. rewrite (ob_evaluated _ _ _ O), (ob_value _ _ _ O). reflexivity.
Qed.

Lemma assessed_genomes G l w w' : genomes_in G l w -> (forall o, In o l -> assessed ev h w w' o) -> genomes_in G l w'.
Proof.
  intros Hg As o Ho. destruct (As o Ho) as (i & j & qs & A & B & Gj & _). destruct (Hg o Ho) as (i' & A' & Gi). exists j. split; [exact B|]. congruence.
Qed.
End Evaluation.

Lemma ranked_known ev h l w w' o : only_ranked l w w' -> moo_at w h o /\ has_value ev w o -> moo_at w' h o /\ has_value ev w' o.
Proof.
  intros (_ & _ & _ & H) [(i & A & C & D) (i' & v & A' & E & P)]. rewrite A in A'. injection A' as <-. destruct (H o i A) as (c & r & B & _).
  split; [eexists; split; [exact B|]; split; [exact C|exact D]|]. eexists. exists v. split; [exact B|]. split; [exact E|exact P].
Qed.
Lemma ranked_value ev l w w' o : only_ranked l w w' -> has_value ev w o -> has_value ev w' o.
Proof.
  intros (_ & _ & _ & H) (i & v & A & E & P). destruct (H o i A) as (c & r & B & _). eexists. exists v. split; [exact B|]. split; [exact E|exact P].
Qed.
Lemma ranked_genomes G m l w w' : only_ranked l w w' -> genomes_in G m w -> genomes_in G m w'.
Proof.
  intros (_ & _ & _ & H) Hg o Ho. destruct (Hg o Ho) as (i & A & Gi). destruct (H o i A) as (c & r & B & _). eexists. split; [exact B|exact Gi].
Qed.

(** ** The run *)

Section MooGoing.
  Variables (G : genome -> Prop) (ev : genome -> res fval) (h : list bool) (sched : nat -> list nat) (so : nat -> list nat -> list nat) (s : subpop).
  Hypothesis (EV : gives_objectives ev (length h)) (Htot : total_on G ev) (Hfair : fair sched) (Hany : any_order so).
  Hypothesis (Hsize : 1 <= sp_size s) (Helite : sp_n_elite s = 0).
  Hypothesis Har : forall op, In op (sp_ops s) -> op_arity op <> 0 /\ Nat.divide (op_arity op) (sp_size s).
  Hypothesis Hsel : exists k replace n sels, sp_sels s = SelTournament k replace n :: sels /\ n <> 0 /\ (replace = false -> k <= sp_size s).
  Hypothesis Hop : Forall (closed_operator G) (sp_ops s).

  Record mgoing (a : algo) (w : world) : Prop := {
    mg_pop : exists l, a_pop a = [with_inds s l] /\ length l = sp_size s /\ NoDup l /\ genomes_in G l w /\
               forall o, In o l -> moo_at w h o /\ has_value ev w o;
    mg_best : exists b, a_best_run a = Some b /\ has_value ev w b /\ genomes_in G [b] w /\ In b (hd [] (evals (a_trace a)));
    mg_check : Forall (fun c => exists f stored, c = CkUser f stored /\ moo_answers f) (a_checkers a);
    mg_method : a_method a = ByMap;
    mg_alive : a_alive a = true;
    mg_evals : evaluations (sp_size s) (2 * sp_size s) (evals (a_trace a))
  }.

  Lemma mgoing_skip a a' w w' : a_pop a' = a_pop a -> a_best_run a' = a_best_run a -> a_checkers a' = a_checkers a ->
    a_method a' = a_method a -> a_alive a' = a_alive a -> evals (a_trace a') = evals (a_trace a) -> regen w w' -> mgoing a w -> mgoing a' w'.
  Proof.
    intros E1 E2 E3 E4 E5 E6 R [(l & P1 & P2 & P3 & P4 & P5) (b & B1 & B2 & B3 & B4) C M AL EVS]. constructor.
    - exists l. rewrite E1. split; [exact P1|]. split; [exact P2|]. split; [exact P3|]. split; [eapply genomes_gkeep; [apply regen_gkeep; exact R|exact P4]|].
      intros o Ho. destruct (P5 o Ho). split; [eapply regen_moo; eauto|eapply regen_value; eauto].
    - exists b. rewrite E2. split; [exact B1|]. split; [eapply regen_value; eauto|]. split; [eapply genomes_gkeep; [apply regen_gkeep; exact R|exact B3]|rewrite E6; exact B4].
    - rewrite E3. exact C.
    - rewrite E4. exact M.
    - rewrite E5. exact AL.
    - rewrite E6. exact EVS.
  Qed.

  Lemma mgoing_publish nm a w : mgoing a w -> exists a', publish nm (a, w) = (Ok tt, (a', w)) /\ mgoing a' w.
  Proof.
    intros H. rewrite publish_eq. eexists. split; [reflexivity|]. eapply mgoing_skip; [..|apply regen_refl|exact H]; try reflexivity.
    cbn [a_trace add_trace]. rewrite evals_app. cbn [evals flat_map app]. apply app_nil_r.
  Qed.

  Lemma user_checkers_total pop best gen w cs : pop <> [] -> valued (w_heap w) best ->
    (forall o, In o (flat_map inds_of pop) -> valued (w_heap w) o /\ exists i, nth_error (w_heap w) o = Some i /\ ft_class (i_fit i) = KNSGA2) ->
    Forall (fun c => exists f stored, c = CkUser f stored /\ moo_answers f) cs ->
    exists bs cs', run_checkers pop best gen cs w = (Ok (bs, cs'), w) /\ Forall (fun c => exists f stored, c = CkUser f stored /\ moo_answers f) cs'.
  Proof.
    intros Np Sb Sp F. assert (E : exists rs, mapM (run_checker pop best gen) cs w = (Ok rs, w) /\
      Forall (fun c => exists f stored, c = CkUser f stored /\ moo_answers f) (map snd rs)).
    { induction F as [|c cs (f & m & -> & T) F IH]; [exists []; split; [reflexivity|constructor]|]. destruct IH as (rs & E & K).
      destruct (T m pop (w_heap w) best gen Np Sb Sp) as (b & m' & Eb).
      exists ((b, CkUser f m') :: rs). cbn [mapM]. erewrite bind_eq_ok; [|cbn [run_checker]; unfold bind, get, lift, ret; rewrite Eb; reflexivity].
      rewrite (bind_eq_ok _ _ _ _ _ E). split; [reflexivity|]. cbn [map snd]. constructor; [exists f, m'; auto|exact K]. }
    destruct E as (rs & E & K). exists (map fst rs), (map snd rs). unfold run_checkers. rewrite (bind_eq_ok _ _ _ _ _ E). split; [reflexivity|exact K].
  Qed.

  Lemma mgoing_checkers cs a w : Forall (fun c => exists f stored, c = CkUser f stored /\ moo_answers f) cs -> mgoing a w -> mgoing (set_checkers cs a) w.
  Proof. intros F []. constructor; auto. Qed.

  Lemma mgoing_terminate a w : mgoing a w -> exists st a', should_terminate (a, w) = (Ok st, (a', w)) /\ mgoing a' w.
  Proof.
    intros H. destruct (mg_best _ _ H) as (b & B1 & B2 & B3 & B4). destruct (mg_pop _ _ H) as (l & P1 & _ & _ & _ & P5).
    destruct (user_checkers_total (a_pop a) b (a_gen_num a) w (a_checkers a)) as (bs & cs & E & F).
    { rewrite P1. discriminate. }
    { destruct B2 as (i & v & A & _ & P). exists i, v. auto. }
    { rewrite P1. cbn [flat_map]. rewrite app_nil_r. intros o Ho. destruct (P5 o Ho) as ((j & Aj & Cj & _) & i & v & A & _ & P).
      split; [exists i, v; auto|exists j; auto]. }
    { apply (mg_check _ _ H). }
    unfold should_terminate. erewrite bind_eq_ok; [|reflexivity]. cbn [fst]. rewrite B1.
    erewrite bind_eq_ok; [|unfold liftM; cbn [fst snd]; rewrite E; reflexivity].
    eexists _, _. split; [reflexivity|]. cbn [fst snd]. eapply mgoing_skip; [..|apply regen_refl|apply (mgoing_checkers cs); [exact F|exact H]]; try reflexivity.
    cbn [a_trace add_trace set_checkers]. rewrite evals_app. cbn [evals flat_map app]. apply app_nil_r.
  Qed.

  (** The population has just been selected. *)
  Definition selected (a : algo) (w : world) : Prop := exists l d w2,
    measured w2 h (value_in w2) l /\ NoDup l /\ nsga2_select so l 0 w2 = (Ok d, w) /\ a_pop a = [with_inds s d].

  Definition onward (a a' : algo) : Prop :=
    a_stats a' = a_stats a /\ a_gen_num a' = a_gen_num a /\ exists x, evals (a_trace a') = evals (a_trace a) ++ [x].

  Lemma mgoing_iteration a w : mgoing a w ->
    exists a' w', nsga2_generation ev sched so true (a, w) = (Ok tt, (a', w')) /\ mgoing a' w' /\ selected a' w' /\ onward a a'.
  Proof.
    intros H. destruct (mg_pop _ _ H) as (l & P1 & P2 & P3 & P4 & P5). destruct (mg_best _ _ H) as (r & B1 & B2 & B3 & B4).
    destruct (doubling_total G (with_inds s l) l w) as (cs & w1 & E1 & L1 & N1 & G1 & U1 & F1); auto.
    change (with_inds (with_inds s l) (cs ++ l)) with (with_inds s (cs ++ l)) in E1.
    pose proof (doubling_moo h (with_inds s l) w _ w1 (fun o Ho => proj1 (P5 o Ho)) E1) as M1. change (inds_of (with_inds s (cs ++ l))) with (cs ++ l) in M1.
    assert (Lp : length (cs ++ l) = 2 * sp_size s) by (rewrite app_length; lia).
    destruct (moo_eval_total ev h EV G sched s (cs ++ l) w1 Htot Hfair) as (b & w2 & E2 & _ & A2 & O2); [destruct (cs ++ l); [simpl in Lp; lia|discriminate]|exact N1|exact G1|auto|].
    pose proof (assessed_measured ev h _ _ _ A2) as Me.
    assert (Sz : length (cs ++ l) / 2 = sp_size s) by (rewrite Lp, Nat.mul_comm; apply Nat.div_mul; discriminate).
    destruct (nsga2_select_ok so w2 h (value_in w2) (cs ++ l) 0 Me N1 Hany) as (d & w3 & E3 & Sv); [cbn [Nat.eqb]; rewrite Sz; lia|].
    cbn [Nat.eqb] in Sv. rewrite Sz in Sv. destruct Sv as [Sl Sn So (m & _ & _ & _ & _ & H2 & _ & _)].
    assert (Inc : incl d (cs ++ l)) by (intros x Hx; destruct (H2 x Hx) as (k & _ & [Hl' _]); eapply left_in; eauto).
    assert (V2 : forall o, In o (cs ++ l) -> moo_at w3 h o /\ has_value ev w3 o).
    { intros o Ho. eapply ranked_known; [exact So|]. eapply assessed_known; eauto. }
    pose proof (assessed_genomes ev h G _ _ _ G1 A2) as G2. pose proof (ranked_genomes G _ _ _ _ So G2) as G3.
    exists (set_pop [with_inds s d] (add_trace (TEval (cs ++ l)) (add_trace TBreed (set_pop [with_inds s (cs ++ l)] a)))), w3. split.
    - unfold nsga2_generation. erewrite bind_eq_ok; [|reflexivity]. cbn [fst].
      erewrite bind_eq_ok.
      2:{ unfold liftM. cbn [fst snd]. rewrite P1. cbn [mapM]. rewrite (bind_eq_ok _ _ _ _ _ E1). reflexivity. }
      erewrite bind_eq_ok; [|reflexivity]. erewrite bind_eq_ok; [|reflexivity].
      erewrite bind_eq_ok.
      2:{ unfold act_evaluator. erewrite bind_eq_ok; [|reflexivity]. cbn [fst snd].
          erewrite bind_eq_ok; [|unfold liftM; cbn [fst snd a_method a_alive a_pop set_pop add_trace];
            rewrite (mg_method _ _ H), (mg_alive _ _ H), E2; reflexivity].
          reflexivity. }
      erewrite bind_eq_ok.
      2:{ unfold liftM, select_for_population. cbn [fst snd mapM]. change (inds_of (with_inds s (cs ++ l))) with (cs ++ l).
          erewrite bind_eq_ok; [|rewrite (bind_eq_ok _ _ _ _ _ E3); reflexivity]. reflexivity. }
      unfold algo_mod. cbn [fst snd flat_map a_pop set_pop add_trace]. change (inds_of (with_inds s (cs ++ l))) with (cs ++ l). rewrite app_nil_r. reflexivity.
    - split; [|split; [exists (cs ++ l), d, w2; repeat (split; [assumption|]); reflexivity|]]. 2: {
      unfold onward. cbn [a_stats a_gen_num a_trace set_pop add_trace]. rewrite !evals_app. split; [reflexivity|]. split; [reflexivity|]. exists (cs ++ l). cbn [evals flat_map]. rewrite !app_nil_r. reflexivity. }
      constructor.
      + exists d. split; [reflexivity|]. split; [exact Sl|]. split; [exact Sn|]. split; [eapply genomes_incl; [exact Inc|exact G3]|].
        intros o Ho. apply V2, Inc, Ho.
      + exists r. split; [exact B1|]. enough (Hr0 : has_value ev w3 r /\ genomes_in G [r] w3).
        { destruct Hr0 as [V3 G4]. split; [exact V3|]. split; [exact G4|]. cbn [a_trace set_pop add_trace]. rewrite !evals_app.
          destruct (mg_evals _ _ H) as (f & ls & Ef & _). rewrite Ef in *. exact B4. }
        destruct (in_dec Nat.eq_dec r (cs ++ l)) as [Hr|Hr].
        * split; [apply V2; exact Hr|]. intros o [<-|[]]. apply G3. exact Hr.
        * assert (Ar : at_ w2 r = at_ w r).
          { rewrite (O2 r Hr). destruct B2 as (i & v & A & _). destruct F1 as [_ F1]. apply F1; [eapply at_lt; eauto|].
            intros Hl'. apply Hr. apply in_app_iff. auto. }
          split.
          -- eapply ranked_value; [exact So|]. destruct B2 as (i & v & A & R). exists i, v. rewrite Ar. auto.
          -- eapply ranked_genomes; [exact So|]. intros o [<-|[]]. destruct (B3 r (or_introl eq_refl)) as (i & A & Gi). exists i. rewrite Ar. auto.
      + exact (mg_check _ _ H).
      + exact (mg_method _ _ H).
      + exact (mg_alive _ _ H).
      + cbn [a_trace set_pop add_trace]. rewrite !evals_app. cbn [evals flat_map app]. rewrite app_nil_r.
        destruct (mg_evals _ _ H) as (f & ls & Ef & Lf & Fl). exists f, (ls ++ [cs ++ l]). unfold evals in *. rewrite Ef. split; [reflexivity|]. split; [exact Lf|].
        apply Forall_app. split; [exact Fl|constructor; [exact Lp|constructor]].
  Qed.

  Lemma mgoing_body g a w : mgoing a w -> exists st a' w', body (nsga2_generation ev sched so true) g (a, w) = (Ok st, (a', w')) /\ mgoing a' w' /\ selected a' w' /\ onward (set_gen_num g a) a'.
  Proof.
    intros H. destruct (mg_pop _ _ H) as (l & P1 & P2 & P3 & P4 & P5).
    destruct (iter_gen g l w (genomes_present _ _ _ P4)) as (w1 & E1 & R1).
    set (z := next_seed (a_gen_seed a)).
    set (w2 := snd (liftR (set_seed z) w1)).
    set (a2 := set_gen_seed z (add_trace (TSeed z) (set_gen_num g a))).
    assert (H2 : mgoing a2 w2).
    { eapply mgoing_skip; [..|exact H]; try reflexivity.
      - cbn. rewrite evals_app. cbn. apply app_nil_r.
      - etransitivity; [exact R1|]. apply regen_frame. apply liftR_frame. }
    destruct (mgoing_iteration a2 w2 H2) as (a3 & w3 & E3 & H3 & S3 & O3).
    destruct (mgoing_terminate a3 w3 H3) as (st & a4 & E4 & H4).
    exists st, a4, w3. split; [|split; [exact H4|]].
    2:{ apply terminate_ok in E4. destruct E4 as (_ & bb & an & cc & _ & _ & -> & _). split; [destruct S3 as (l3 & d3 & w0 & S3); exists l3, d3, w0; exact S3|].
        destruct O3 as (O1 & O2 & O3). unfold onward in *. cbn [a_stats a_gen_num a_trace add_trace set_checkers] in *. rewrite !evals_app. unfold a2 in *.
        cbn [a_stats a_gen_num a_trace add_trace set_gen_seed set_gen_num] in *. split; [exact O1|]. split; [exact O2|]. destruct O3 as (x & O3). exists x.
        rewrite O3, evals_app. cbn [evals flat_map app]. rewrite !app_nil_r. reflexivity. } unfold body.
    erewrite bind_eq_ok; [|reflexivity]. cbn [fst snd].
    erewrite bind_eq_ok.
    2:{ unfold update_gen. erewrite bind_eq_ok; [|reflexivity]. cbn [fst snd a_pop set_gen_num]. rewrite P1.
        cbn [flat_map]. rewrite app_nil_r. unfold liftM. cbn [fst snd]. change (inds_of (with_inds s l)) with l. rewrite E1. reflexivity. }
    erewrite bind_eq_ok; [|reflexivity]. cbn [fst snd a_gen_seed set_gen_num]. fold z.
    erewrite bind_eq_ok.
    2:{ unfold seed_generators. erewrite bind_eq_ok; [|unfold liftM; cbn [fst snd]; reflexivity]. reflexivity. }
    erewrite bind_eq_ok; [|reflexivity]. cbn [fst snd]. erewrite bind_eq_ok; [|exact E3]. exact E4.
  Qed.

  Lemma mgoing_loop todo : forall g a w, mgoing a w ->
    exists a' w', main_loop (nsga2_generation ev sched so true) todo g (a, w) = (Ok tt, (a', w')) /\ mgoing a' w'.
  Proof.
    induction todo as [|todo IH]; intros g a w H; [exists a, w; split; [reflexivity|exact H]|].
    destruct (mgoing_body g a w H) as (st & a1 & w1 & E1 & H1 & _). rewrite main_loop_body, (bind_eq_ok _ _ _ _ _ E1).
    destruct st.
    - destruct (mgoing_publish "after_generation" (set_final (Some g) a1) w1) as (a2 & E2 & H2).
      { eapply mgoing_skip; [..|apply regen_refl|exact H1]; reflexivity. }
      exists a2, w1. split; [|exact H2]. erewrite bind_eq_ok; [|reflexivity]. exact E2.
    - destruct (mgoing_publish "after_generation" a1 w1 H1) as (a2 & E2 & H2).
      destruct (IH (S g) a2 w1 H2) as (a3 & w3 & E3 & H3).
      exists a3, w3. split; [|exact H3]. rewrite (bind_eq_ok _ _ _ _ _ E2). exact E3.
  Qed.
End MooGoing.

(** ** Creation *)

Definition samefit (w w' : world) : Prop := forall o i, at_ w o = Some i -> exists j, at_ w' o = Some j /\ i_fit j = i_fit i.
Global Instance samefit_pre : PreOrder samefit.
Proof.
  split; [intros w o i H; eauto|]. intros a b c Hab Hbc o i H. destruct (Hab o i H) as (j & Hj & A). destruct (Hbc o j Hj) as (k & Hk & B).
  exists k. split; [exact Hk|congruence].
Qed.
Lemma samefit_put_genome o g : steps samefit (put_genome o g).
Proof.
  intros w. unfold put_genome. destruct (at_ w o) as [i|] eqn:A.
  - rewrite (modify_at _ _ _ _ A). intros p k B. destruct (Nat.eq_dec o p) as [->|N].
    + exists (set_genome g i). split; [eapply at_put_same; eauto|]. replace k with i by congruence. reflexivity.
    + exists k. split; [|reflexivity]. cbn [snd]. rewrite at_put_other by exact N. exact B.
  - unfold modify, load, bind. unfold at_ in A. rewrite A. reflexivity.
Qed.
Definition untried (w : world) (o : oid) : Prop := exists i, at_ w o = Some i /\ ft_evaluated (i_fit i) = false /\ ft_crowding (i_fit i) = Fin 0.
Lemma samefit_new w o : samefit w o -> forall x, untried w x -> untried o x.
Proof. intros S x (i & A & U). destruct (S x i A) as (j & B & E). exists j. split; [exact B|]. rewrite E. exact U. Qed.

Lemma create_unevaluated len b k upd n hb w l w' : create_individuals (CVector len b k KNSGA2 upd) n hb w = (Ok l, w') ->
  forall o, In o l -> untried w' o.
Proof.
  intros H. cbn [create_individuals] in H. unfold create_vectors in H. mb H as inds w1 E. mb H as u w2 E1. intros o Ho. mr H.
  assert (F : samefit w1 w').
  { assert (K : steps samefit (iterM (fun o => v <- load_vec o ;; v' <- liftR (create_vector len v) ;; put_genome o (GVec v')) l)).
    { apply (st_iterM samefit). intros x _. apply (st_bind samefit); [apply (x_load_vec samefit)|]. intros t.
      apply (st_bind samefit); [apply (x_liftR samefit); intros v g p i A; exists i; auto|]. intros g. apply samefit_put_genome. }
    specialize (K w1). rewrite E1 in K. exact K. }
  eapply samefit_new; [exact F|]. clear E1 F. revert w l w1 E o Ho. induction n as [|n IH]; intros w l w1 E o Ho; simpl in E; [mr E; destruct Ho|].
  mb E as x v1 Ex. mb E as xs v2 Exs. unfold ret in E. injection E as <- <-. destruct Ho as [<-|Ho]; [|eapply IH; eauto].
  assert (F : samefit v1 v2).
  { match type of Exs with repeatM _ ?m _ = _ => assert (K : steps samefit (repeatM n m)) end.
    { apply (st_repeatM samefit). apply (st_bind samefit); [apply (st_lift samefit)|]. intros v w0.
      assert (X : ext w0 (snd (new_individual (new_fitness KNSGA2 hb) upd (GVec v) w0))) by (eexists; reflexivity).
      intros p i A. exists i. split; [eapply ext_at; [exact X|exact A]|reflexivity]. }
    specialize (K v1). rewrite Exs in K. exact K. }
  eapply samefit_new; [exact F|]. mb Ex as g v3 Eg. unfold lift in Eg. injection Eg as _ <-.
  unfold new_individual, bind, fresh_id, alloc in Ex. simpl in Ex. injection Ex as <- <-.
  eexists. split; [unfold at_; simpl; rewrite nth_error_app2, Nat.sub_diag by lia; reflexivity|]. split; reflexivity.
Qed.

(** The individuals that are given have not been sorted. *)
Definition unsorted (w : world) (s : subpop) : Prop := forall l, sp_inds s = Some l -> forall o, In o l -> crowding_of w o (Fin 0).

Lemma moo_create_total G h a w s : moo_configured h a w s -> closed_under G w s ->
  exists l w', mapM create_subpopulation [s] (snd (liftR (set_seed (a_random_seed a)) w)) = (Ok [with_inds s l], w') /\
    length l = sp_size s /\ NoDup l /\ genomes_in G l w' /\ (forall o, In o l -> moo_at w' h o /\ unevaluated w' o) /\
    (unsorted w s -> forall o, In o l -> crowding_of w' o (Fin 0)).
Proof.
  intros C [Hop Hc]. pose proof (liftR_frame (set_seed (a_random_seed a)) w) as F.
  set (w1 := snd (liftR (set_seed (a_random_seed a)) w)) in *.
  pose proof (mc_inds _ _ _ _ C) as Hi.
  assert (E : exists l w', create_subpopulation s w1 = (Ok (with_inds s l), w') /\ length l = sp_size s /\ NoDup l /\ genomes_in G l w' /\
     (forall o, In o l -> moo_at w' h o /\ unevaluated w' o) /\ (unsorted w s -> forall o, In o l -> crowding_of w' o (Fin 0))).
  { unfold create_subpopulation. destruct (sp_inds s) as [l|] eqn:El.
    - destruct Hi as (Hlen & Hnd & Hm). exists l, w1. rewrite (with_inds_same s l El). split; [reflexivity|]. split; [exact Hlen|]. split; [exact Hnd|].
      split; [eapply genomes_frame; [exact F|intros o _ []|exact Hc]|]. split.
      2:{ intros Un o Ho. destruct (Un l El o Ho) as (i & A & K). exists i. split; [eapply frame_at; eauto|assumption]. }
      intros o Ho. destruct (Hm o Ho) as [(i & A & K) (j & B & U)].
      split; [exists i|exists j]; (split; [eapply frame_at; eauto|assumption]).
    - destruct Hi as (Hl & (q & Hq & Hpos) & Hd & Hcr).
      destruct (choices_weighted_total (sp_creators s) (sp_pcr s) q (w_rng w1) Hl Hq Hpos) as (c & g' & Ec).
      pose proof (choices_weighted_In _ _ _ _ _ Ec) as Hin.
      rewrite (bind_eq_ok _ _ _ _ _ (liftR_eq _ _ _ _ Ec)).
      destruct (Hc c Hin (mkWorld (w_heap w1) (w_next_id w1) g')) as (l & w2 & E2 & G2).
      exists l, w2. rewrite (bind_eq_ok _ _ _ _ _ E2). split; [reflexivity|].
      destruct (create_present _ _ _ _ _ _ E2) as (_ & Nd & Ll). split; [exact Ll|]. split; [exact Nd|]. split; [exact G2|].
      destruct (Hcr c Hin) as (len & b & k & upd & ->). split.
      2:{ intros _ o Ho. destruct (create_unevaluated _ _ _ _ _ _ _ _ _ E2 o Ho) as (i & A & _ & K). exists i. auto. }
      intros o Ho. split; [eapply create_moo; eauto|]. destruct (create_unevaluated _ _ _ _ _ _ _ _ _ E2 o Ho) as (i & A & K & _). exists i. auto. }
  destruct E as (l & w' & E & K). exists l, w'. split; [|exact K].
  cbn [mapM]. rewrite (bind_eq_ok _ _ _ _ _ E). reflexivity.
Qed.

(** Evaluation does not change the crowding. *)
Definition crowd (w w' : world) : Prop := forall o i, at_ w o = Some i -> exists j, at_ w' o = Some j /\ ft_crowding (i_fit j) = ft_crowding (i_fit i).
Global Instance crowd_pre : PreOrder crowd.
Proof.
  split; [intros w o i H; eauto|]. intros a b c Hab Hbc o i H. destruct (Hab o i H) as (j & Hj & A). destruct (Hbc o j Hj) as (k & Hk & B).
  exists k. split; [exact Hk|congruence].
Qed.
Lemma crowd_set o v : steps crowd (ind_set_fitness o v).
Proof.
  intros w. unfold ind_set_fitness. destruct (at_ w o) as [i|] eqn:A.
  - rewrite (bind_eq_ok _ _ _ _ _ (load_at _ _ _ A)). cbv zeta. rewrite (bind_eq_ok _ _ _ _ _ (store_at o _ i w A)). unfold lift.
    cbn [snd]. intros p k B. destruct (Nat.eq_dec o p) as [->|N].
    + eexists. split; [eapply at_put_same; eauto|]. replace k with i by congruence. cbn [i_fit set_fit].
      unfold set_fitness. destruct (ft_class (i_fit i)); [reflexivity..|]. destruct (ft_evaluated (i_fit i)); [reflexivity|].
      destruct (ft_hib (i_fit i)); [|reflexivity]. destruct v; reflexivity.
    + exists k. split; [|reflexivity]. rewrite at_put_other by exact N. exact B.
  - unfold load, bind. unfold at_ in A. rewrite A. reflexivity.
Qed.
Lemma crowd_liftR {A} (m : R A) : steps crowd (liftR m).
Proof. intros w. unfold liftR. destruct (m (w_rng w)) as [x g]. intros o i H. exists i. auto. Qed.
Lemma crowd_load o : steps crowd (load o).
Proof. intros w. rewrite load_state. reflexivity. Qed.
Lemma crowd_assign inds : forall rs, steps crowd (assign_results inds rs).
Proof.
  induction inds as [|o inds IH]; intros [|r rs]; cbn [assign_results]; try apply (st_ret crowd); try apply (st_raise crowd).
  apply (st_bind crowd); [apply (st_lift crowd)|]. intros v. apply (st_bind crowd); [apply crowd_set|]. intros _. apply IH.
Qed.
Lemma crowd_eval ev sched s l : steps crowd (evaluate_population ev sched ByMap true [with_inds s l]).
Proof.
  cbn [evaluate_population]. unfold evaluate_inds. apply (st_bind crowd).
  { apply (st_mapM crowd). intros o _. apply (st_bind crowd); [apply crowd_load|]. intros i. apply (st_ret crowd). }
  intros gs. apply (st_bind crowd); [apply (st_lift crowd)|]. intros rs. apply (st_bind crowd); [apply crowd_assign|]. intros _.
  destruct (inds_of _) as [|x xs]; [apply (st_raise crowd)|]. cbn [best_scan]. apply (st_foldM crowd). intros b o _.
  apply (st_bind crowd); [|intros c; apply (st_ret crowd)]. unfold ind_better_than.
  apply (st_bind crowd); [apply crowd_load|]. intros i. apply (st_bind crowd); [apply crowd_load|]. intros j. apply crowd_liftR.
Qed.

Lemma moo_started G ev h sched s n a w : gives_objectives ev (length h) -> total_on G ev -> fair sched ->
  a_trace a = [] -> moo_configured h a w s -> closed_under G w s ->
  exists a1 w2, initialize ev sched n (a, w) = (Ok tt, (a1, w2)) /\ mgoing G ev h s a1 w2 /\ a_stats a1 = a_stats a + n /\
    a_max_gen a1 = a_max_gen a /\ a_checkers a1 = a_checkers a /\
    exists l, a_pop a1 = [with_inds s l] /\ evals (a_trace a1) = [l] /\ (unsorted w s -> forall o, In o l -> crowding_of w2 o (Fin 0)).
Proof.
  intros EV Htot Hfair Htr C K. pose proof (mc_size _ _ _ _ C) as Hsize.
  destruct (moo_create_total G h a w s C K) as (l & w1 & E1 & L1 & N1 & G1 & M1 & U1).
  assert (Nl : l <> []) by (intros ->; simpl in L1; lia).
  destruct (moo_eval_total ev h EV G sched s l w1 Htot Hfair Nl N1 G1 M1) as (b & w2 & E2 & Ib & A2 & O2).
  set (a1 := add_stats n (add_trace (TPublish "init" (a_gen_num a) (Some b) (at_ w2 b))
           (set_best_run (Some b) (add_trace (TEval l) (set_pop [with_inds s l] (add_trace (TSeed (a_random_seed a)) a)))))).
  assert (Ei : initialize ev sched n (a, w) = (Ok tt, (a1, w2))).
  { unfold initialize. erewrite bind_eq_ok; [|reflexivity]. cbn [fst].
    erewrite bind_eq_ok.
    2:{ unfold seed_generators. erewrite bind_eq_ok; [|unfold liftM; cbn [fst snd]; reflexivity]. reflexivity. }
    rewrite (mc_pop _ _ _ _ C). erewrite bind_eq_ok.
    2:{ unfold liftM. cbn [fst snd]. match goal with |- context [mapM _ _ ?x] => change x with (snd (liftR (set_seed (a_random_seed a)) w)) end.
        rewrite E1. reflexivity. }
    erewrite bind_eq_ok; [|reflexivity]. cbn [fst snd].
    erewrite bind_eq_ok.
    2:{ unfold act_evaluator. erewrite bind_eq_ok; [|reflexivity]. cbn [fst snd].
        erewrite bind_eq_ok; [|unfold liftM; cbn [fst snd a_method a_alive a_pop set_pop add_trace];
          rewrite (mc_method _ _ _ _ C), (mc_alive _ _ _ _ C), E2; reflexivity].
        reflexivity. }
    erewrite bind_eq_ok; [|reflexivity]. cbn [fst snd]. rewrite (bind_eq_ok _ _ _ _ _ (publish_eq _ _ _)).
    unfold algo_mod. cbn [fst snd]. unfold a1. cbn [a_gen_num a_best_run set_best_run add_trace set_pop a_pop].
    cbn [flat_map]. change (inds_of (with_inds s l)) with l. rewrite app_nil_r. reflexivity. }
  pose proof (assessed_genomes ev h G _ _ _ G1 A2) as G2.
  assert (H1 : mgoing G ev h s a1 w2).
  { constructor.
    - exists l. split; [reflexivity|]. split; [exact L1|]. split; [exact N1|]. split; [exact G2|]. intros o Ho. eapply assessed_known; eauto.
    - exists b. split; [reflexivity|]. split; [apply (assessed_known ev h w1 w2 b (A2 b Ib))|].
      split; [intros o [<-|[]]; apply G2; exact Ib|]. unfold a1. cbn. rewrite Htr. exact Ib.
    - exact (mc_checkers _ _ _ _ C).
    - exact (mc_method _ _ _ _ C).
    - exact (mc_alive _ _ _ _ C).
    - unfold a1. cbn. rewrite Htr. cbn. exists l, []. split; [reflexivity|]. split; [exact L1|constructor]. }
  exists a1, w2. split; [exact Ei|]. split; [exact H1|]. split; [reflexivity|]. split; [reflexivity|]. split; [reflexivity|].
  exists l. split; [reflexivity|]. split; [unfold a1; cbn; rewrite Htr; reflexivity|]. intros Un o Ho.
  destruct (U1 Un o Ho) as (i & A & B). pose proof (crowd_eval ev sched s l w1) as Cr. rewrite E2 in Cr. destruct (Cr o i A) as (j & A' & B').
  exists j. split; [exact A'|]. congruence.
Qed.

Lemma mgoing_finish G ev h s a w : mgoing G ev h s a w ->
  exists b i, a_best_run a = Some b /\ In b (hd [] (evals (a_trace a))) /\ at_ w b = Some i /\ G (i_genome i) /\ nsga2_finish (a, w) = (show i, (a, w)).
Proof.
  intros H4. destruct (mg_best _ _ _ _ _ _ H4) as (b' & B & (i & v & A & Ev & P) & Gb & Fb). destruct (Gb b' (or_introl eq_refl)) as (i' & A' & Gi).
  rewrite A in A'. injection A' as <-.
  exists b', i. split; [exact B|]. split; [exact Fb|]. split; [exact A|]. split; [exact Gi|].
  unfold nsga2_finish.
  assert (Sh : show_best (a, w) = (show i, (a, w))).
  { unfold show_best. erewrite bind_eq_ok; [|reflexivity]. cbn [fst snd]. rewrite B.
    erewrite bind_eq_ok; [|unfold liftM; cbn [fst snd]; rewrite (load_at _ _ _ A); reflexivity]. reflexivity. }
  destruct (show i) as [[]|e]; [|unfold bind; rewrite Sh; reflexivity]. rewrite (bind_eq_ok _ _ _ _ _ Sh).
  erewrite bind_eq_ok; [|reflexivity]. cbn [fst snd]. rewrite B.
  erewrite bind_eq_ok; [|unfold liftM, pure_fitness; cbn [fst snd]; rewrite (bind_eq_ok _ _ _ _ _ (load_at _ _ _ A)); unfold lift; rewrite P; reflexivity].
  reflexivity.
Qed.

Lemma moo_run_ends G ev h sched so s n a w : gives_objectives ev (length h) -> total_on G ev -> fair sched -> any_order so ->
  a_trace a = [] -> moo_configured h a w s -> closed_under G w s ->
  exists a' w' b i, a_best_run a' = Some b /\ at_ w' b = Some i /\ G (i_genome i) /\
    nsga2_evolve ev sched so true n (a, w) = (show i, (a', w')) /\ mgoing G ev h s a' w'.
Proof.
  intros EV Htot Hfair Hany Htr C K. pose proof (mc_size _ _ _ _ C) as Hsize. pose proof (mc_elite _ _ _ _ C) as He.
  pose proof (mc_arities _ _ _ _ C) as Har. pose proof (mc_sel _ _ _ _ C) as Hsel. pose proof (proj1 K) as Hop.
  destruct (moo_started G ev h sched s n a w EV Htot Hfair Htr C K) as (a1 & w2 & Ei & H1 & _).
  destruct (mgoing_terminate G ev h s a1 w2 H1) as (st & a2 & E3 & H2).
  assert (E4 : exists a3 w3, (if st then algo_mod (set_final (Some 0)) ;;; publish "after_generation"
       else a <- algo_get ;; main_loop (nsga2_generation ev sched so true) (a_max_gen a) 1) (a2, w2) = (Ok tt, (a3, w3)) /\ mgoing G ev h s a3 w3).
  { destruct st.
    - destruct (mgoing_publish G ev h s "after_generation" (set_final (Some 0) a2) w2) as (a3 & E4 & H3).
      { eapply mgoing_skip; [..|apply regen_refl|exact H2]; reflexivity. }
      exists a3, w2. split; [|exact H3]. erewrite bind_eq_ok; [|reflexivity]. exact E4.
    - destruct (mgoing_loop G ev h sched so s EV Htot Hfair Hany Hsize He Har Hsel Hop (a_max_gen a2) 1 a2 w2 H2) as (a3 & w3 & E4 & H3).
      exists a3, w3. split; [|exact H3]. erewrite bind_eq_ok; [|reflexivity]. exact E4. }
  destruct E4 as (a3 & w3 & E4 & H3).
  destruct (mgoing_publish G ev h s "evolution_finished" a3 w3 H3) as (a4 & E5 & H4).
  destruct (mgoing_finish _ _ _ _ _ _ H4) as (b' & i & B & _ & A & Gi & Ef).
  exists a4, w3, b', i. split; [exact B|]. split; [exact A|]. split; [exact Gi|]. split; [|exact H4].
  unfold nsga2_evolve, evolve_with. rewrite (bind_eq_ok _ _ _ _ _ Ei), (bind_eq_ok _ _ _ _ _ E3), (bind_eq_ok _ _ _ _ _ E4), (bind_eq_ok _ _ _ _ _ E5).
  exact Ef.
Qed.

Lemma moo_completes G ev h sched so s n a w : gives_objectives ev (length h) -> total_on G ev -> fair sched -> any_order so ->
  a_trace a = [] -> moo_configured h a w s -> closed_under G w s -> (forall g, G g -> printable g) ->
  exists a' w' l, nsga2_evolve ev sched so true n (a, w) = (Ok tt, (a', w')) /\
    a_pop a' = [with_inds s l] /\ length l = sp_size s /\ NoDup l /\ genomes_in G l w' /\ (forall o, In o l -> has_value ev w' o) /\
    evaluations (sp_size s) (2 * sp_size s) (evals (a_trace a')).
Proof.
  intros EV Ht Hf Ha Htr C K P. destruct (moo_run_ends G ev h sched so s n a w EV Ht Hf Ha Htr C K) as (a' & w' & b & i & _ & _ & Gi & E & M).
  destruct (mg_pop _ _ _ _ _ _ M) as (l & P1 & P2 & P3 & P4 & P5). exists a', w', l. rewrite (show_printable i (P _ Gi)) in E.
  split; [exact E|]. split; [exact P1|]. split; [exact P2|]. split; [exact P3|]. split; [exact P4|]. split; [intros o Ho; apply (P5 o Ho)|].
  exact (mg_evals _ _ _ _ _ _ M).
Qed.

(** ** Runs of vectors *)

Lemma moo_vectors k b len ev h sched so s n a w : gives_objectives ev (length h) -> total_on (vectors k b len) ev -> fair sched -> any_order so ->
  a_trace a = [] -> moo_configured h a w s -> Forall (vector_operator k b len) (sp_ops s) ->
  match sp_inds s with Some l => genomes_in (vectors k b len) l w | None => Forall (vector_creator k b len) (sp_creators s) end ->
  exists a' w' l, nsga2_evolve ev sched so true n (a, w) = (Ok tt, (a', w')) /\
    a_pop a' = [with_inds s l] /\ length l = sp_size s /\ NoDup l /\ genomes_in (vectors k b len) l w' /\ (forall o, In o l -> has_value ev w' o) /\
    evaluations (sp_size s) (2 * sp_size s) (evals (a_trace a')).
Proof.
  intros EV Ht Hf Ha Htr C Ho Hi. apply (moo_completes _ _ h); auto; [split|intros g (v & -> & _); exact I].
  - eapply Forall_impl; [|exact Ho]. intros op. apply vector_closed.
  - destruct (sp_inds s); [exact Hi|]. rewrite Forall_forall in Hi. intros c Hc. apply vector_creator_closed. auto.
Qed.

(** ** A second run *)

Lemma put_same w o i : at_ w o = Some i -> put_at w o i = w.
Proof.
  intros A. unfold put_at. destruct w as [l n g]. unfold at_ in A. cbn in *. f_equal. revert o A. induction l as [|x l IH]; intros [|o] A; try discriminate; cbn in *.
  - injection A as ->. reflexivity.
  - f_equal. auto.
Qed.
Lemma set_fit_same i : set_fit (i_fit i) i = i.
Proof. destruct i; reflexivity. Qed.

Lemma second_run_raises G ev h s a w ev' sched' so' n' : mgoing G ev h s a w -> 1 <= sp_size s -> total_on G ev' -> fair sched' ->
  exists a2 w2, nsga2_evolve ev' sched' so' true n' (a, w) = (Raise AttributeError, (a2, w2)) /\ w_heap w2 = w_heap w /\ a_pop a2 = a_pop a.
Proof.
  intros M Hs Ht Hf. destruct (mg_pop _ _ _ _ _ _ M) as (l & P1 & P2 & P3 & P4 & P5). destruct l as [|o l]; [simpl in P2; lia|].
  set (w1 := snd (liftR (set_seed (a_random_seed a)) w)).
  assert (Hh : w_heap w1 = w_heap w) by reflexivity.
  assert (Hp : present (o :: l) w1) by (exact (genomes_present _ _ _ P4)).
  destruct (load_genomes _ w1 Hp) as (gs & Eg & Fg). inversion Fg as [|? g ? gs' (i & A & Gg) Fg']; subst.
  destruct (P4 o (or_introl eq_refl)) as (i' & A' & Gi). assert (i' = i) as -> by (unfold at_ in *; rewrite Hh in A; congruence).
  destruct (P5 o (or_introl eq_refl)) as [(i1 & A1 & C & _) (i2 & v & A2 & _ & Pv)].
  assert (i1 = i) as -> by congruence. assert (i2 = i) as -> by congruence.
  assert (Ue : ft_evaluated (i_fit i) = true) by (unfold get_pure_fitness in Pv; destruct (ft_evaluated (i_fit i)); [reflexivity|discriminate]).
  destruct (Ht _ Gi) as (x & Ex).
  assert (E : evaluate_population ev' sched' ByMap true [with_inds s (o :: l)] w1 = (Raise AttributeError, w1)).
  { cbn [evaluate_population]. change (inds_of (with_inds s (o :: l))) with (o :: l). unfold evaluate_inds. rewrite (bind_eq_ok _ _ _ _ _ Eg).
    rewrite (executor_map_fair ev' sched' _ Hf). erewrite bind_eq_ok; [|reflexivity]. cbn [map assign_results]. rewrite Ex.
    assert (Er : ind_set_fitness o x w1 = (Raise AttributeError, w1)).
    { unfold ind_set_fitness. rewrite (bind_eq_ok _ _ _ _ _ (load_at _ _ _ A)). unfold set_fitness. rewrite C, Ue. cbn [fst snd]. cbv zeta.
      rewrite (bind_eq_ok _ _ _ _ _ (store_at o _ i w1 A)), set_fit_same, (put_same _ _ _ A). reflexivity. }
    unfold bind at 1. unfold bind at 1. cbn [lift]. unfold bind. rewrite Er. reflexivity. }
  eexists. exists w1. split; [|split; [exact Hh|]].
  - unfold nsga2_evolve, evolve_with. apply bind_eq_raise. unfold initialize. erewrite bind_eq_ok; [|reflexivity]. cbn [fst].
    erewrite bind_eq_ok.
    2:{ unfold seed_generators. erewrite bind_eq_ok; [|unfold liftM; cbn [fst snd]; reflexivity]. reflexivity. }
    rewrite P1. erewrite bind_eq_ok.
    2:{ unfold liftM. cbn [fst snd mapM]. match goal with |- context [bind _ _ ?x] => change x with w1 end.
        erewrite bind_eq_ok; [|reflexivity]. reflexivity. }
    erewrite bind_eq_ok; [|reflexivity]. cbn [fst snd]. apply bind_eq_raise. unfold act_evaluator. erewrite bind_eq_ok; [|reflexivity]. cbn [fst snd].
    apply bind_eq_raise. unfold liftM. cbn [fst snd a_method a_alive a_pop set_pop add_trace]. rewrite (mg_method _ _ _ _ _ _ M), (mg_alive _ _ _ _ _ _ M), E. reflexivity.
  - cbn. rewrite P1. reflexivity.
Qed.

Lemma moo_only_once G ev h sched so s n a w ev' sched' so' n' : gives_objectives ev (length h) -> total_on G ev -> fair sched -> any_order so ->
  a_trace a = [] -> moo_configured h a w s -> closed_under G w s -> total_on G ev' -> fair sched' ->
  forall r a' w', nsga2_evolve ev sched so true n (a, w) = (r, (a', w')) ->
  exists a2 w2, nsga2_evolve ev' sched' so' true n' (a', w') = (Raise AttributeError, (a2, w2)) /\ w_heap w2 = w_heap w' /\ a_pop a2 = a_pop a'.
Proof.
  intros EV Ht Hf Ha Htr C K Ht' Hf' r a' w' E. destruct (moo_run_ends G ev h sched so s n a w EV Ht Hf Ha Htr C K) as (a1 & w1 & b & i & _ & _ & _ & E' & M).
  rewrite E in E'. injection E' as _ <- <-. eapply second_run_raises; eauto. exact (mc_size _ _ _ _ C).
Qed.
