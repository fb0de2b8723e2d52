(** * Every population can be the next one. *)
From Coq Require Import Lia QArith Permutation.
From Verif.Model Require Import Num Rng Vector Tree World Creators Evolution.
From Verif.Spec Require Import WorldSpec FitnessSpec VectorSpec TreeSpec SelSpec EvoSpec CompleteSpec PressureSpec ReachSpec MoveSpec RegSpec ShowSpec EverySpec.
From Verif.Proofs Require Import Lib WorldP VectorP VecOpP TreeP TreeCreateP TreeOpP PressureP SelP RunP EvalP BestP CheckP BreedP EvoFinalP CompleteP CompleteVecP CompleteTreeP ProgramP ReachP ReachVecP MoveP KindP RegP ChanceP ExamplesP LocalP.
From Verif.Model Require Import Num Rng Vector Tree World Creators Evolution.
Open Scope string_scope.
Open Scope nat_scope.
Open Scope list_scope.

(** ** Other numbers from some point on *)

(** The stream [f] where the numbers [ds] follow after the first [p] ones of seed [z]. *)
Definition patched (f : stream) (z : Z) (p : nat) (ds : list N) : stream :=
  fun s i => if (Z.eqb s z && (p <=? i))%bool then match nth_error ds (i - p) with Some d => mkDraw d 0 | None => f s i end else f s i.

Lemma patched_other f z p ds s i : s <> z -> patched f z p ds s i = f s i.
Proof. intros N. unfold patched. rewrite (proj2 (Z.eqb_neq _ _) N). reflexivity. Qed.
Lemma patched_before f z p ds s i : i < p -> patched f z p ds s i = f s i.
Proof. intros L. unfold patched. rewrite (proj2 (Nat.leb_gt _ _) L), andb_false_r. reflexivity. Qed.
Lemma patched_ahead g p z f ds : r_pyseed g = z -> r_pypos g = p -> ahead (swr g (patched f z p ds)) ds.
Proof.
  intros <- <- i d H. cbn. unfold patched. rewrite Z.eqb_refl. cbn [andb]. rewrite (proj2 (Nat.leb_le _ _)) by lia.
  replace (r_pypos g + i - r_pypos g) with i by lia. rewrite H. reflexivity.
Qed.

Lemma reroll {X Y} (m : M X) (k : X -> M Y) (P : world -> Prop) ds y (Q : world -> Prop) w x w1 : localM m -> m w = (Ok x, w1) -> (forall g, P (with_rng w1 g)) -> goes P (k x) ds y Q ->
  exists h, (forall z i, z <> r_pyseed (w_rng w) -> h z i = r_py (w_rng w) z i) /\ exists w2, (x <- m ;; k x) (sww w h) = (Ok y, w2) /\ Q w2.
Proof.
  intros L E HP G. destruct (L _ _ _ E) as (Ep & Es & Le & K).
  exists (patched (r_py (w_rng w)) (r_pyseed (w_rng w)) (r_pypos (w_rng w1)) ds). split; [intros z i N; apply patched_other; exact N|].
  specialize (K (patched (r_py (w_rng w)) (r_pyseed (w_rng w)) (r_pypos (w_rng w1)) ds)).
  rewrite (bind_eq_ok _ _ _ _ _ (K ltac:(intros i Hi; apply patched_before; lia))).
  destruct (G (sww w1 (patched (r_py (w_rng w)) (r_pyseed (w_rng w)) (r_pypos (w_rng w1)) ds))) as (w2 & E2 & _ & Q2).
  - apply (HP (swr (w_rng w1) _)).
  - cbn [sww w_rng]. apply patched_ahead; auto.
  - exists w2. auto.
Qed.

(** ** One operator on each individual *)

(** The operator can make the second genome of the first. *)
Definition becomes (op : oper) (g g' : genome) : Prop :=
  forall o, exists ds, goes (holds o g) (apply_operator op [o]) ds [o] (holds o g').

Definition all_hold (l : list oid) (gs : list genome) (w : world) : Prop := Forall2 (fun o g => holds o g w) l gs.

Lemma hold_frame (X : oid -> Prop) o g w w' : frame X w w' -> ~ X o -> holds o g w -> holds o g w'.
Proof. intros [_ F] N (i & A & E). exists i. split; [|exact E]. rewrite F; [exact A|eapply at_lt; eauto|exact N]. Qed.

Lemma all_hold_frame (X : oid -> Prop) l gs w w' : frame X w w' -> (forall o, In o l -> ~ X o) -> all_hold l gs w -> all_hold l gs w'.
Proof.
  intros F N H. induction H as [|o g l gs Ho H IH]; constructor.
  - eapply hold_frame; [exact F|apply N; left; reflexivity|exact Ho].
  - apply IH. intros p Hp. apply N. right. exact Hp.
Qed.

Lemma each_becomes op : op_arity op = 1 -> forall l gs gs', NoDup l -> length gs = length l -> Forall2 (becomes op) gs gs' ->
  exists ds, goes (all_hold l gs) (apply_chunks (length l) (apply_operator op) (op_arity op) l) ds l (all_hold l gs').
Proof.
  intros Ha. rewrite Ha. induction l as [|o l IH]; intros gs gs' Nd Le F.
  - destruct gs; [|discriminate]. inversion F; subst. exists []. apply goes_ret.
  - destruct gs as [|g gs]; [discriminate|]. inversion F as [|? g' ? gs0 Hb F' E1 E2]; subst. rename gs0 into gs'. injection Le as Le.
    apply NoDup_cons_iff in Nd. destruct Nd as [No Nd]. destruct (Hb o) as (d1 & G1). destruct (IH gs gs' Nd Le F') as (d2 & G2).
    exists (d1 ++ d2). cbn [length apply_chunks firstn skipn]. 
    eapply goes_bind with (x := [o]) (Q := fun w => holds o g' w /\ all_hold l gs w).
    + intros w Hw U. inversion Hw as [|? ? ? ? Ho Hl]; subst. destruct (G1 w Ho U) as (w' & E & R & H'). exists w'. split; [exact E|]. split; [exact R|]. split; [exact H'|].
      pose proof (fr_apply (fun p => In p [o]) op [o]) as Fr. specialize (Fr ltac:(apply Forall_forall; auto) w). rewrite E in Fr. cbn [snd] in Fr.
      eapply all_hold_frame; [exact Fr| |exact Hl]. intros p Hp [<-|[]]. contradiction.
    + eapply goes_bind1 with (x := l) (Q := fun w => holds o g' w /\ all_hold l gs' w).
      * intros w [Ho Hl] U. destruct (G2 w Hl U) as (w' & E & R & H'). exists w'. split; [exact E|]. split; [exact R|]. split; [|exact H'].
        pose proof (fr_chunks (fun p => In p l) (apply_operator op) 1 (fun l Hl => fr_apply _ op l Hl) (length l) l) as Fr.
        specialize (Fr ltac:(apply Forall_forall; auto) w). rewrite E in Fr. cbn [snd] in Fr. eapply hold_frame; [exact Fr|exact No|exact Ho].
      * intros w [Ho Hl] _. exists w. split; [reflexivity|]. split; [symmetry; apply advance_0|]. constructor; assumption.
Qed.

Lemma foldM_last {S A B} (f : B -> A -> SE S B) l x : forall acc s, foldM f (l ++ [x]) acc s = (y <- foldM f l acc ;; f y x) s.
Proof.
  induction l as [|a l IH]; intros acc s; cbn [foldM app].
  - unfold bind, ret. cbn [foldM]. destruct (f acc x s) as [[y|e] s']; reflexivity.
  - rewrite bind_assoc. apply bind_ext. intros y s1. apply IH.
Qed.

(** ** Breeding *)

Definition reaches (G : genome -> Prop) (op : oper) (g' : genome) : Prop := forall g, G g -> becomes op g g'.

Lemma hold_genomes G l w : genomes_in G l w -> exists gs, all_hold l gs w /\ length gs = length l /\ Forall G gs.
Proof.
  induction l as [|o l IH]; intros H; [exists []; repeat constructor|]. destruct (H o (or_introl eq_refl)) as (i & A & Gi).
  destruct IH as (gs & H1 & H2 & H3); [intros p Hp; apply H; right; exact Hp|]. exists (i_genome i :: gs). split; [constructor; [exists i; auto|exact H1]|].
  split; [simpl; congruence|constructor; assumption].
Qed.

Lemma reaches_all G op gs gs' : Forall G gs -> length gs' = length gs -> Forall (reaches G op) gs' -> Forall2 (becomes op) gs gs'.
Proof.
  intros H. revert gs'. induction H as [|g gs Hg H IH]; intros [|g' gs'] L F; try discriminate; constructor.
  - inversion F; subst. auto.
  - inversion F; subst. apply IH; auto.
Qed.

Lemma breed_again G h s l w score ops op gs' : sp_inds s = Some l -> sp_hib s = HB h -> length l = sp_size s -> 1 <= sp_size s ->
  (forall n, In n (map sel_arity (sp_sels s) ++ map op_arity (sp_ops s)) -> n <> 0 /\ Nat.divide n (sp_size s)) ->
  (exists sel sels, sp_sels s = sel :: sels /\ tournament_for (sp_size s) sel) ->
  Forall (closed_operator G) (sp_ops s) -> genomes_in G l w ->
  (forall o, In o l -> scored w o (score o) /\ oriented w h o) ->
  sp_ops s = ops ++ [op] -> op_arity op = 1 -> length gs' = sp_size s -> Forall (reaches G op) gs' ->
  exists f, (forall z i, z <> r_pyseed (w_rng w) -> f z i = r_py (w_rng w) z i) /\
    exists l' w', breed [s] (sww w f) = (Ok [with_inds s l'], w') /\ all_hold l' gs' w'.
Proof.
  intros Hl Hh Hlen H1 Har Hsel Hop Hg Hsc Eo Ha Lg Hr.
  destruct (selecting_total G h s l w score Hl Hh Hlen H1 Har Hsel Hg Hsc) as (sd & w1 & E1 & Nd & L1 & G1).
  rewrite Eo in Hop. apply Forall_app in Hop. destruct Hop as [Hops _].
  destruct (operators_total G ops Hops sd w1) as (w2 & E2 & G2); [|exact Nd|exact G1|].
  { intros p Hp. rewrite L1. apply Har. apply in_app_iff. right. apply in_map. rewrite Eo. apply in_app_iff. left. exact Hp. }
  destruct (hold_genomes _ _ _ G2) as (gs & Hh2 & Ll & Hgs).
  destruct (each_becomes op Ha sd gs gs' Nd Ll) as (ds & Go). { apply reaches_all with G; auto. congruence. }
  assert (E12 : (sd <- selecting s ;; apply_operators ops sd) w = (Ok sd, w2)) by (rewrite (bind_eq_ok _ _ _ _ _ E1); exact E2).
  destruct (reroll (sd <- selecting s ;; apply_operators ops sd) (fun x => apply_chunks (length x) (apply_operator op) (op_arity op) x)
    (all_hold sd gs) ds sd (all_hold sd gs') w sd w2) as (f & Hf & w3 & E3 & Q3); auto.
  { unfold selecting. loc. }
  exists f. split; [exact Hf|]. exists sd, w3. split; [|exact Q3].
  rewrite breed_selecting. rewrite bind_assoc in E3. mb E3 as sd' wa Ea. mb E3 as x wb Eb.
  rewrite (bind_eq_ok _ _ _ _ _ Ea). erewrite bind_eq_ok; [reflexivity|]. rewrite Eo. unfold apply_operators. rewrite foldM_last.
  unfold apply_operators in Eb. rewrite (bind_eq_ok _ _ _ _ _ Eb). cbv beta. rewrite Ha in *. exact E3.
Qed.

(** ** One generation of a run *)

Lemma iter_gen_sww n l f : forall w u w', iterM (fun o => modify o (set_gen n)) l w = (Ok u, w') -> iterM (fun o => modify o (set_gen n)) l (sww w f) = (Ok u, sww w' f).
Proof.
  induction l as [|o l IH]; intros w u w' E; cbn [iterM] in *.
  - mr E. reflexivity.
  - mb E as x w1 E1. unfold modify in E1. mb E1 as i w2 E2. unfold load in E2. destruct (nth_error (w_heap w) o) as [i'|] eqn:Ei; [|discriminate].
    injection E2 as -> <-. rewrite (bind_eq_ok _ _ _ x (sww w1 f)).
    + apply IH. exact E.
    + unfold modify, bind, load. cbn [sww w_heap]. rewrite Ei. unfold store in *. cbn [sww w_heap]. destruct (o <? length (w_heap w)); [injection E1 as <- <-; reflexivity|discriminate].
Qed.

Lemma sww_self w : sww w (r_py (w_rng w)) = w.
Proof. destruct w as [hp nx []]. reflexivity. Qed.

Lemma gkeep_trans w1 w2 w3 : gkeep w1 w2 -> gkeep w2 w3 -> gkeep w1 w3.
Proof. intros H K o i A. destruct (H o i A) as (j & B & E). destruct (K o j B) as (m & C & F). exists m. split; [exact C|congruence]. Qed.
Lemma gkeep_refl w : gkeep w w.
Proof. intros o i A. eauto. Qed.
Lemma hold_keep o g w w' : gkeep w w' -> holds o g w -> holds o g w'.
Proof. intros K (i & A & E). destruct (K o i A) as (j & B & F). exists j. split; [exact B|congruence]. Qed.
Lemma all_hold_keep l gs w w' : gkeep w w' -> all_hold l gs w -> all_hold l gs w'.
Proof. intros K H. induction H; constructor; auto. eapply hold_keep; eauto. Qed.
Section Next.
  Variables (G : genome -> Prop) (ev : genome -> res fval) (sched : nat -> list nat) (h : bool) (s : subpop).
  Hypothesis (Hnum : gives_numbers ev) (Htot : total_on G ev) (Hfair : fair sched).
  Hypothesis (Hhib : sp_hib s = HB h) (Hsize : 1 <= sp_size s).
  Hypothesis Har : forall n, In n (map sel_arity (sp_sels s) ++ map op_arity (sp_ops s)) -> n <> 0 /\ Nat.divide n (sp_size s).
  Hypothesis Hsel : exists sel sels, sp_sels s = sel :: sels /\ tournament_for (sp_size s) sel.
  Hypothesis Hop : Forall (closed_operator G) (sp_ops s).
  Variables (ops : list oper) (op : oper).
  Hypothesis (Eops : sp_ops s = ops ++ [op]) (Har1 : op_arity op = 1).
  Variable gs : list genome.
  Hypothesis (Lgs : length gs = sp_size s) (Hgs : Forall (reaches G op) gs).

  Notation going := (going G ev h s).
  Notation it := (generation_iteration ev sched).

  Lemma going_sww a w f : going a w -> going a (sww w f).
  Proof. intros H. eapply going_skip; [..|exact H]; try reflexivity. intros o i A. exists (i_gen i). rewrite set_gen_same. exact A. Qed.

  Lemma next_iteration a w : going a w -> exists a' w' l', it (a, w) = (Ok tt, (a', w')) /\ going a' w' /\
    evals (a_trace a') = evals (a_trace a) ++ [l'] /\ gkeep w w' /\ a_gen_seed a' = a_gen_seed a.
  Proof.
    intros H. destruct (go_pop _ _ _ _ _ _ H) as (l & P1 & P2 & P3 & P4).
    destruct (breed_total G h (with_inds s l) l w (score_of w)) as (l' & w1 & E1 & L1 & G1); auto.
    { intros o Ho. destruct (P4 o Ho). eapply scored_at; eauto. }
    change (with_inds (with_inds s l) l') with (with_inds s l') in E1. change (sp_size (with_inds s l)) with (sp_size s) in L1.
    rewrite <- P1 in E1. destruct (going_bred G ev sched h s Hnum Htot Hfair Hsize Har a w l' w1 H E1 L1 G1) as (a' & w' & E & H' & V & K & _ & Sd).
    exists a', w', l'. auto.
  Qed.

  Lemma again_iteration a w : going a w -> exists f, (forall z i, z <> r_pyseed (w_rng w) -> f z i = r_py (w_rng w) z i) /\
    exists a' w' l', it (a, sww w f) = (Ok tt, (a', w')) /\ going a' w' /\
    evals (a_trace a') = evals (a_trace a) ++ [l'] /\ gkeep w w' /\ a_gen_seed a' = a_gen_seed a /\ all_hold l' gs w'.
  Proof.
    intros H. destruct (go_pop _ _ _ _ _ _ H) as (l & P1 & P2 & P3 & P4).
    destruct (breed_again G h (with_inds s l) l w (score_of w) ops op gs) as (f & Hf & l' & w1 & E1 & A1); auto.
    { intros o Ho. destruct (P4 o Ho). eapply scored_at; eauto. }
    change (with_inds (with_inds s l) l') with (with_inds s l') in E1. exists f. split; [exact Hf|].
    pose proof (going_sww a w f H) as Hs.
    destruct (breed_total G h (with_inds s l) l (sww w f) (score_of w)) as (l0 & w0 & E0 & L0 & G0); auto.
    { intros o Ho. destruct (P4 o Ho). destruct (scored_at w h o ev Hnum) as [X Y]; auto. }
    change (with_inds (with_inds s l) l0) with (with_inds s l0) in E0. rewrite E1 in E0. injection E0 as <- <-.
    rewrite <- P1 in E1.
    destruct (going_bred G ev sched h s Hnum Htot Hfair Hsize Har a (sww w f) l' w1 Hs E1 L0 G0) as (a' & w' & E & H' & V & K & K1 & Sd).
    exists a', w', l'. repeat (split; [assumption|]). apply all_hold_keep with w1; assumption.
  Qed.

  Lemma body_from g a w : going a w -> let z := next_seed (a_gen_seed a) in exists w1,
    let a2 := set_gen_seed z (add_trace (TSeed z) (set_gen_num g a)) in let w2 := snd (liftR (set_seed z) w1) in
    regen w w1 /\ w_rng w1 = w_rng w /\ going a2 w2 /\
    forall f, body it g (a, sww w f) = (x <- it ;; should_terminate) (a2, sww w2 f).
  Proof.
    intros H z. destruct (go_pop _ _ _ _ _ _ H) as (l & P1 & P2 & P3 & P4).
    destruct (iter_gen g l w (genomes_present _ _ _ P3)) as (w1 & E1 & R1).
    exists w1. cbv zeta. split; [exact R1|]. split; [|split].
    { clear - E1. revert w E1. induction l as [|o l IH]; intros w E1; cbn [iterM] in E1; [mr E1; reflexivity|]. mb E1 as x w2 E2. rewrite (IH _ E1).
      unfold modify in E2. mb E2 as i w3 E3. unfold load in E3. destruct (nth_error _ _); [|discriminate]. injection E3 as -> <-. unfold store in E2.
      destruct (_ <? _); [injection E2 as _ <-; reflexivity|discriminate]. }
    - eapply going_skip; [..|exact H]; try reflexivity.
      + cbn. rewrite evals_app. cbn. apply app_nil_r.
      + etransitivity; [exact R1|]. apply regen_frame. apply liftR_frame.
    - intros f. unfold body. erewrite bind_eq_ok; [|reflexivity]. cbn [fst snd].
      erewrite bind_eq_ok.
      2:{ unfold update_gen. erewrite bind_eq_ok; [|reflexivity]. cbn [fst snd a_pop set_gen_num]. rewrite P1.
          cbn [flat_map]. rewrite app_nil_r. unfold liftM. cbn [fst snd]. change (inds_of (with_inds s l)) with l. rewrite (iter_gen_sww _ _ f _ _ _ E1). reflexivity. }
      erewrite bind_eq_ok; [|reflexivity]. cbn [fst snd a_gen_seed set_gen_num]. fold z.
      erewrite bind_eq_ok.
      2:{ unfold seed_generators. erewrite bind_eq_ok; [|unfold liftM; cbn [fst snd]; reflexivity]. reflexivity. }
      erewrite bind_eq_ok; [|reflexivity]. reflexivity.
  Qed.

  Lemma terminate_next a w : going a w -> exists st a', should_terminate (a, w) = (Ok st, (a', w)) /\ going a' w /\ evals (a_trace a') = evals (a_trace a) /\ a_gen_seed a' = a_gen_seed a.
  Proof.
    intros H. destruct (going_terminate G ev h s Hnum Hhib Hsize a w H) as (st & a' & E & H'). exists st, a'. split; [exact E|]. split; [exact H'|].
    apply terminate_ok in E. destruct E as (_ & best & ans & cs & _ & _ & -> & _). split; [|reflexivity]. cbn. rewrite evals_app. cbn. apply app_nil_r.
  Qed.

  Lemma next_body g a w : going a w -> exists st a' w' l', body it g (a, w) = (Ok st, (a', w')) /\ going a' w' /\
    evals (a_trace a') = evals (a_trace a) ++ [l'] /\ gkeep w w' /\ a_gen_seed a' = next_seed (a_gen_seed a).
  Proof.
    intros H. destruct (body_from g a w H) as (w1 & R1 & Rr & H2 & B). destruct (next_iteration _ _ H2) as (a3 & w3 & l' & E3 & H3 & V3 & K3 & S3).
    destruct (terminate_next a3 w3 H3) as (st & a4 & E4 & H4 & V4 & S4). exists st, a4, w3, l'. split; [|split; [exact H4|split; [|split]]].
    - specialize (B (r_py (w_rng w))). rewrite sww_self in B. rewrite B. rewrite <- Rr.
      change (r_py (w_rng w1)) with (r_py (w_rng (snd (liftR (set_seed (next_seed (a_gen_seed a))) w1)))). rewrite sww_self, (bind_eq_ok _ _ _ _ _ E3). exact E4.
    - rewrite V4, V3. f_equal. cbn. rewrite evals_app. cbn. apply app_nil_r.
    - eapply gkeep_trans; [apply regen_gkeep; exact R1|]. exact K3.
    - rewrite S4, S3. reflexivity.
  Qed.

  Lemma again_body g a w : going a w -> exists f, (forall z i, z <> next_seed (a_gen_seed a) -> f z i = r_py (w_rng w) z i) /\
    exists st a' w' l', body it g (a, sww w f) = (Ok st, (a', w')) /\ going a' w' /\
    evals (a_trace a') = evals (a_trace a) ++ [l'] /\ gkeep w w' /\ a_gen_seed a' = next_seed (a_gen_seed a) /\ all_hold l' gs w'.
  Proof.
    intros H. destruct (body_from g a w H) as (w1 & R1 & Rr & H2 & B). destruct (again_iteration _ _ H2) as (f & Hf & a3 & w3 & l' & E3 & H3 & V3 & K3 & S3 & A3).
    exists f. split; [intros z i N; rewrite (Hf z i N); cbn; rewrite Rr; reflexivity|].
    destruct (terminate_next a3 w3 H3) as (st & a4 & E4 & H4 & V4 & S4). exists st, a4, w3, l'. split; [|split; [exact H4|split; [|split; [|split; [|exact A3]]]]].
    - rewrite B, (bind_eq_ok _ _ _ _ _ E3). exact E4.
    - rewrite V4, V3. f_equal. cbn. rewrite evals_app. cbn. apply app_nil_r.
    - eapply gkeep_trans; [apply regen_gkeep; exact R1|]. exact K3.
    - rewrite S4, S3. reflexivity.
  Qed.

  (** ** The rest of the run *)

  Lemma publish_next nm a w : going a w -> exists a', publish nm (a, w) = (Ok tt, (a', w)) /\ going a' w /\ evals (a_trace a') = evals (a_trace a) /\ a_gen_seed a' = a_gen_seed a.
  Proof.
    intros H. destruct (going_publish G ev h s nm a w H) as (a' & E & H'). exists a'. split; [exact E|]. split; [exact H'|].
    rewrite publish_eq in E. injection E as <-. cbn [a_trace add_trace a_gen_seed]. rewrite evals_app. split; [apply app_nil_r|reflexivity].
  Qed.

  Lemma next_loop todo : forall g a w, going a w -> exists a' w' rest, main_loop it todo g (a, w) = (Ok tt, (a', w')) /\ going a' w' /\
    evals (a_trace a') = evals (a_trace a) ++ rest /\ gkeep w w'.
  Proof.
    induction todo as [|todo IH]; intros g a w H; [exists a, w, []; split; [reflexivity|split; [exact H|split; [symmetry; apply app_nil_r|apply gkeep_refl]]]|].
    destruct (next_body g a w H) as (st & a1 & w1 & l1 & E1 & H1 & V1 & K1 & S1). rewrite main_loop_body, (bind_eq_ok _ _ _ _ _ E1). destruct st.
    - destruct (publish_next "after_generation" (set_final (Some g) a1) w1) as (a2 & E2 & H2 & V2 & _).
      { eapply going_skip; [..|apply regen_refl|exact H1]; reflexivity. }
      exists a2, w1, [l1]. split; [erewrite bind_eq_ok; [|reflexivity]; exact E2|]. split; [exact H2|]. split; [rewrite V2; exact V1|exact K1].
    - destruct (publish_next "after_generation" a1 w1 H1) as (a2 & E2 & H2 & V2 & _).
      destruct (IH (S g) a2 w1 H2) as (a3 & w3 & rest & E3 & H3 & V3 & K3).
      exists a3, w3, (l1 :: rest). split; [rewrite (bind_eq_ok _ _ _ _ _ E2); exact E3|]. split; [exact H3|].
      split; [rewrite V3, V2, V1, <- app_assoc; reflexivity|]. eapply gkeep_trans; eauto.
  Qed.

  Fixpoint later (z : Z) (n : nat) : Z := match n with O => z | S n => later (next_seed z) n end.

  Lemma blind_body t g : forall a w st a' w', body it g (a, w) = (Ok st, (a', w')) -> r_pyseed (w_rng w) <> t -> next_seed (a_gen_seed a) <> t ->
    r_pyseed (w_rng w') <> t /\ r_py (w_rng w') = r_py (w_rng w) /\
    forall f, (forall z i, z <> t -> f z i = r_py (w_rng w) z i) -> body it g (a, sww w f) = (Ok st, (a', sww w' f)).
  Proof.
    intros a w st a' w' E N Nz. unfold body in E. mb E as x1 s1 E1. injection E1 as <- <-. mb E as x2 s2 E2. destruct s2 as [a2 w2].
    assert (Ea : a_gen_seed a2 = a_gen_seed a).
    { unfold update_gen in E2. mb E2 as x sx E0. injection E0 as <- <-. la E2. reflexivity. }
    mb E as x3 s3 E3. injection E3 as <- <-. cbn [fst] in E. rewrite Ea in E.
    assert (B2 : blindA t (seed_generators (next_seed (a_gen_seed a)) ;;; algo_mod (set_gen_seed (next_seed (a_gen_seed a))) ;;; it ;;; should_terminate)).
    { apply blind_bind; [apply blind_seed; exact Nz|]. intros _. apply local_blind. loc. apply local_iteration. }
    destruct (local_blind _ _ _ t _ (local_update g) _ _ _ E2 N) as (N2 & P2 & K2).
    destruct (B2 _ _ _ E N2) as (N3 & P3 & K3). cbn [fst snd] in *. split; [exact N3|]. split; [rewrite P3; exact P2|]. intros f Hf.
    unfold body. erewrite bind_eq_ok; [|reflexivity]. specialize (K2 f Hf). unfold swa in K2 at 1 2. cbn [fst snd] in K2.
    erewrite bind_eq_ok; [|exact K2]. erewrite bind_eq_ok; [|reflexivity]. cbn [fst]. rewrite Ea. apply (K3 f). intros z i Hz. rewrite P2. apply Hf, Hz.
  Qed.

  Lemma again_loop mid : forall todo g a w a' w' l after, going a w -> main_loop it todo g (a, w) = (Ok tt, (a', w')) ->
    evals (a_trace a') = evals (a_trace a) ++ mid ++ l :: after ->
    let t := later (a_gen_seed a) (S (length mid)) in r_pyseed (w_rng w) <> t -> (forall j, 1 <= j <= length mid -> later (a_gen_seed a) j <> t) ->
    exists f, (forall z i, z <> t -> f z i = r_py (w_rng w) z i) /\
    exists a'' w'' l' after', main_loop it todo g (a, sww w f) = (Ok tt, (a'', w'')) /\ going a'' w'' /\
      evals (a_trace a'') = evals (a_trace a) ++ mid ++ l' :: after' /\ all_hold l' gs w'' /\ gkeep w w'' /\
      forall o x, In o (concat (evals (a_trace a) ++ mid)) -> holds o x w' -> holds o x w''.
  Proof.
    induction mid as [|m mid IH]; intros todo g a w a' w' l after H E V t Nt Nj.
    - destruct todo as [|todo]; [cbn in E; injection E as <- <-; rewrite <- (app_nil_r (evals (a_trace a))) in V at 1; apply app_inv_head in V; discriminate|].
      destruct (again_body g a w H) as (f & Hf & st & a1 & w1 & l1 & E1 & H1 & V1 & K1 & S1 & A1). exists f. split; [exact Hf|].
      assert (R : exists a'' w'' rest, main_loop it (S todo) g (a, sww w f) = (Ok tt, (a'', w'')) /\ going a'' w'' /\
        evals (a_trace a'') = evals (a_trace a) ++ l1 :: rest /\ gkeep w1 w'').
      { rewrite main_loop_body, (bind_eq_ok _ _ _ _ _ E1). destruct st.
        - destruct (publish_next "after_generation" (set_final (Some g) a1) w1) as (a2 & E2 & H2 & V2 & _).
          { eapply going_skip; [..|apply regen_refl|exact H1]; reflexivity. }
          exists a2, w1, []. split; [erewrite bind_eq_ok; [|reflexivity]; exact E2|]. split; [exact H2|]. split; [rewrite V2; exact V1|apply gkeep_refl].
        - destruct (publish_next "after_generation" a1 w1 H1) as (a2 & E2 & H2 & V2 & _).
          destruct (next_loop todo (S g) a2 w1 H2) as (a3 & w3 & rest & E3 & H3 & V3 & K3).
          exists a3, w3, rest. split; [rewrite (bind_eq_ok _ _ _ _ _ E2); exact E3|]. split; [exact H3|].
          split; [rewrite V3, V2, V1, <- app_assoc; reflexivity|exact K3]. }
      destruct R as (a2 & w2 & rest & E2 & H2 & V2 & K2). exists a2, w2, l1, rest. split; [exact E2|]. split; [exact H2|]. split; [exact V2|].
      split; [apply all_hold_keep with w1; assumption|]. split; [eapply gkeep_trans; eauto|].
      intros o x Ho (i & Hi & Ex). rewrite app_nil_r in Ho. apply in_concat in Ho. destruct Ho as (lo & Hlo & Ho).
      destruct (go_evals _ _ _ _ _ _ H lo Hlo) as [_ Gl]. destruct (Gl o Ho) as (i0 & A0 & _).
      destruct (next_loop (S todo) g a w H) as (a3 & w3 & r3 & E3 & _ & _ & K3). rewrite E in E3. injection E3 as <- <-.
      destruct (K3 o i0 A0) as (i1 & A1' & Q1). destruct (K1 o i0 A0) as (i2 & A2 & Q2). destruct (K2 o i2 A2) as (i3 & A3 & Q3).
      exists i3. split; [exact A3|]. rewrite Hi in A1'. injection A1' as <-. congruence.
    - destruct todo as [|todo]; [cbn in E; injection E as <- <-; rewrite <- (app_nil_r (evals (a_trace a))) in V at 1; apply app_inv_head in V; discriminate|].
      destruct (next_body g a w H) as (st & a1 & w1 & l1 & E1 & H1 & V1 & K1 & S1).
      rewrite main_loop_body, (bind_eq_ok _ _ _ _ _ E1) in E. destruct st.
      { destruct (publish_next "after_generation" (set_final (Some g) a1) w1) as (a2 & E2 & H2 & V2 & _).
        { eapply going_skip; [..|apply regen_refl|exact H1]; reflexivity. }
        rewrite (bind_eq_ok (algo_mod (set_final (Some g))) _ (a1, w1) tt (set_final (Some g) a1, w1) eq_refl) in E. rewrite E2 in E. injection E as <- <-. rewrite V2 in V. cbn [a_trace set_final] in V. rewrite V1 in V.
        apply app_inv_head in V. destruct mid; discriminate. }
      destruct (publish_next "after_generation" a1 w1 H1) as (a2 & E2 & H2 & V2 & S2). rewrite (bind_eq_ok _ _ _ _ _ E2) in E.
      assert (Em : l1 = m).
      { destruct (next_loop todo (S g) a2 w1 H2) as (a3 & w3 & rest & E3 & _ & V3 & _). rewrite E in E3. injection E3 as <- <-.
        rewrite V3, V2, V1, <- app_assoc in V. apply app_inv_head in V. injection V as V _. exact V. }
      subst l1.
      destruct (blind_body t g a w false a1 w1 E1 Nt) as (N1 & P1 & B1). { apply (Nj 1). simpl. lia. }
      assert (Sd : a_gen_seed a2 = next_seed (a_gen_seed a)) by congruence.
      destruct (IH todo (S g) a2 w1 a' w' l after H2 E) as (f & Hf & a3 & w3 & l' & after' & E3 & H3 & V3 & A3 & K3 & O3).
      { rewrite V, V2, V1, <- !app_assoc. reflexivity. }
      { rewrite Sd. exact N1. } { intros j Hj. rewrite Sd. apply (Nj (S j)). simpl. lia. }
      rewrite Sd in Hf. exists f. split; [intros z i Hz; rewrite (Hf z i Hz), P1; reflexivity|].
      exists a3, w3, l', after'. split.
      { rewrite main_loop_body. rewrite (bind_eq_ok _ _ _ _ _ (B1 f ltac:(intros z i Hz; rewrite (Hf z i Hz), P1; reflexivity))).
        rewrite publish_eq in E2. injection E2 as E2. rewrite (bind_eq_ok _ _ _ _ _ (publish_eq _ _ _)).
        replace (match a_best_run a1 with Some o => at_ (sww w1 f) o | None => None end) with (match a_best_run a1 with Some o => at_ w1 o | None => None end) by reflexivity.
        rewrite E2. exact E3. }
      split; [exact H3|]. split; [rewrite V3, V2, V1, <- !app_assoc; reflexivity|]. split; [exact A3|]. split; [eapply gkeep_trans; eauto|].
      intros o x Ho. apply O3. rewrite V2, V1, <- app_assoc. exact Ho.
  Qed.
End Next.

(** ** Whole runs *)

Lemma later_seed a k : later (a_gen_seed a) (S k) = seed_at a (S k).
Proof.
  unfold seed_at. change (2 ^ 32)%Z with 4294967296%Z. assert (H : forall n z, later z (S n) = ((z + Z.of_nat (S n)) mod 4294967296)%Z).
  { induction n as [|n IH]; intros z; [reflexivity|]. change (later z (S (S n))) with (later (next_seed z) (S n)). rewrite IH. unfold next_seed.
    rewrite Zplus_mod_idemp_l. f_equal. lia. }
  apply H.
Qed.

Lemma seeds_differ z j k : j < k -> (Z.of_nat k < 2 ^ 32)%Z -> ((z + Z.of_nat j) mod 2 ^ 32 <> (z + Z.of_nat k) mod 2 ^ 32)%Z.
Proof.
  intros L B E. pose proof (Z.div_mod (z + Z.of_nat j) (2 ^ 32) ltac:(lia)) as D1. pose proof (Z.div_mod (z + Z.of_nat k) (2 ^ 32) ltac:(lia)) as D2.
  rewrite E in D1. nia.
Qed.

Lemma init_blind ev sched n a w a1 w1 t : initialize ev sched n (a, w) = (Ok tt, (a1, w1)) -> a_random_seed a <> t ->
  r_pyseed (w_rng w1) <> t /\ r_py (w_rng w1) = r_py (w_rng w) /\
  forall f, (forall z i, z <> t -> f z i = r_py (w_rng w) z i) -> initialize ev sched n (a, sww w f) = (Ok tt, (a1, sww w1 f)).
Proof.
  intros E N. unfold initialize in E. rewrite (bind_eq_ok algo_get _ (a, w) a (a, w) eq_refl) in E.
  rewrite (bind_eq_ok (seed_generators (a_random_seed a)) _ (a, w) tt (add_trace (TSeed (a_random_seed a)) a, snd (liftR (set_seed (a_random_seed a)) w)) eq_refl) in E.
  match type of E with ?m _ = _ => assert (B : localA m) end.
  { loc. apply local_liftM. loc. apply local_create. }
  destruct (local_blind _ _ _ t _ B _ _ _ E) as (N1 & P1 & K). { exact N. }
  split; [exact N1|]. split; [exact P1|]. intros f Hf. unfold initialize. rewrite (bind_eq_ok algo_get _ (a, sww w f) a (a, sww w f) eq_refl).
  rewrite (bind_eq_ok (seed_generators (a_random_seed a)) _ (a, sww w f) tt (add_trace (TSeed (a_random_seed a)) a, snd (liftR (set_seed (a_random_seed a)) (sww w f))) eq_refl).
  exact (K f Hf).
Qed.

Lemma again_run G ev sched h s n a w ops op gs a' w' before l after : gives_numbers ev -> total_on G ev -> fair sched -> a_trace a = [] ->
  configured h a w s -> closed_under G w s -> (forall g, G g -> printable g) ->
  sp_ops s = ops ++ [op] -> op_arity op = 1 -> length gs = sp_size s -> Forall (reaches G op) gs ->
  evolve ev sched n (a, w) = (Ok tt, (a', w')) -> evals (a_trace a') = before ++ l :: after -> before <> [] ->
  (Z.of_nat (length before) < 2 ^ 32)%Z -> a_random_seed a <> seed_at a (length before) ->
  exists g a'' w'' l' after', other_stream (seed_at a (length before)) (w_rng w) g /\ evolve ev sched n (a, with_rng w g) = (Ok tt, (a'', w'')) /\
    evals (a_trace a'') = before ++ l' :: after' /\ (forall o, In o (concat before) -> genome_now w'' o = genome_now w' o) /\
    Forall2 (fun o x => genome_now w'' o = Some x) l' gs.
Proof.
  intros Hnum Htot Hfair Htr C K Pr Eo Ha Lg Hr E V Nb Lk Nr.
  pose proof (cf_hib _ _ _ _ C) as Hhib. pose proof (cf_size _ _ _ _ C) as Hsize.
  pose proof (cf_arities _ _ _ _ C) as Har. pose proof (cf_sel _ _ _ _ C) as Hsel. pose proof (proj1 K) as Hop.
  destruct (init_going G ev sched h s n a w Hnum Htot Hfair Htr C K) as (a1 & w1 & l0 & Ei & H1 & _ & V1 & _).
  assert (E0 := E). unfold evolve in E0. apply evolve_ok in E0. destruct E0 as (a1' & w1' & st & a2 & a3 & w3 & F1 & F2 & F3 & F4).
  rewrite Ei in F1. injection F1 as <- <-. apply finish_ok in F4. destruct F4 as [Ea3 Ew3].
  destruct (terminate_next G ev h s Hnum Hhib Hsize a1 w1 H1) as (st' & a2' & E2 & H2 & V2 & S2). rewrite F2 in E2. injection E2 as <- <-.
  assert (V3 : evals (a_trace a') = evals (a_trace a3)).
  { rewrite Ea3. cbn. rewrite evals_app. cbn. apply app_nil_r. }
  assert (S1 : a_gen_seed a1 = a_gen_seed a). { apply init_ok in Ei. destruct Ei as (pop & w2 & best & _ & _ & ->). reflexivity. }
  destruct before as [|b0 mid]; [congruence|].
  destruct st.
  { destruct F3 as [-> _]. rewrite V3 in V. cbn [a_trace add_trace] in V. rewrite evals_app in V. cbn in V. rewrite app_nil_r in V.
    change (evals (a_trace a2) = b0 :: mid ++ l :: after) in V. rewrite V2, V1 in V. destruct mid; discriminate. }
  assert (Eb : b0 = l0).
  { destruct (next_loop G ev sched h s Hnum Htot Hfair Hhib Hsize Har Hsel Hop (a_max_gen a2) 1 a2 w1 H2) as (x & y & rest & Q & _ & Vr & _).
    rewrite F3 in Q. injection Q as <- <-. rewrite V3, Vr, V2, V1 in V. injection V as <- _. reflexivity. }
  subst b0. cbn [length] in *. rewrite <- later_seed in Nr |- *.
  destruct (init_blind ev sched n a w a1 w1 _ Ei Nr) as (N1 & P1 & B1).
  destruct (again_loop G ev sched h s Hnum Htot Hfair Hhib Hsize Har Hsel Hop ops op Eo Ha gs Lg Hr mid (a_max_gen a2) 1 a2 w1 a3 w3 l after H2 F3)
    as (f & Hf & a4 & w4 & l' & after' & E4 & H4 & V4 & A4 & K4 & O4).
  { rewrite <- V3, V, V2, V1. reflexivity. }
  { rewrite S2, S1. exact N1. }
  { intros [|j] Hj; [lia|]. rewrite S2, S1, !later_seed. apply seeds_differ; [lia|]. exact Lk. }
  rewrite S2, S1 in Hf. rewrite P1 in Hf.
  destruct (run_completes G ev sched h s n a (sww w f) Hnum Htot Hfair Htr) as (a5 & w5 & E5 & _).
  { apply (configured_rng h a w s (swr (w_rng w) f)), C. } { exact K. } { exact Pr. }
  assert (E6 := E5). unfold evolve in E6. apply evolve_ok in E6. destruct E6 as (b1 & v1 & st & b2 & b3 & v3 & Q1 & Q2 & Q3 & Q4).
  rewrite (B1 f Hf) in Q1. injection Q1 as <- <-.
  assert (T : should_terminate (a1, sww w1 f) = (Ok false, (a2, sww w1 f))).
  { destruct (local_terminate _ _ _ F2) as (_ & _ & _ & Kt). apply (Kt f). cbn [snd]. intros i Hi. lia. }
  rewrite T in Q2. injection Q2 as <- <-. cbv iota in Q3. rewrite E4 in Q3. injection Q3 as <- <-. apply finish_ok in Q4. destruct Q4 as [Eb3 Ev3].
  exists (swr (w_rng w) f), a5, w5, l', after'. split.
  { repeat (split; [reflexivity|]). exact Hf. }
  split; [exact E5|]. split.
  { rewrite Eb3. cbn. rewrite evals_app. cbn. rewrite app_nil_r, V4, V2, V1. reflexivity. }
  rewrite Ev3, Ew3. split.
  - intros o Ho. assert (Hb : exists i, at_ w3 o = Some i).
    { destruct (next_loop G ev sched h s Hnum Htot Hfair Hhib Hsize Har Hsel Hop (a_max_gen a2) 1 a2 w1 H2) as (x & y & rest & Q & Hx & _ & _).
      rewrite F3 in Q. injection Q as <- <-. apply in_concat in Ho. destruct Ho as (lo & Hlo & Ho).
      destruct (go_evals _ _ _ _ _ _ Hx lo) as [_ Gl]; [rewrite <- V3, V; apply in_app_iff; left; exact Hlo|]. destruct (Gl o Ho) as (i & Hi & _). eauto. }
    destruct Hb as (i & Hi). unfold genome_now. rewrite Hi. destruct (O4 o (i_genome i)) as (j & Hj & Ej).
    + rewrite V2, V1. exact Ho.
    + exists i. auto.
    + rewrite Hj. cbn. rewrite Ej. reflexivity.
  - clear - A4. induction A4 as [|o x l' gs (i & Hi & Ex) A IH]; constructor; [|exact IH]. unfold genome_now. rewrite Hi. cbn. rewrite Ex. reflexivity.
Qed.

(** ** Vectors *)

Lemma redraw_step m n v c : redraws m n (vsize v) -> search_space (v_kind v) (v_bounds v) (vsize v) c -> step m n v c.
Proof.
  intros Hr Hs. split; [apply Hs|]. exists (seq 0 (vsize v)). split; [apply seq_NoDup|]. split; [rewrite seq_length; destruct m; cbn in Hr; auto; contradiction|].
  split; [intros i Hi; apply in_seq in Hi; lia|]. intros i x y Hx Hy. split.
  - intros _. pose proof (space_drawable v c i y Hs Hy) as D. destruct m; cbn in *; auto; contradiction.
  - intros N. exfalso. apply N, in_seq. assert (i < length (v_cells v)) by (apply nth_error_Some; congruence). unfold vsize. lia.
Qed.

Lemma vectors_reached k b len op m n c : vector_operator k b len op -> op_kind op = OVecMut m n -> can_happen (op_prob op) -> redraws m n len ->
  (k = KFloat -> wide b) -> search_space k b len c -> reaches (vectors k b len) op (GVec (mkVec k b len c)).
Proof.
  intros Ho Hk Hp Hr Hw Hs g (v & -> & Sv & Kv & Bv & Lv) o. unfold vector_operator in Ho. rewrite Hk in Ho.
  destruct Ho as [(Ha & D & _)|(Gm & _)]; [|destruct m; cbn in *; contradiction].
  destruct (mutation_goes op m n o v c Hk Ha Hp Sv) as (ds & Go).
  { unfold draws_inside in *. cbn [v_kind v_bounds] in D. rewrite Kv, Bv. exact D. } { rewrite Kv, Bv. exact Hw. }
  { apply redraw_step; [rewrite Lv; exact Hr|rewrite Kv, Bv, Lv; exact Hs]. }
  exists ds. assert (E : with_cells v c = mkVec k b len c). { destruct Sv as (L & _). unfold with_cells. rewrite Kv, Bv, L, Lv. reflexivity. }
  rewrite E in Go. exact Go.
Qed.

Lemma now_all k b len w l cs : Forall2 (fun o x => genome_now w o = Some x) l (map (fun c => GVec (mkVec k b len c)) cs) -> Forall2 (fun o c => vec_at w o (mkVec k b len c)) l cs.
Proof.
  revert cs. induction l as [|o l IH]; intros [|c cs] H; inversion H; subst; constructor; auto.
  unfold genome_now in *. destruct (at_ w o) as [i|] eqn:Ei; [|discriminate]. exists i. split; [exact Ei|]. match goal with H : _ = Some _ |- _ => injection H as H end. assumption.
Qed.

Lemma C98_vectors k b len ev sched h s n a w cs ops op m j a' w' before l after : gives_numbers ev -> total_on (vectors k b len) ev -> fair sched -> a_trace a = [] ->
  configured h a w s -> Forall (vector_operator k b len) (sp_ops s) ->
  match sp_inds s with Some l => genomes_in (vectors k b len) l w | None => Forall (vector_creator k b len) (sp_creators s) end ->
  (k = KFloat -> wide b) -> sp_ops s = ops ++ [op] -> op_kind op = OVecMut m j -> op_arity op = 1 -> can_happen (op_prob op) -> redraws m j len ->
  evolve ev sched n (a, w) = (Ok tt, (a', w')) -> evals (a_trace a') = before ++ l :: after -> before <> [] ->
  (Z.of_nat (length before) < 2 ^ 32)%Z -> a_random_seed a <> seed_at a (length before) ->
  length cs = sp_size s -> Forall (search_space k b len) cs ->
  exists g a'' w'' l' after', other_stream (seed_at a (length before)) (w_rng w) g /\ evolve ev sched n (a, with_rng w g) = (Ok tt, (a'', w'')) /\
    evals (a_trace a'') = before ++ l' :: after' /\ (forall o, In o (concat before) -> genome_now w'' o = genome_now w' o) /\
    Forall2 (fun o c => vec_at w'' o (mkVec k b len c)) l' cs.
Proof.
  intros Hn Ht Hf Htr C Ho Hi Hw Eo Hk Ha Hp Hr E V Nb Lk Nr Lc Hc.
  destruct (again_run (vectors k b len) ev sched h s n a w ops op (map (fun c => GVec (mkVec k b len c)) cs) a' w' before l after) as (g & a2 & w2 & l' & after' & H1 & H2 & H3 & H4 & H5); auto.
  { split; [eapply Forall_impl; [|exact Ho]; intros x; apply vector_closed|]. destruct (sp_inds s); [exact Hi|]. rewrite Forall_forall in Hi. intros c Ic. apply vector_creator_closed. auto. }
  { intros g (v & -> & _). exact I. } { rewrite map_length. exact Lc. }
  { apply Forall_forall. intros x Hx. apply in_map_iff in Hx. destruct Hx as (c & <- & Ic). rewrite Forall_forall in Hc. eapply vectors_reached; eauto.
    rewrite Forall_forall in Ho. apply Ho. rewrite Eo. apply in_app_iff. right. left. reflexivity. }
  exists g, a2, w2, l', after'. repeat (split; [assumption|]). apply now_all. exact H5.
Qed.

(** ** Bit strings *)

Lemma bits_step p v c : can_happen p -> can_fail p -> bit_string v -> is_bits c -> length c = vsize v -> step (MBitNFlip p) (vsize v) v c.
Proof.
  intros Hp Hq (K & B & L & Iv) Ic Lc. split; [exact Lc|]. exists (seq 0 (vsize v)). split; [apply seq_NoDup|]. split; [apply seq_length|].
  split; [intros i Hi; apply in_seq in Hi; lia|]. intros i x y Hx Hy. split.
  - intros _. unfold is_bits in *. rewrite Forall_forall in Iv, Ic. pose proof (Iv x (nth_error_In _ _ Hx)) as Bx. pose proof (Ic y (nth_error_In _ _ Hy)) as By.
    cbn. destruct Bx as [->| ->], By as [->| ->]; auto; left; (split; [exact Hp|]); exists (Fin 0), (Fin 1); (split; [exact B|]); split; intros X; try reflexivity; discriminate.
  - intros N. exfalso. apply N, in_seq. assert (i < length (v_cells v)) by (apply nth_error_Some; congruence). unfold vsize. lia.
Qed.

Lemma bits_reached len op p c : op_kind op = OVecMut (MBitNFlip p) len -> 1 <= op_attempts op -> can_happen (op_prob op) -> can_happen p -> can_fail p ->
  is_bits c -> length c = len -> reaches (bit_genomes len) op (GVec (mkVec KBit (BPair (Fin 0) (Fin 1)) len c)).
Proof.
  intros Hk Ha Hp H1 H2 Hc Lc g (v & -> & Bv & Lv) o.
  destruct (mutation_goes op (MBitNFlip p) len o v c Hk Ha Hp (bit_sound v Bv)) as (ds & Go).
  { apply bit_inside; [exact I|exact Bv]. } { destruct Bv as (-> & _). discriminate. }
  { rewrite <- Lv. apply bits_step; auto. congruence. }
  exists ds. assert (E : with_cells v c = mkVec KBit (BPair (Fin 0) (Fin 1)) len c). { destruct Bv as (K & B & L & _). unfold with_cells. rewrite K, B, L, Lv. reflexivity. }
  rewrite E in Go. exact Go.
Qed.

Lemma C98_bits len ev sched h s n a w cs ops op p a' w' before l after : gives_numbers ev -> total_on (bit_genomes len) ev -> fair sched -> a_trace a = [] ->
  configured h a w s -> Forall (bit_operator len) (sp_ops s) ->
  match sp_inds s with
  | Some l => genomes_in (bit_genomes len) l w
  | None => forall c, In c (sp_creators s) -> exists fc upd, c = CVector len (BPair (Fin 0) (Fin 1)) KBit fc upd
  end ->
  sp_ops s = ops ++ [op] -> op_kind op = OVecMut (MBitNFlip p) len -> op_arity op = 1 -> can_happen (op_prob op) -> can_happen p -> can_fail p ->
  evolve ev sched n (a, w) = (Ok tt, (a', w')) -> evals (a_trace a') = before ++ l :: after -> before <> [] ->
  (Z.of_nat (length before) < 2 ^ 32)%Z -> a_random_seed a <> seed_at a (length before) ->
  length cs = sp_size s -> Forall (fun c => is_bits c /\ length c = len) cs ->
  exists g a'' w'' l' after', other_stream (seed_at a (length before)) (w_rng w) g /\ evolve ev sched n (a, with_rng w g) = (Ok tt, (a'', w'')) /\
    evals (a_trace a'') = before ++ l' :: after' /\ (forall o, In o (concat before) -> genome_now w'' o = genome_now w' o) /\
    Forall2 (fun o c => vec_at w'' o (mkVec KBit (BPair (Fin 0) (Fin 1)) len c)) l' cs.
Proof.
  intros Hn Ht Hf Htr C Ho Hi Eo Hk Ha Hp H1 H2 E V Nb Lk Nr Lc Hc.
  assert (Ha1 : 1 <= op_attempts op). { rewrite Eo in Ho. apply Forall_app in Ho. destruct Ho as [_ Ho]. inversion Ho as [|? ? Hb _]; subst. unfold bit_operator in Hb. rewrite Hk in Hb. apply Hb. }
  destruct (again_run (bit_genomes len) ev sched h s n a w ops op (map (fun c => GVec (mkVec KBit (BPair (Fin 0) (Fin 1)) len c)) cs) a' w' before l after)
    as (g & a2 & w2 & l' & after' & R1 & R2 & R3 & R4 & R5); auto.
  { split; [eapply Forall_impl; [|exact Ho]; intros x; apply bits_closed|]. destruct (sp_inds s); [exact Hi|]. intros c Ic. destruct (Hi c Ic) as (fc & upd & ->). apply bits_created. }
  { intros g (v & -> & _). exact I. } { rewrite map_length. exact Lc. }
  { apply Forall_forall. intros x Hx. apply in_map_iff in Hx. destruct Hx as (c & <- & Ic). rewrite Forall_forall in Hc. destruct (Hc c Ic). eapply bits_reached; eauto. }
  exists g, a2, w2, l', after'. repeat (split; [assumption|]). apply now_all. exact R5.
Qed.

(** ** Programs *)

Lemma all_untyped fset rt : over fset (flatten rt) -> (forall f, In f fset -> f_ret f = None) -> well_typed rt -> delivers (label rt) = None ->
  forall n, In n (flatten rt) -> delivers n = None.
Proof.
  intros Ov Hf. induction rt as [m ks IH] using rose_ind. intros [Hm Hk] Hd n [<-|Hn]; [exact Hd|]. cbn in Hd. destruct m as [f|v a]; [|subst ks; destruct Hn].
  destruct Hm as [Hh Hp]. apply in_flat_map in Hn. destruct Hn as (k & Ik & In_). rewrite All_In in IH, Hk. apply (IH k Ik); auto.
  - intros g Hg. apply Ov. right. apply in_flat_map. exists k. auto.
  - destruct Hh as [Hh|Hh].
    + exfalso. apply (Hh (f_ret f)); [apply in_or_app; right; left; reflexivity|exact Hd].
    + apply Hh, in_or_app. left. rewrite <- Hp. apply in_map_iff. exists k. auto.
Qed.

Lemma programs_reached t0 (Q : node -> Prop) op mn mx r : op_kind op = OSubtreeMut mn mx -> 1 <= op_attempts op -> can_happen (op_prob op) ->
  (forall f, In f (t_fset t0) -> hinted f) -> untyped t0 -> clear_terminals t0 None -> (forall e, t_erc t0 = Some e -> erc_proper e) ->
  program t0 mn (Nat.max mn mx) 0 None r -> reaches (trees_of t0 Q) op (GTree (with_nodes t0 (flatten r))).
Proof.
  intros Hk Ha Hp Hh [Hr0 HQ] Hcl He Hr g (( t & rt & -> & (F & T & Er & Rt) & Ov & Hs & E & Wt & Dr ) & Hq) o.
  assert (Hn : forall n, In n (t_nodes t) -> delivers n = None) by (rewrite <- E; apply (all_untyped (t_fset t0)); [rewrite <- F, E; exact Ov|exact HQ|exact Wt|congruence]).
  assert (Hc : complete_tree t). { split; [exact Ov|]. split; [rewrite F; exact Hh|]. exists rt. auto. }
  destruct (flatten_hd rt) as (rest & Eh).
  assert (Hroot : delivers (label rt) = None) by (apply Hn; rewrite <- E, Eh; left; reflexivity).
  assert (Et : with_nodes t0 (flatten r) = with_nodes t (flatten r)). { unfold with_nodes. rewrite F, T, Er, Rt. reflexivity. }
  destruct (subtree_goes op mn mx o t (with_nodes t (flatten r)) Hk Ha Hp Hc) as (ds & G).
  - intros n Hi. rewrite (Hn n Hi). unfold clear_terminals, requested in *. rewrite F, T, Er. exact Hcl.
  - rewrite Er. exact He.
  - exists rt, (mkPlace [] rt []), r. cbn. split; [exact Hs|]. split; [exact E|]. split; [constructor|]. split; [intros []|]. split; [left; exact Hroot|].
    rewrite Hroot. split; [|unfold filled; cbn; rewrite app_nil_r; reflexivity].
    assert (P : forall t1 t2 lo hi, t_fset t1 = t_fset t2 -> t_tset t1 = t_tset t2 -> t_erc t1 = t_erc t2 -> forall d a r, program t1 lo hi d a r -> program t2 lo hi d a r).
    { clear. intros t1 t2 lo hi F T Er. fix IH 4. intros d a r [d' a' n Ht L|d' a' f ks Hf Hh Hr Hd Hks].
      - constructor; [|exact L]. destruct Ht; [apply Listed; rewrite <- T; assumption|eapply Untyped_number; eauto; congruence|eapply Typed_number; eauto; congruence].
      - constructor; auto; [rewrite <- F; exact Hf|]. induction Hks; constructor; auto. }
    apply P with t0; auto.
  - exists ds. rewrite Et. exact G.
Qed.

Lemma C98_programs t0 (Q : node -> Prop) ev sched h s n a w rs ops op mn mx a' w' before l after : gives_numbers ev -> total_on (trees_of t0 Q) ev -> fair sched -> a_trace a = [] ->
  configured h a w s -> supplied t0 (t_root_type t0) -> typed_terminals t0 (t_root_type t0) -> Forall tree_operator (sp_ops s) -> node_kind t0 (sp_ops s) Q ->
  match sp_inds s with Some l => genomes_in (trees_of t0 Q) l w | None => Forall (tree_creator t0 (sp_size s)) (sp_creators s) end ->
  printable_terminals t0 -> clear_terminals t0 None -> (forall e, t_erc t0 = Some e -> erc_proper e) -> untyped t0 ->
  sp_ops s = ops ++ [op] -> op_kind op = OSubtreeMut mn mx -> op_arity op = 1 -> 1 <= op_attempts op -> can_happen (op_prob op) ->
  evolve ev sched n (a, w) = (Ok tt, (a', w')) -> evals (a_trace a') = before ++ l :: after -> before <> [] ->
  (Z.of_nat (length before) < 2 ^ 32)%Z -> a_random_seed a <> seed_at a (length before) ->
  length rs = sp_size s -> Forall (program t0 mn (Nat.max mn mx) 0 None) rs ->
  exists g a'' w'' l' after', other_stream (seed_at a (length before)) (w_rng w) g /\ evolve ev sched n (a, with_rng w g) = (Ok tt, (a'', w'')) /\
    evals (a_trace a'') = before ++ l' :: after' /\ (forall o, In o (concat before) -> genome_now w'' o = genome_now w' o) /\
    Forall2 (fun o r => has_nodes w'' o (flatten r)) l' rs.
Proof.
  intros Hn Ht Hf Htr C Hsu Htt Ho Hk Hi Hpr Hcl He HQ Eo Hok Ha Ha1 Hp E V Nb Lk Nr Lc Hc.
  destruct (again_run (trees_of t0 Q) ev sched h s n a w ops op (map (fun r => GTree (with_nodes t0 (flatten r))) rs) a' w' before l after)
    as (g & a2 & w2 & l' & after' & R1 & R2 & R3 & R4 & R5); auto.
  { eapply program_run_closed; eauto. } { intros g [G _]. eapply trees_printable; eauto. } { rewrite map_length. exact Lc. }
  { apply Forall_forall. intros x Hx. apply in_map_iff in Hx. destruct Hx as (r & <- & Ir). rewrite Forall_forall in Hc. eapply programs_reached; eauto. apply Hsu. }
  exists g, a2, w2, l', after'. repeat (split; [assumption|]). clear - R5. revert rs R5.
  induction l' as [|o l' IH]; intros [|r rs] H; inversion H; subst; constructor; auto.
  unfold genome_now in *. destruct (at_ w2 o) as [i|] eqn:Ei; [|discriminate]. match goal with H : _ = Some _ |- _ => injection H as H end.
  exists (with_nodes t0 (flatten r)). split; [exists i; auto|reflexivity].
Qed.

(** ** Any history *)

Lemma history {X} (H : world -> oid -> X -> Prop) ev sched n a w (css : list (list X)) :
  (forall w1 w2 o x, genome_now w1 o = genome_now w2 o -> H w1 o x -> H w2 o x) ->
  (forall cs, nth_error css 0 = Some cs -> exists g a' w' l rest, evolve ev sched n (a, with_rng w g) = (Ok tt, (a', w')) /\ evals (a_trace a') = l :: rest /\ Forall2 (H w') l cs) ->
  (forall g a' w' before l after cs, nth_error css (length before) = Some cs -> before <> [] -> evolve ev sched n (a, with_rng w g) = (Ok tt, (a', w')) ->
     evals (a_trace a') = before ++ l :: after ->
     exists g2 a2 w2 l2 after2, evolve ev sched n (a, with_rng w g2) = (Ok tt, (a2, w2)) /\ evals (a_trace a2) = before ++ l2 :: after2 /\
       (forall o, In o (concat before) -> genome_now w2 o = genome_now w' o) /\ Forall2 (H w2) l2 cs) ->
  forall j, css <> [] -> j <= length css -> exists g a' w', evolve ev sched n (a, with_rng w g) = (Ok tt, (a', w')) /\ evals (a_trace a') <> [] /\
    forall i l cs, i < j -> nth_error (evals (a_trace a')) i = Some l -> nth_error css i = Some cs -> Forall2 (H w') l cs.
Proof.
  intros Hk H0 Hs j Nc. destruct css as [|c0 css]; [congruence|]. induction j as [|j IH]; intros Lj.
  - destruct (H0 c0 eq_refl) as (g & a' & w' & l & rest & E & V & F). exists g, a', w'. split; [exact E|]. split; [rewrite V; discriminate|]. intros i ? ? Hi. lia.
  - destruct j as [|j].
    { destruct (H0 c0 eq_refl) as (g & a' & w' & l & rest & E & V & F). exists g, a', w'. split; [exact E|]. split; [rewrite V; discriminate|].
      intros [|i] l1 cs Hi Hl Hc; [|lia]. rewrite V in Hl. cbn in Hl, Hc. injection Hl as <-. injection Hc as <-. exact F. }
    destruct IH as (g & a' & w' & E & Ne & F); [lia|].
    destruct (nth_error (evals (a_trace a')) (S j)) as [l|] eqn:El.
    2:{ exists g, a', w'. split; [exact E|]. split; [exact Ne|]. intros i l cs Hi Hl Hc. destruct (Nat.eq_dec i (S j)) as [->|N]; [congruence|]. apply (F i l cs); auto; lia. }
    destruct (nth_error_split _ _ El) as (before & after & V & Lb).
    assert (Hc : exists cs, nth_error (c0 :: css) (S j) = Some cs) by (apply nth_error_ex; exact Lj). destruct Hc as (cs & Hc).
    destruct (Hs g a' w' before l after cs) as (g2 & a2 & w2 & l2 & after2 & E2 & V2 & K2 & F2); auto.
    { rewrite Lb. exact Hc. } { intros ->. discriminate. }
    exists g2, a2, w2. split; [exact E2|]. split; [rewrite V2; destruct before; discriminate|]. intros i l1 cs1 Hi Hl1 Hc1. rewrite V2 in Hl1.
    destruct (Nat.eq_dec i (S j)) as [->|N].
    + rewrite nth_error_app2 in Hl1 by lia. rewrite Lb, Nat.sub_diag in Hl1. cbn in Hl1. injection Hl1 as <-. rewrite Hc in Hc1. injection Hc1 as <-. exact F2.
    + rewrite nth_error_app1 in Hl1 by lia. assert (F1 : Forall2 (H w') l1 cs1).
      { apply (F i); auto; [lia|]. rewrite V, nth_error_app1 by lia. exact Hl1. }
      assert (Sub : incl l1 (concat before)). { intros o Ho. apply in_concat. exists l1. split; [eapply nth_error_In; eauto|exact Ho]. }
      clear - F1 Sub K2 Hk. induction F1 as [|o x l1 cs1 Hx F1 IH]; constructor.
      * eapply Hk; [|exact Hx]. symmetry. apply K2, Sub. left. reflexivity.
      * apply IH. intros p Hp. apply Sub. right. exact Hp.
Qed.

Lemma vec_now w1 w2 o v : genome_now w1 o = genome_now w2 o -> vec_at w1 o v -> vec_at w2 o v.
Proof.
  unfold genome_now. intros E (i & A & G). rewrite A in E. cbn in E. destruct (at_ w2 o) as [j|] eqn:B; [|discriminate]. exists j. split; [exact B|]. injection E as E. congruence.
Qed.

Lemma nodes_now w1 w2 o l : genome_now w1 o = genome_now w2 o -> has_nodes w1 o l -> has_nodes w2 o l.
Proof.
  unfold genome_now. intros E (t & (i & A & G) & L). rewrite A in E. cbn in E. destruct (at_ w2 o) as [j|] eqn:B; [|discriminate]. exists t. split; [|exact L].
  exists j. split; [exact B|]. injection E as E. congruence.
Qed.

Lemma C98_history k b len ev sched h s n a w css ops op m j : gives_numbers ev -> total_on (vectors k b len) ev -> fair sched -> a_trace a = [] ->
  configured h a w s -> Forall (vector_operator k b len) (sp_ops s) -> sp_inds s = None -> Forall (vector_creator k b len) (sp_creators s) ->
  (k = KFloat -> wide b) -> sp_ops s = ops ++ [op] -> op_kind op = OVecMut m j -> op_arity op = 1 -> can_happen (op_prob op) -> redraws m j len ->
  css <> [] -> Forall (fun cs => length cs = sp_size s /\ Forall (search_space k b len) cs) css ->
  (Z.of_nat (length css) <= 2 ^ 32)%Z -> (forall i, 1 <= i < length css -> a_random_seed a <> seed_at a i) ->
  exists g a' w', evolve ev sched n (a, with_rng w g) = (Ok tt, (a', w')) /\ evals (a_trace a') <> [] /\
    forall i l cs, nth_error (evals (a_trace a')) i = Some l -> nth_error css i = Some cs -> Forall2 (fun o c => vec_at w' o (mkVec k b len c)) l cs.
Proof.
  intros Hn Ht Hf Htr C Ho Hi Hc Hw Eo Hk Ha Hp Hr Nc Hcs Lz Ns. rewrite Forall_forall in Hcs.
  destruct (history (fun w o c => vec_at w o (mkVec k b len c)) ev sched n a w css) with (j := length css) as (g & a' & w' & E & Ne & F); auto.
  - intros w1 w2 o x. apply vec_now.
  - intros cs Hz. destruct (Hcs cs (nth_error_In _ _ Hz)) as [Lc Sc].
    destruct (C95_vectors k b len ev sched h s n a w cs) as (g & a' & w' & l & rest & E & V & F); auto. exists g, a', w', l, rest. auto.
  - intros g a' w' before l after cs Hz Nb E V. destruct (Hcs cs (nth_error_In _ _ Hz)) as [Lc Sc].
    assert (Lb : length before < length css) by (eapply nth_error_lt; eauto). assert (1 <= length before) by (destruct before; [congruence|cbn; lia]).
    destruct (C98_vectors k b len ev sched h s n a (with_rng w g) cs ops op m j a' w' before l after) as (g2 & a2 & w2 & l2 & after2 & _ & E2 & V2 & K2 & F2); auto.
    { apply configured_rng, C. } { rewrite Hi. exact Hc. } { lia. }
    exists g2, a2, w2, l2, after2. auto.
  - exists g, a', w'. split; [exact E|]. split; [exact Ne|]. intros i l cs Hl Hx. apply (F i l cs); auto. eapply nth_error_lt; eauto.
Qed.

Lemma C98_program_history t0 (Q : node -> Prop) ev sched h s n a w rss ops op mn mx : gives_numbers ev -> total_on (trees_of t0 Q) ev -> fair sched -> a_trace a = [] ->
  configured h a w s -> supplied t0 (t_root_type t0) -> typed_terminals t0 (t_root_type t0) -> Forall tree_operator (sp_ops s) -> node_kind t0 (sp_ops s) Q ->
  sp_inds s = None -> Forall (tree_creator t0 (sp_size s)) (sp_creators s) ->
  printable_terminals t0 -> clear_terminals t0 None -> (forall e, t_erc t0 = Some e -> erc_proper e) -> untyped t0 ->
  sp_ops s = ops ++ [op] -> op_kind op = OSubtreeMut mn mx -> op_arity op = 1 -> 1 <= op_attempts op -> can_happen (op_prob op) ->
  rss <> [] -> Forall (fun rs => length rs = sp_size s) rss ->
  (forall rs, nth_error rss 0 = Some rs -> Forall (fun c => can_make t0 c rs) (sp_creators s)) ->
  (forall i rs, nth_error rss (S i) = Some rs -> Forall (program t0 mn (Nat.max mn mx) 0 None) rs) ->
  (Z.of_nat (length rss) <= 2 ^ 32)%Z -> (forall i, 1 <= i < length rss -> a_random_seed a <> seed_at a i) ->
  exists g a' w', evolve ev sched n (a, with_rng w g) = (Ok tt, (a', w')) /\ evals (a_trace a') <> [] /\
    forall i l rs, nth_error (evals (a_trace a')) i = Some l -> nth_error rss i = Some rs -> Forall2 (fun o r => has_nodes w' o (flatten r)) l rs.
Proof.
  intros Hn Ht Hf Htr C Hsu Htt Ho Hk Hi Hc Hpr Hcl He HQ Eo Hok Ha Ha1 Hp Nc Hls H0 Hs Lz Ns. rewrite Forall_forall in Hls.
  destruct (history (fun w o r => has_nodes w o (flatten r)) ev sched n a w rss) with (j := length rss) as (g & a' & w' & E & Ne & F); auto.
  - intros w1 w2 o x. apply nodes_now.
  - intros cs Hz. destruct (C95_programs t0 Q ev sched h s n a w cs) as (g & a' & w' & l & rest & E & V & F); auto; [rewrite (proj1 HQ); exact Hcl|apply Hls; eapply nth_error_In; eauto|].
    exists g, a', w', l, rest. auto.
  - intros g a' w' before l after cs Hz Nb E V.
    assert (Lb : length before < length rss) by (eapply nth_error_lt; eauto). assert (1 <= length before) by (destruct before; [congruence|cbn; lia]).
    destruct (C98_programs t0 Q ev sched h s n a (with_rng w g) cs ops op mn mx a' w' before l after) as (g2 & a2 & w2 & l2 & after2 & _ & E2 & V2 & K2 & F2); auto.
    { apply configured_rng, C. } { rewrite Hi. exact Hc. } { lia. } { apply Hls. eapply nth_error_In; eauto. }
    { destruct before; [congruence|]. eapply Hs. exact Hz. }
    exists g2, a2, w2, l2, after2. auto.
  - exists g, a', w'. split; [exact E|]. split; [exact Ne|]. intros i l cs Hl Hx. apply (F i l cs); auto. eapply nth_error_lt; eauto.
Qed.
