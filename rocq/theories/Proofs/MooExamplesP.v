(** * Lemmas about the multi-objective example programs (C88). *)
From Coq Require Import Lia QArith Lqa.
From Verif.Proofs Require Import LeadP MooStatP MooCompleteP StatP ExamplesP SetupP CompleteVecP MooRunP TraceP.
From Verif.Model Require Import Double Num Fitness World Evolution Nsga2 Statistics Execute MooStat Setup Make MooExamples.
From Verif.Spec Require Import WorldSpec FitnessSpec VectorSpec EvoSpec Nsga2Spec StatSpec CompleteSpec ShowSpec MooStatSpec ExamplesSpec MooExamplesSpec.
Open Scope string_scope.
Open Scope nat_scope.
Open Scope list_scope.

(** ** A fitness function that gives objectives where it is needed *)

Section MooLead.
  Variables ev ev' : genome -> res fval.
  Hypothesis L : forall g v, ev g = Ok v -> ev' g = Ok v.
  Variables (sched : nat -> list nat) (so : nat -> list nat -> list nat) (doubling : bool).

  Lemma generation_lead : leads (nsga2_generation ev sched so doubling) (nsga2_generation ev' sched so doubling).
  Proof.
    unfold nsga2_generation. repeat (apply leads_bind; [apply leads_refl|intros]). apply leads_bind; [apply act_lead; exact L|]. intros. apply leads_refl.
  Qed.

  Lemma nsga2_lead n : leads (nsga2_evolve ev sched so doubling n) (nsga2_evolve ev' sched so doubling n).
  Proof.
    unfold nsga2_evolve, evolve_with. apply leads_bind; [apply initialize_lead; exact L|intros]. apply leads_bind; [apply leads_refl|]. intros st.
    apply leads_bind; [|intros; apply leads_refl]. destruct st; [apply leads_refl|]. apply leads_bind; [apply leads_refl|]. intros.
    apply loop_lead, generation_lead.
  Qed.

  Lemma nsga2_all_lead user stats : leads (nsga2_evolve_all ev sched so doubling user stats) (nsga2_evolve_all ev' sched so doubling user stats).
  Proof.
    unfold nsga2_evolve_all, evolve_all_with. apply leads_bind.
    { unfold initialize_all. repeat (apply leads_bind; [apply leads_refl|intros]). apply leads_bind; [apply leads_liftA, act_lead; exact L|]. intros. apply leads_refl. }
    intros. apply leads_bind; [apply leads_refl|]. intros st.
    apply leads_bind; [|intros; apply leads_refl]. destruct st; [apply leads_refl|]. apply leads_bind; [apply leads_refl|]. intros.
    apply loop_all_lead, generation_lead.
  Qed.
End MooLead.

Definition two_finite (ev : genome -> res fval) (g : genome) : res fval :=
  match ev g with
  | Ok (VList [Fin x; Fin y]) => Ok (VList [Fin x; Fin y])
  | Ok _ => Raise ValueError
  | Raise e => Raise e
  end.

Lemma two_finite_ok ev g v : two_finite ev g = Ok v -> ev g = Ok v /\ exists x y, v = VList [Fin x; Fin y].
Proof.
  unfold two_finite. destruct (ev g) as [[|x|l|]|e]; try discriminate. destruct l as [|[x| | |] [|[y| | |] [|]]]; try discriminate. intros [= <-]. eauto.
Qed.

Lemma two_finite_gives ev : gives_objectives (two_finite ev) 2.
Proof. intros g v H. apply two_finite_ok in H. destruct H as (_ & x & y & ->). exists [x; y]. auto. Qed.

Lemma two_finite_total (G : genome -> Prop) ev : (forall g, G g -> exists x y, ev g = Ok (VList [Fin x; Fin y])) -> total_on G (two_finite ev).
Proof. intros H g Hg. destruct (H g Hg) as (x & y & E). exists (VList [Fin x; Fin y]). unfold two_finite. rewrite E. reflexivity. Qed.

(** ** The programs *)

Definition moo_ops : list oper := [mkOper (OKPoint 1) (Fin (7 # 10)) 2 1; mkOper (OVecMut MUniformN 3) (Fin (3 # 10)) 1 5].

Definition moo_s (b : bounds) (p : Q) : subpop :=
  mkSub [CVector 3 b KFloat KNSGA2 false] [Fin p] moo_ops [SelTournament 3 true 1] 150 (HB false) 0 None.

Definition moo_a (stamp : Z) (b : bounds) (p : Q) : algo :=
  mkAlgo [moo_s b p] 150 [CkUser (crowding_checker (Fin (1 # 100))) 0]
    (stamp mod 4294967296)%Z (stamp mod 4294967296)%Z ByMap true None None None 0 None 0 [].

Lemma moo_setup sum stamp b stats executor n : sum = sum_plain \/ sum = sum_compensated -> statistics_of (stats_or_none stats) = Ok n ->
  executor = "thread" \/ executor = "process" ->
  exists su p, moo_program sum stamp b stats executor = Ok su /\ su_stats su = n /\ (0 < p)%Q /\ su_algo su = moo_a stamp b p.
Proof.
  intros Hs Hn He. set (p := ddiv 1 (of_count 1)).
  assert (Es : new_subpopulation sum (CrOne (CVector 3 b KFloat KNSGA2 false)) None (Some moo_ops) (Some [new_tournament 3 None]) (double (1 # 300)) 150 None (HB false) = Ok (moo_s b p)).
  { apply subpopulation_ok. exists [CVector 3 b KFloat KNSGA2 false]. split; [left; eauto|]. split; [discriminate|]. exists [p], moo_ops. split; [right; auto|]. split; [reflexivity|].
    split; [|split; [reflexivity|]]. { destruct Hs as [->| ->]; vm_compute; reflexivity. }
    unfold moo_s. replace (Z.to_nat (n_elite_of (double (1 # 300)) 150)) with 0 by (vm_compute; reflexivity). reflexivity. }
  unfold moo_program. match goal with |- context [new_operators ?c] => change (new_operators c) with (Ok moo_ops) end. cbn [rbind]. rewrite Es. cbn [rbind].
  unfold nsga2_evolution_init, algorithm_init. cbn [population_of ea_population ea_statistics rbind]. rewrite Hn. cbn [rbind ea_executor].
  assert (T : String.eqb executor "thread" || String.eqb executor "process" = true) by (destruct He as [-> | ->]; reflexivity). rewrite T.
  eexists _, p. split; [reflexivity|]. split; [reflexivity|]. split; [vm_compute; reflexivity|]. reflexivity.
Qed.

Section Program.
  Variables (lo hi : Q) (ev : genome -> res fval) (K : list num -> list num -> Prop) (sched : nat -> list nat) (so : nat -> list nat -> list nat) (stamp : Z) (p : Q) (w : world).
  Let b := BPair (Fin lo) (Fin hi).
  Let G := vectors KFloat b 3.
  Hypothesis Hb : (lo <= hi)%Q.
  Hypothesis Hev : forall v, length (v_cells v) = 3 -> Forall (fun x => exists q, x = Fin q /\ (lo <= q <= hi)%Q) (v_cells v) ->
    exists x y, ev (GVec v) = Ok (VList [Fin x; Fin y]) /\ K (v_cells v) [Fin x; Fin y].
  Hypothesis (Hf : fair sched) (Hany : any_order so) (Hp : (0 < p)%Q).
  Variables (user : string -> list (told -> O unit)) (stats : list stat) (Blk : nat -> list line -> Prop).
  Hypothesis Hq : forall nm, String.eqb nm "after_generation" = false -> user nm = [].
  Let a := moo_a stamp b p.
  Let ev' := two_finite ev.
  Hypothesis Hwr : forall a w, mgoing G ev' [false; false] (moo_s b p) a w -> MooCompleteP.selected [false; false] so (moo_s b p) a w -> a_stats a = length stats ->
    exists ls, Blk (a_gen_num a) ls /\
      forall out, publish_all nsga2_data user stats "after_generation" ((a, w), out) = (Ok tt, ((pub "after_generation" a w, w), out ++ ls)).

  Lemma class_values g : G g -> exists v x y, g = GVec v /\ ev g = Ok (VList [Fin x; Fin y]) /\ K (v_cells v) [Fin x; Fin y].
  Proof.
    intros (v & -> & S & _ & Bd & Sz). destruct S as (_ & _ & _ & _ & B). destruct (Hev v Sz) as (x & y & E & Kv); [|eauto 10].
    apply Forall_forall. intros c Hc. apply In_nth_error in Hc. destruct Hc as [i Hi]. rewrite Bd in B. destruct (B i c Hi) as (l & u & [= <- <-] & B1 & B2).
    destruct c as [q| | |]; try discriminate. apply nle_fin in B1, B2. eauto.
  Qed.

  Lemma moo_closed w0 : closed_under G w0 (moo_s b p).
  Proof.
    split; cbn.
    - constructor; [|constructor; [|constructor]]; apply vector_closed; unfold vector_operator; cbn [op_kind op_arity op_attempts]; [split; [reflexivity|lia]|].
      left. split; [lia|]. split; [cbn; discriminate|lia].
    - intros c [<-|[]]. apply vector_creator_closed. refine (conj eq_refl (conj eq_refl (conj eq_refl (conj _ I)))).
      split; [exists lo, hi; split; [reflexivity|exact Hb]|]. split; [intros X; elim X; reflexivity|discriminate].
  Qed.

  Lemma moo_conf w0 : moo_configured [false; false] a w0 (moo_s b p).
  Proof.
    constructor; try reflexivity; cbn.
    - lia.
    - intros op [<-|[<-|[]]]; cbn [op_arity]; (split; [discriminate|]); [exists 75; reflexivity|apply Nat.divide_1_l].
    - eexists _, _, _, _. split; [reflexivity|]. split; [discriminate|discriminate].
    - split; [reflexivity|]. split; [exists (0 + p)%Q; split; [reflexivity|]; rewrite Qplus_0_l; exact Hp|]. split; [right; exists false; auto|].
      intros c [<-|[]]. eauto.
    - constructor; [|constructor]. eexists _, _. split; [reflexivity|]. apply CrowdAnswerP.crowding_answers.
  Qed.

  Lemma moo_program_run : exists a1 w1 a' w' blocks,
    initialize ev sched (length stats) (a, w) = (Ok tt, (a1, w1)) /\
    nsga2_evolve_all ev sched so true user stats ((a, w), []) = (Ok tt, ((a', w'), concat blocks)) /\
    (forall g ls, nth_error blocks g = Some ls -> Blk (S g) ls) /\
    moo_outcome ev K 150 150 (length blocks) w1 a' w'.
  Proof.
    assert (Le : forall g v, ev' g = Ok v -> ev g = Ok v) by (intros g v H; apply two_finite_ok in H; apply H).
    assert (Tot : total_on G ev').
    { apply two_finite_total. intros g Hg. destruct (class_values g Hg) as (v & x & y & _ & E & _). eauto. }
    assert (Giv : gives_objectives ev' (length [false; false])) by apply two_finite_gives.
    assert (Ck : Forall (fun c => exists t m, c = CkUser (crowding_checker t) m) (a_checkers a)) by (cbn; repeat constructor; eauto).
    destruct (watched_run user stats Hq G ev' [false; false] sched so (moo_s b p) a w Blk Hwr Giv Tot Hf Hany eq_refl eq_refl (moo_conf w) (moo_closed w))
      as (a' & w' & blocks & o & i & Eall & E & Lb & Hb' & (a1 & w1 & l1 & Ei & M1 & Q1 & Fi) & M & B & Ib & A & Gi); auto.
    { intros g (v & -> & _). exact I. }
    { intros l o H. discriminate. }
    destruct (run_length _ _ _ (nsga2_well_run _ _ _ _ _ _ _ _ _ (eq_refl : a_trace a = []) E)) as (k & Lk & Fk). assert (k = length blocks) as -> by lia.
    destruct (mg_evals _ _ _ _ _ _ M) as (first & later & Ee & Lf & Fl).
    destruct (mg_pop _ _ _ _ _ _ M) as (l & P1 & P2 & P3 & P4 & P5).
    exists a1, w1, a', w', blocks. split; [apply (initialize_lead ev' ev Le), Ei|]. split; [apply (nsga2_all_lead ev' ev Le), Eall|]. split; [exact Hb'|].
    assert (Val : forall o0 i0, at_ w' o0 = Some i0 -> G (i_genome i0) -> has_value ev' w' o0 -> exists c q, cells_at w' o0 c /\ pure_at w' o0 (VList q) /\ K c q).
    { intros o0 i0 A0 G0 (j & v & Aj & Ej & Pj). assert (j = i0) as -> by congruence. destruct (class_values _ G0) as (u & x & y & Eg & Eu & Ku).
      apply Le in Ej. rewrite Eu in Ej. injection Ej as <-. exists (v_cells u), [Fin x; Fin y]. split; [eapply cells_of; eauto|]. split; [eapply pure_of; eauto|exact Ku]. }
    destruct (mg_best _ _ _ _ _ _ M) as (o' & B' & Vo & _). assert (o' = o) as -> by congruence. destruct (Val o i A Gi Vo) as (c & q & Cc & Pc & Kc).
    exists first, later, (with_inds (moo_s b p) l), o, c, q. split; [exact Ee|]. split; [exact Lf|]. split; [exact Fl|].
    split; [rewrite Ee in Lb; injection Lb as <-; reflexivity|]. split; [destruct Fk as [F|[F1 F2]]; [left; exact F|right; split; [exact F2|exact F1]]|].
    split; [exact P1|]. split; [exact P2|]. split; [exact P3|].
    split; [intros x Hx; destruct (P4 x Hx) as (j & Aj & Gj); eapply Val; [exact Aj|exact Gj|apply (P5 x Hx)]|].
    split; [|split; [exact B|split; [rewrite Ee in Ib; exact Ib|split; [exact Cc|split; [exact Pc|split; [exact Kc|apply (execute_cells _ _ _ _ B Cc)]]]]]].
    destruct (run_moo ev' [false; false] Giv sched Hf so Hany (length stats) a w tt a' w' eq_refl) as (a2 & w2 & s2 & s3 & Ei2 & Q2 & Q3 & _ & R).
    { exists (moo_s b p). split; [reflexivity|]. cbn. split; [right; exists false; auto|]. intros c0 [<-|[]]. eauto. }
    { exact E. }
    rewrite Ei in Ei2. injection Ei2 as <- <-. rewrite P1 in Q3. injection Q3 as <-.
    destruct (mg_pop _ _ _ _ _ _ M1) as (l1' & P1' & P2' & P3' & P4' & P5'). assert (l1' = l1) as -> by (rewrite Q1 in P1'; injection P1' as ->; reflexivity).
    rewrite P1' in Q2. injection Q2 as <-.
    change (inds_of (with_inds (moo_s b p) l1)) with l1 in *. change (inds_of (with_inds (moo_s b p) l)) with l in *.
    rewrite Ee in Fi. cbn [hd] in Fi.
    subst l1. intros x kk d y Hx Hd (ii & v & Ax & Ex & Nv). destruct (P4' x Hx) as (j & Aj & Gj). assert (j = ii) as -> by congruence.
    destruct (R ltac:(cbn [length Nat.mul]; rewrite P2'; cbn; lia) x kk d y Hx Hd) as (o2 & y2 & H2 & (i2 & v2 & A2 & E2 & N2) & NB).
    { exists ii, v. split; [exact Ax|]. split; [|exact Nv]. destruct (Tot _ Gj) as (v' & Ev'). pose proof (Le _ _ Ev') as X. rewrite Ex in X. injection X as ->. exact Ev'. }
    exists o2, y2. split; [exact H2|]. split; [|exact NB]. exists i2, v2. split; [exact A2|]. split; [apply Le; exact E2|exact N2].
  Qed.
End Program.

(** ** The evaluators *)

Lemma three_cells lo hi c : length c = 3 -> Forall (fun x => exists q, x = Fin q /\ (lo <= q <= hi)%Q) c ->
  exists x y z, c = [Fin x; Fin y; Fin z] /\ (lo <= x <= hi)%Q /\ (lo <= y <= hi)%Q /\ (lo <= z <= hi)%Q.
Proof.
  intros L F. destruct c as [|a [|b [|c [|]]]]; try discriminate L. inversion F as [|? ? (x & -> & Hx) F1]; subst. inversion F1 as [|? ? (y & -> & Hy) F2]; subst.
  inversion F2 as [|? ? (z & -> & Hz) _]; subst. eauto 10.
Qed.

Lemma zdt_value sq sn pi z v : length (v_cells v) = 3 -> Forall (fun x => exists q, x = Fin q /\ (0 <= q <= 1)%Q) (v_cells v) ->
  exists x y, zdt sq sn pi z (GVec v) = Ok (VList [Fin x; Fin y]) /\ zdt_point sq sn pi z (v_cells v) [Fin x; Fin y].
Proof.
  intros L F. destruct (three_cells _ _ _ L F) as (x & y1 & y2 & E & Hx & H1 & H2).
  assert (U : unit_cells 3 (v_cells v)) by (split; assumption).
  unfold zdt. rewrite E. cbn [length]. change (ndiv (Fin 9) (nof_nat 2)) with (Ok (Fin (9 / 2))). cbn [rbind nsum fold_left nadd nmul].
  set (g := (1 + 9 / 2 * (0 + y1 + y2))%Q).
  assert (Hg : (g == 1 + (9 # 2) * (y1 + y2))%Q) by (unfold g; field).
  assert (G1 : (1 <= g)%Q) by (rewrite Hg; lra).
  unfold ndiv. assert (Gz : Qeq_bool g 0 = false) by (apply not_true_iff_false; intros X; apply Qeq_bool_iff in X; lra). rewrite Gz. cbn [rbind].
  set (r := (x / g)%Q).
  assert (Hr : (r == x / (1 + (9 # 2) * (y1 + y2)))%Q) by (unfold r; rewrite Hg; reflexivity).
  assert (Rb : (0 <= r <= x)%Q).
  { unfold r. split; [apply Qle_shift_div_l; lra|]. apply Qle_shift_div_r; [lra|]. nra. }
  assert (Hs : math_sqrt sq (Fin r) = Ok (Fin (sq r))).
  { unfold math_sqrt. replace (Qle_bool 0 r) with true; [reflexivity|]. symmetry. apply Qle_bool_iff. apply Rb. }
  assert (Z : exists f, zdt_second sq sn pi z (Fin x) (Fin r) = Ok (Fin f) /\ (f == zdt_curve sq sn pi z x r)%Q).
  { destruct z; unfold zdt_second, zdt_curve; rewrite ?Hs; cbn [rbind nmul nsub nadd nneg math_sin]; eexists; (split; [reflexivity|]); ring. }
  destruct Z as (f & Ef & Hf). rewrite Ef. cbn [rbind]. exists x, f. split; [reflexivity|]. rewrite E in U. split; [exact U|].
  exists x, y1, y2, r, f. auto.
Qed.

Lemma basic_value sq ex v : (0 < sq 3)%Q -> length (v_cells v) = 3 -> Forall (fun x => exists q, x = Fin q /\ (-4 <= q <= 4)%Q) (v_cells v) ->
  exists x y, basic sq ex (GVec v) = Ok (VList [Fin x; Fin y]) /\ basic_point sq ex (v_cells v) [Fin x; Fin y].
Proof.
  intros Hs L F. destruct (three_cells _ _ _ L F) as (x & y & z & E & Hx & Hy & Hz).
  assert (D : ndiv (Fin 1) (Fin (sq 3%Q)) = Ok (Fin (1 / sq 3)%Q)).
  { unfold ndiv. replace (Qeq_bool (sq 3%Q) 0) with false; [reflexivity|]. symmetry. apply not_true_iff_false. intros X. apply Qeq_bool_iff in X. lra. }
  unfold basic, basic_part. rewrite E. cbn [length]. change (nof_nat 3) with (Fin 3%Q). change (math_sqrt sq (Fin 3%Q)) with (Ok (Fin (sq 3%Q))).
  cbn [rbind rmap]. rewrite D. cbn [rbind rmap]. eexists _, _. split; [cbn [nsum fold_left nmul nadd nsub nneg math_exp rbind]; reflexivity|].
  exists x, y, z. eexists _, _, _, _. split; [reflexivity|]. split; [auto|]. split; [reflexivity|]. cbv zeta.
  split; [|split; [|split]]; [| | |]; cycle 1; [reflexivity| |reflexivity|].
  all: ring.
Qed.

(** ** The runs *)

Lemma generation_lines n blocks : (forall g ls, nth_error blocks g = Some ls -> ls = [LGeneration (n + g)]) ->
  concat blocks = map LGeneration (seq n (length blocks)).
Proof.
  revert n. induction blocks as [|x blocks IH]; intros n H; [reflexivity|]. cbn [concat length seq map].
  rewrite (H 0 x eq_refl), Nat.add_0_r. cbn [app]. f_equal. apply IH. intros g ls E. rewrite (H (S g) ls E). do 2 f_equal. lia.
Qed.

Lemma zdt_run : forall sqrt sin pi z sum stamp sched so w, sum = sum_plain \/ sum = sum_compensated -> fair sched -> any_order so ->
  exists su a1 w1 a' w' k, zdt_program sum stamp = Ok su /\ su_stats su = 1 /\
    initialize (zdt sqrt sin pi z) sched 1 (su_algo su, w) = (Ok tt, (a1, w1)) /\
    nsga2_evolve_all (zdt sqrt sin pi z) sched so true (fun _ => []) [SMinimal] ((su_algo su, w), []) = (Ok tt, ((a', w'), map LGeneration (seq 1 k))) /\
    moo_outcome (zdt sqrt sin pi z) (zdt_point sqrt sin pi z) 150 150 k w1 a' w'.
Proof.
  intros sq sn pi z sum stamp sched so w Hs Hf Ha.
  destruct (moo_setup sum stamp (BPair (Fin 0) (Fin 1)) StOne "thread" 1 Hs eq_refl (or_introl eq_refl)) as (su & p & E & Es & Hp & Ea).
  destruct (moo_program_run 0 1 (zdt sq sn pi z) (zdt_point sq sn pi z) sched so stamp p w) with (user := fun _ : string => @nil (told -> O unit)) (stats := [SMinimal])
    (Blk := fun g ls => ls = [LGeneration g]) as (a1 & w1 & a' & w' & blocks & Ei & Er & Bl & O); auto.
  - lra.
  - intros v L F. apply zdt_value; assumption.
  - intros a2 w2 _ _ St. eexists. split; [reflexivity|]. intros out. unfold publish_all.
    rewrite (bind_eq_ok _ _ _ _ _ (liftA_ok _ _ _ _ out (publish_eq _ a2 w2))). fold (pub "after_generation" a2 w2).
    erewrite bind_eq_ok; [|reflexivity]. unfold call_subscribers. cbn [String.eqb Ascii.eqb Bool.eqb iterM].
    erewrite bind_eq_ok; [|reflexivity]. erewrite bind_eq_ok; [|reflexivity]. cbn [fst snd].
    rewrite registered_all by exact St. apply (minimal_written 1). reflexivity.
  - exists su, a1, w1, a', w', (length blocks). rewrite Ea. split; [exact E|]. split; [exact Es|]. split; [exact Ei|]. split; [|exact O].
    rewrite <- (generation_lines 1); [exact Er|]. exact Bl.
Qed.

Lemma basic_run : forall sqrt exp sum stamp sched so w, (0 < sqrt 3%Q)%Q -> sum = sum_plain \/ sum = sum_compensated -> fair sched -> any_order so ->
  exists su a1 w1 a' w' blocks, basic_program sum stamp = Ok su /\ su_stats su = 2 /\
    initialize (basic sqrt exp) sched 1 (su_algo su, w) = (Ok tt, (a1, w1)) /\
    nsga2_evolve_all (basic sqrt exp) sched so true fronts_shown [SMinimal] ((su_algo su, w), []) = (Ok tt, ((a', w'), concat blocks)) /\
    (forall g ls, nth_error blocks g = Some ls ->
       fronts_block (vectors KFloat (BPair (Fin (-4)) (Fin 4)) 3) (basic sqrt exp) 150 1 (S g) ls) /\
    moo_outcome (basic sqrt exp) (basic_point sqrt exp) 150 150 (length blocks) w1 a' w'.
Proof.
  intros sq ex sum stamp sched so w H3 Hs Hf Ha.
  destruct (moo_setup sum stamp (BPair (Fin (-4)) (Fin 4)) (StList [true; true]) "process" 2 Hs eq_refl (or_intror eq_refl)) as (su & p & E & Es & Hp & Ea).
  destruct (moo_program_run (-4) 4 (basic sq ex) (basic_point sq ex) sched so stamp p w) with (user := fronts_shown) (stats := [SMinimal])
    (Blk := fronts_block (vectors KFloat (BPair (Fin (-4)) (Fin 4)) 3) (basic sq ex) 150 1) as (a1 & w1 & a' & w' & blocks & Ei & Er & Bl & O); auto.
  - lra.
  - intros v L F. apply basic_value; assumption.
  - apply fronts_quiet.
  - intros a2 w2 M S St.
    destruct (fronts_written (vectors KFloat (BPair (Fin (-4)) (Fin 4)) 3) (two_finite (basic sq ex)) false false so (moo_s (BPair (Fin (-4)) (Fin 4)) p) 1) with (a := a2) (w := w2)
      as (ls & B & W); auto.
    + apply two_finite_gives.
    + cbn. lia.
    + exists ls. split; [|exact W]. destruct B as (rank & count & first & lst & B1 & B2 & B3 & B4 & B5 & B6). exists rank, count, first, lst.
      split; [exact B1|]. split; [exact B2|]. split; [exact B3|]. split; [exact B4|]. split; [exact B5|]. intros q Hq. destruct (B6 q Hq) as (g & Gg & Eg).
      exists g. split; [exact Gg|]. apply two_finite_ok in Eg. apply Eg.
  - exists su, a1, w1, a', w', blocks. rewrite Ea. split; [exact E|]. split; [exact Es|]. split; [exact Ei|]. split; [exact Er|]. split; [exact Bl|exact O].
Qed.
