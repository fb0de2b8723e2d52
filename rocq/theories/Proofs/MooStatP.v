(** * Lemmas about the multi-objective statistics of a run (C53). *)
From Coq Require Import Lia Permutation QArith.
From Verif.Proofs Require Import MooCompleteP StatP CornerP MooCheckP CrowdAnswerP.
From Verif.Model Require Import Num Fitness World Nsga2 Statistics MooStat.
From Verif.Spec Require Import WorldSpec FitnessSpec EvoSpec Nsga2Spec CompleteSpec ShowSpec MooStatSpec.
Open Scope string_scope.
Open Scope nat_scope.
Open Scope list_scope.

(** ** What the statistics read *)

Lemma dedup_in p l : In p (dedup l) -> In p l.
Proof. induction l as [|x l IH]; [auto|]. cbn [dedup]. destruct (existsb (list_eqn x) l); [right; auto|]. intros [->|H]; [left; reflexivity|right; auto]. Qed.

Lemma corners_in r ms c : get_corners r ms = Ok c -> 1 <= length c <= 2 /\ forall p, In p c -> In p (map snd ms).
Proof.
  unfold get_corners. set (d := dedup _). destruct ((length d =? 1) || (length d =? 2)) eqn:E; [|discriminate]. intros [= <-]. split.
  - apply orb_true_iff in E. destruct E as [E|E]; apply Nat.eqb_eq in E; lia.
  - intros p Hp. unfold d in Hp. apply dedup_in, in_map_iff in Hp. destruct Hp as (m & <- & Hm). apply filter_In in Hm. apply in_map. apply Hm.
Qed.

Lemma statistics_in ms first rank lst count : moe_statistics ms = Ok (first, rank, lst, count) ->
  1 <= length first <= 2 /\ 1 <= length lst <= 2 /\ forall p, In p first \/ In p lst -> In p (map snd ms).
Proof.
  unfold moe_statistics. destruct (get_corners (Fin 1) ms) as [c|] eqn:E1; [|discriminate]. cbn [rbind]. destruct (map _ ms) as [|r rs]; [discriminate|].
  destruct (get_corners (fold_left max_num rs r) ms) as [c'|] eqn:E2; [|discriminate]. cbn [rbind]. intros [= <- <- <- <-].
  apply corners_in in E1, E2. split; [apply E1|]. split; [apply E2|]. intros p [H|H]; [apply E1|apply E2]; exact H.
Qed.

Lemma members_read l w : (forall o, In o l -> exists i v, at_ w o = Some i /\ ft_class (i_fit i) = KNSGA2 /\ get_pure_fitness (i_fit i) = Ok (VList v)) ->
  exists ms, mapM front_member l w = (Ok ms, w) /\ reports w l ms.
Proof.
  induction l as [|o l IH]; intros H; [exists []; split; [reflexivity|constructor]|].
  destruct (H o (or_introl eq_refl)) as (i & v & A & C & P). destruct IH as (ms & E & R); [intros x Hx; apply H; right; exact Hx|].
  assert (V : ft_value (i_fit i) = VList v).
  { unfold get_pure_fitness in P. destruct (ft_evaluated (i_fit i)); [|discriminate]. congruence. }
  exists ((ft_rank (i_fit i), ft_crowding (i_fit i), v) :: ms). split; [|constructor; [exists i, v; auto|exact R]].
  cbn [mapM]. erewrite bind_eq_ok; [rewrite (bind_eq_ok _ _ _ _ _ E); reflexivity|].
  unfold front_member. rewrite (bind_eq_ok _ _ _ _ _ (load_at _ _ _ A)). rewrite C. unfold lift, bind. rewrite P. reflexivity.
Qed.

Lemma minimal_written n g a w : a_gen_num a = g -> forall out,
  iterM write_statistics (repeat SMinimal n) ((a, w), out) = (Ok tt, ((a, w), out ++ repeat (LGeneration g) n)).
Proof.
  intros E. induction n as [|n IH]; intros out; [cbn; rewrite app_nil_r; reflexivity|]. cbn [repeat iterM].
  erewrite bind_eq_ok; [|unfold write_statistics; erewrite bind_eq_ok; [|reflexivity]; cbn [fst snd]; erewrite bind_eq_ok; [|reflexivity]; reflexivity].
  cbn [fst snd]. rewrite E, IH, <- app_assoc. reflexivity.
Qed.

Lemma registered_all stats a : a_stats a = length stats -> registered stats a = stats.
Proof.
  intros E. unfold registered. rewrite E. destruct stats as [|k ks]; [reflexivity|].
  rewrite Nat.div_same by (cbn; lia). cbn [repeat concat]. apply app_nil_r.
Qed.

(** ** The loop *)

Section Fronts.
  Variables (G : genome -> Prop) (ev : genome -> res fval) (h0 h1 : bool) (sched : nat -> list nat) (so : nat -> list nat -> list nat) (s : subpop) (n : nat).
  Let h := [h0; h1].
  Hypothesis (EV : gives_objectives ev 2) (Htot : total_on G ev) (Hfair : fair sched) (Hany : any_order so).
  Hypothesis (Hsize : 1 <= sp_size s) (Helite : sp_n_elite s = 0).
  Hypothesis Har : forall op, In op (sp_ops s) -> op_arity op <> 0 /\ Nat.divide (op_arity op) (sp_size s).
  Hypothesis Hsel : exists k replace n sels, sp_sels s = SelTournament k replace n :: sels /\ n <> 0 /\ (replace = false -> k <= sp_size s).
  Hypothesis Hop : Forall (closed_operator G) (sp_ops s).
  Let stats := repeat SMinimal n.
  Let going := mgoing G ev h s.

  Lemma fronts_written a w : going a w -> MooCompleteP.selected h so s a w -> a_stats a = n ->
    exists ls, fronts_block G ev (sp_size s) n (a_gen_num a) ls /\
      forall out, publish_all nsga2_data fronts_shown stats "after_generation" ((a, w), out) = (Ok tt, ((pub "after_generation" a w, w), out ++ ls)).
  Proof.
    intros H (l & d & w2 & M & N & E & P) St. destruct (mg_pop _ _ _ _ _ _ H) as (d' & P1 & L & Nd & Gd & V).
    assert (d' = d) as -> by (rewrite P1 in P; injection P as ->; reflexivity).
    destruct (members_read d w) as (ms & Em & R).
    { intros o Ho. destruct (V o Ho) as ((i & A & C & _) & j & v & A' & Ev & Pv). assert (j = i) as -> by congruence.
      destruct (EV _ _ Ev) as (qs & _ & ->). exists i, (map Fin qs). auto. }
    destruct (report_ok so w2 h0 h1 (value_in w2) l 0 M N Hany) as (d0 & w0 & E0 & Rp); [cbn [Nat.eqb]; apply Nat.div_le_upper_bound; lia|].
    assert (d0 = d /\ w0 = w) as [-> ->] by (rewrite E in E0; injection E0; auto).
    destruct (Rp ms R) as (first & k & lst & count & ff & Es & _ & _ & Hf & _ & Nf & _ & NdF & Fin' & Ec); [intros ->; cbn in L; lia|].
    destruct (statistics_in _ _ _ _ _ Es) as (L1 & L2 & Inm).
    eexists. split.
    - exists (rank_number (S k)), count, first, lst. split; [reflexivity|]. split; [|split; [exact L1|split; [exact L2|split; [eauto|]]]].
      + split.
        * destruct first as [|p first]; [congruence|]. destruct (Hf p (or_introl eq_refl)) as (o & Do & Fo & _).
          assert (In o ff) as Ho by (apply Fin'; auto). rewrite Ec. destruct ff; [destruct Ho|cbn; lia].
        * rewrite Ec, <- L. apply NoDup_incl_length; [exact NdF|]. intros x Hx. apply Fin' in Hx. apply Hx.
      + intros p Hp. specialize (Inm p Hp). apply in_map_iff in Inm. destruct Inm as ([[r c] v] & Ep & Hm). cbn in Ep. subst v.
        assert (exists o i v, In o d /\ at_ w o = Some i /\ ft_value (i_fit i) = VList v /\ (r, c, p) = (ft_rank (i_fit i), ft_crowding (i_fit i), v)) as (o & i & v & Do & A & Ev & [= -> -> ->]).
        { clear -R Hm. induction R as [|o m l ms (i & v & A & Ev & ->) R IH]; [destruct Hm|]. destruct Hm as [Em|Hm]; [exists o, i, v; cbn; auto|].
          destruct (IH Hm) as (o' & i' & v' & D & X). exists o', i', v'. split; [right; exact D|exact X]. }
        destruct (V o Do) as ((j & Aj & Cj & _) & j' & x & A' & Evx & Px). assert (j' = i) as -> by congruence. assert (j = i) as -> by congruence.
        destruct (Gd o Do) as (j & Aj' & Gj). assert (j = i) as -> by congruence. exists (i_genome i). split; [exact Gj|].
        unfold get_pure_fitness in Px. destruct (ft_evaluated (i_fit i)); [|discriminate]. congruence.
    - intros out. unfold publish_all. rewrite (bind_eq_ok _ _ _ _ _ (liftA_ok _ _ _ _ out (publish_eq _ a w))). fold (pub "after_generation" a w).
      erewrite bind_eq_ok; [|reflexivity]. unfold call_subscribers. change (fronts_shown "after_generation") with [moe_best_worst].
      cbn [String.eqb Ascii.eqb Bool.eqb iterM].
      set (a1 := pub "after_generation" a w).
      assert (Sub : forall d0 out0, moe_best_worst d0 ((a1, w), out0) = (Ok tt, ((a1, w), out0 ++
        [LGeneration (a_gen_num a); LSubpop 0; LValues [VNum (rank_number (S k)); VNum (nof_nat count)]; LValues (map VList first); LValues (map VList lst)]))).
      { intros d0 out0. unfold moe_best_worst. erewrite bind_eq_ok; [|reflexivity]. cbn [fst snd]. erewrite bind_eq_ok; [|reflexivity].
        change (a_pop a1) with (a_pop a). rewrite P1. cbn [write_fronts fst snd]. change (inds_of (with_inds s d)) with d.
        erewrite bind_eq_ok; [|unfold liftA, liftM; cbn [fst snd]; rewrite Em; reflexivity].
        erewrite bind_eq_ok; [|unfold lift; rewrite Es; reflexivity]. cbv beta iota.
        erewrite bind_eq_ok; [|reflexivity]. erewrite bind_eq_ok; [|reflexivity]. erewrite bind_eq_ok; [|reflexivity]. erewrite bind_eq_ok; [|reflexivity].
        unfold ret. cbn [fst snd]. rewrite <- !app_assoc. reflexivity. }
      erewrite bind_eq_ok; [|erewrite bind_eq_ok; [|apply Sub]; reflexivity].
      erewrite bind_eq_ok; [|reflexivity]. cbn [fst snd].
      rewrite (registered_all stats a1) by (unfold stats; rewrite repeat_length; exact St).
      unfold stats. rewrite (minimal_written n (a_gen_num a)) by reflexivity. rewrite <- !app_assoc. reflexivity.
  Qed.

End Fronts.

Section Watched.
  Variables (G : genome -> Prop) (ev : genome -> res fval) (h : list bool) (sched : nat -> list nat) (so : nat -> list nat -> list nat) (s : subpop) (n : nat).
  Hypothesis (EV : gives_objectives ev (length h)) (Htot : total_on G ev) (Hfair : fair sched) (Hany : any_order so).
  Hypothesis (Hsize : 1 <= sp_size s) (Helite : sp_n_elite s = 0).
  Hypothesis Har : forall op, In op (sp_ops s) -> op_arity op <> 0 /\ Nat.divide (op_arity op) (sp_size s).
  Hypothesis Hsel : exists k replace n sels, sp_sels s = SelTournament k replace n :: sels /\ n <> 0 /\ (replace = false -> k <= sp_size s).
  Hypothesis Hop : Forall (closed_operator G) (sp_ops s).
  Variables (user : string -> list (told -> O unit)) (stats : list stat) (Blk : nat -> list line -> Prop).
  Let going := mgoing G ev h s.
  Hypothesis Hw : forall a w, going a w -> MooCompleteP.selected h so s a w -> a_stats a = n ->
    exists ls, Blk (a_gen_num a) ls /\
      forall out, publish_all nsga2_data user stats "after_generation" ((a, w), out) = (Ok tt, ((pub "after_generation" a w, w), out ++ ls)).

  Lemma going_pub' nm a w : going a w -> going (pub nm a w) w.
  Proof.
    intros H. eapply mgoing_skip; [..|apply regen_refl|exact H]; try reflexivity. cbn [a_trace add_trace pub]. rewrite evals_app. cbn [evals flat_map app]. apply app_nil_r.
  Qed.

  Lemma watched_loop todo : forall g a w, going a w -> a_stats a = n ->
    exists a' w' blocks, main_loop (nsga2_generation ev sched so true) todo g (a, w) = (Ok tt, (a', w')) /\
      (forall out, main_loop_all nsga2_data user stats (nsga2_generation ev sched so true) todo g ((a, w), out) = (Ok tt, ((a', w'), out ++ concat blocks))) /\
      going a' w' /\ (exists more, evals (a_trace a') = evals (a_trace a) ++ more /\ length more = length blocks) /\
      forall k ls, nth_error blocks k = Some ls -> Blk (g + k) ls.
  Proof.
    induction todo as [|todo IH]; intros g a w H St.
    { exists a, w, []. split; [reflexivity|]. split; [intros out; cbn; rewrite app_nil_r; reflexivity|]. split; [exact H|]. split; [exists []; rewrite app_nil_r; auto|]. intros [|k] ls; discriminate. }
    destruct (mgoing_body G ev h sched so s EV Htot Hfair Hany Hsize Helite Har Hsel Hop g a w H) as (st & a1 & w1 & E1 & H1 & S1 & O1 & O2 & O3).
    cbn [a_stats a_gen_num a_trace set_gen_num] in O1, O2, O3. rewrite main_loop_body, (bind_eq_ok _ _ _ _ _ E1).
    destruct st.
    - set (a2 := set_final (Some g) a1).
      assert (H2 : going a2 w1) by (eapply mgoing_skip; [..|apply regen_refl|exact H1]; reflexivity).
      destruct (Hw a2 w1 H2 S1) as (ls & B & W); [exact (eq_trans O1 St)|].
      exists (pub "after_generation" a2 w1), w1, [ls]. split; [erewrite bind_eq_ok; [|reflexivity]; apply publish_eq|].
      split; [|split; [apply going_pub'; exact H2|split]].
      + intros out. rewrite main_loop_all_body, (bind_eq_ok _ _ _ _ _ (liftA_ok _ _ _ _ out E1)). erewrite bind_eq_ok; [|reflexivity].
        cbn [concat]. rewrite app_nil_r. apply W.
      + destruct O3 as (x & O3). exists [x]. split; [|reflexivity]. rewrite <- O3. cbn [a_trace pub add_trace]. rewrite evals_app. apply app_nil_r.
      + intros [|[|k]] l X; try discriminate. injection X as <-. rewrite Nat.add_0_r, <- O2. exact B.
    - destruct (Hw a1 w1 H1 S1) as (ls & B & W); [exact (eq_trans O1 St)|].
      destruct (IH (S g) (pub "after_generation" a1 w1) w1 (going_pub' _ _ _ H1) (eq_trans O1 St)) as (a3 & w3 & blocks & E3 & W3 & H3 & L3 & B3).
      exists a3, w3, (ls :: blocks). split; [rewrite (bind_eq_ok _ _ _ _ _ (publish_eq _ _ _)); exact E3|]. split; [|split; [exact H3|split]].
      + intros out. rewrite main_loop_all_body, (bind_eq_ok _ _ _ _ _ (liftA_ok _ _ _ _ out E1)). rewrite (bind_eq_ok _ _ _ _ _ (W out)). rewrite W3.
        cbn [concat]. rewrite app_assoc. reflexivity.
      + destruct O3 as (x & O3). destruct L3 as (more & L3 & L4). exists (x :: more). split; [|cbn; lia]. rewrite L3. cbn [a_trace pub add_trace]. rewrite evals_app.
        change (evals [TPublish "after_generation" (a_gen_num a1) (a_best_run a1) (match a_best_run a1 with Some o => at_ w1 o | None => None end)]) with (@nil (list oid)).
        rewrite app_nil_r, O3, <- app_assoc. reflexivity.
      + intros [|k] l X; [injection X as <-; rewrite Nat.add_0_r, <- O2; exact B|]. replace (g + S k) with (S g + k) by lia. apply B3. exact X.
  Qed.
End Watched.

(** ** The first check *)

Lemma max_zeros l : (forall c, In c l -> c = Fin 0) -> forall c, c = Fin 0 -> fold_left max_num l c = Fin 0.
Proof.
  induction l as [|x l IH]; intros H c ->; [reflexivity|]. cbn [fold_left]. apply IH; [intros y Hy; apply H; right; exact Hy|].
  rewrite (H x (or_introl eq_refl)). reflexivity.
Qed.

Lemma unsorted_goes_on s l t m best gen w : l <> [] -> (forall o, In o l -> crowding_of w o (Fin 0)) -> (forall o, In o l -> exists i, at_ w o = Some i /\ ft_class (i_fit i) = KNSGA2) ->
  crowding_checker t m [with_inds s l] (w_heap w) best gen = Ok (false, m).
Proof.
  intros Nl Z K. unfold crowding_checker.
  assert (E : rmap (crowding_attr (w_heap w)) l = Ok (repeat (Fin 0) (length l))).
  { clear Nl. induction l as [|o l IH]; [reflexivity|]. cbn [rmap length repeat]. destruct (Z o (or_introl eq_refl)) as (i & A & B). destruct (K o (or_introl eq_refl)) as (i' & A' & C).
    assert (i' = i) as -> by congruence. unfold crowding_attr at 1. unfold at_ in A. rewrite A, C, B. cbn [rbind].
    rewrite IH; [reflexivity|intros x Hx; apply Z; right; exact Hx|intros x Hx; apply K; right; exact Hx]. }
  cbn [rmap]. change (inds_of (with_inds s l)) with l. rewrite E. cbn [rbind]. unfold crowding_terminate. cbn [map].
  assert (M : max_crowding (repeat (Fin 0) (length l)) = Fin 0).
  { destruct l as [|o l]; [congruence|]. cbn [length repeat]. unfold max_crowding. cbn [filter]. change (negb (neq_num (Fin 0) PInf)) with true. cbv iota.
    apply max_zeros; [|reflexivity]. intros c Hc. apply filter_In in Hc. apply repeat_spec with (n := length l). apply Hc. }
  rewrite M. cbn [fold_left]. rewrite andb_false_r. reflexivity.
Qed.

Lemma first_check G ev h s a w l : mgoing G ev h s a w -> 1 <= sp_size s ->
  Forall (fun c => exists t m, c = CkUser (crowding_checker t) m) (a_checkers a) ->
  a_pop a = [with_inds s l] -> (forall o, In o l -> crowding_of w o (Fin 0)) ->
  exists a', should_terminate (a, w) = (Ok false, (a', w)) /\ mgoing G ev h s a' w /\ a_max_gen a' = a_max_gen a /\ a_stats a' = a_stats a /\ evals (a_trace a') = evals (a_trace a).
Proof.
  intros H Hs Hc P Z. destruct (mg_pop _ _ _ _ _ _ H) as (l' & P' & L & _ & _ & K). assert (l' = l) as -> by (rewrite P in P'; injection P' as ->; reflexivity).
  destruct (mgoing_terminate G ev h s a w H) as (st & a' & E & H'). exists a'.
  destruct (mg_best _ _ _ _ _ _ H) as (b & B & _). unfold should_terminate in E. erewrite bind_eq_ok in E; [|reflexivity]. cbn [fst] in E. rewrite B in E.
  assert (R : forall cs, Forall (fun c => exists t m, c = CkUser (crowding_checker t) m) cs ->
    mapM (run_checker (a_pop a) b (a_gen_num a)) cs w = (Ok (map (fun c => (false, c)) cs), w)).
  { induction cs as [|c cs IH]; intros F; [reflexivity|]. inversion F as [|? ? (t & m & ->) F']; subst. cbn [mapM map].
    erewrite bind_eq_ok; [rewrite (bind_eq_ok _ _ _ _ _ (IH F')); reflexivity|]. cbn [run_checker]. unfold bind, get, lift, ret. rewrite P.
    rewrite unsorted_goes_on; [reflexivity|intros ->; cbn in L; lia|exact Z|]. intros o Ho. destruct (K o Ho) as [(i & A & C & _) _]. eauto. }
  assert (N : existsb (fun b => b) (map fst (map (fun c : checker => (false, c)) (a_checkers a))) = false).
  { clear. induction (a_checkers a) as [|c cs IH]; [reflexivity|]. exact IH. }
  erewrite bind_eq_ok in E; [|unfold liftM, run_checkers; cbn [fst snd]; rewrite (bind_eq_ok _ _ _ _ _ (R _ Hc)); reflexivity].
  cbn [fst snd] in E. erewrite bind_eq_ok in E; [|reflexivity]. erewrite bind_eq_ok in E; [|reflexivity]. rewrite N in E. cbn [fst snd] in E.
  injection E as <- <-. split; [|split; [exact H'|split; [reflexivity|split; [reflexivity|]]]].
  - unfold should_terminate. erewrite bind_eq_ok; [|reflexivity]. cbn [fst]. rewrite B.
    erewrite bind_eq_ok; [|unfold liftM, run_checkers; cbn [fst snd]; rewrite (bind_eq_ok _ _ _ _ _ (R _ Hc)); reflexivity].
    cbn [fst snd]. erewrite bind_eq_ok; [|reflexivity]. erewrite bind_eq_ok; [|reflexivity]. rewrite N. reflexivity.
  - cbn [a_trace add_trace set_checkers]. rewrite evals_app. cbn [evals flat_map app]. apply app_nil_r.
Qed.

(** ** The run *)

Section Run.
  Variables (user : string -> list (told -> O unit)) (stats : list stat).
  Hypothesis Hq : forall nm, String.eqb nm "after_generation" = false -> user nm = [].

  Lemma quiet_event nm a w out : String.eqb nm "after_generation" = false ->
    publish_all nsga2_data user stats nm ((a, w), out) = (Ok tt, ((pub nm a w, w), out)).
  Proof.
    intros E. unfold publish_all. rewrite (bind_eq_ok _ _ _ _ _ (liftA_ok _ _ _ _ out (publish_eq nm a w))).
    erewrite bind_eq_ok; [|reflexivity]. unfold call_subscribers. rewrite (Hq nm E), E. reflexivity.
  Qed.

  Lemma quiet_init ev sched e e' out : initialize ev sched (length stats) e = (Ok tt, e') ->
    initialize_all ev sched nsga2_data user stats (e, out) = (Ok tt, (e', out)).
  Proof.
    intros E. unfold initialize in E. unfold initialize_all.
    mb E as a t E1. rewrite (bind_eq_ok _ _ _ _ _ (liftA_ok _ _ _ _ out E1)).
    mb E as x t1 E2. rewrite (bind_eq_ok _ _ _ _ _ (liftA_ok _ _ _ _ out E2)).
    mb E as pop t2 E3. rewrite (bind_eq_ok _ _ _ _ _ (liftA_ok _ _ _ _ out E3)).
    mb E as x1 t3 E4. rewrite (bind_eq_ok _ _ _ _ _ (liftA_ok _ _ _ _ out E4)).
    mb E as best t4 E5. rewrite (bind_eq_ok _ _ _ _ _ (liftA_ok _ _ _ _ out E5)).
    mb E as x2 t5 E6. rewrite (bind_eq_ok _ _ _ _ _ (liftA_ok _ _ _ _ out E6)).
    mb E as x3 t6 E7. destruct t5 as [a5 w5]. rewrite (bind_eq_ok _ _ _ _ _ (quiet_event "init" a5 w5 out eq_refl)).
    rewrite publish_eq in E7. injection E7 as <- <-. apply liftA_ok. exact E.
  Qed.

  Lemma watched_run (G : genome -> Prop) ev h sched so s a w (Blk : nat -> list line -> Prop) :
    (forall a w, mgoing G ev h s a w -> MooCompleteP.selected h so s a w -> a_stats a = length stats ->
      exists ls, Blk (a_gen_num a) ls /\
        forall out, publish_all nsga2_data user stats "after_generation" ((a, w), out) = (Ok tt, ((pub "after_generation" a w, w), out ++ ls))) ->
    gives_objectives ev (length h) -> total_on G ev -> fair sched -> any_order so ->
    a_trace a = [] -> a_stats a = 0 -> moo_configured h a w s -> closed_under G w s -> (forall g, G g -> printable g) ->
    (forall l o, sp_inds s = Some l -> In o l -> crowding_of w o (Fin 0)) ->
    Forall (fun c => exists t m, c = CkUser (crowding_checker t) m) (a_checkers a) ->
    exists a' w' blocks b i,
      nsga2_evolve_all ev sched so true user stats ((a, w), []) = (Ok tt, ((a', w'), concat blocks)) /\
      nsga2_evolve ev sched so true (length stats) (a, w) = (Ok tt, (a', w')) /\
      length (evals (a_trace a')) = S (length blocks) /\
      (forall g ls, nth_error blocks g = Some ls -> Blk (S g) ls) /\
      (exists a1 w1 l, initialize ev sched (length stats) (a, w) = (Ok tt, (a1, w1)) /\ mgoing G ev h s a1 w1 /\ a_pop a1 = [with_inds s l] /\
         hd [] (evals (a_trace a')) = l) /\
      mgoing G ev h s a' w' /\ a_best_run a' = Some b /\ In b (hd [] (evals (a_trace a'))) /\ at_ w' b = Some i /\ G (i_genome i).
  Proof.
    intros Hw EV Htot Hfair Hany Htr Hst C K Pr Un Hck. pose proof (mc_size _ _ _ _ C) as Hsize. pose proof (mc_elite _ _ _ _ C) as He.
    pose proof (mc_arities _ _ _ _ C) as Har. pose proof (mc_sel _ _ _ _ C) as Hsel. pose proof (proj1 K) as Hop.
    destruct (moo_started G ev h sched s (length stats) a w EV Htot Hfair Htr C K) as (a1 & w2 & Ei & H1 & S1 & M1 & C1 & l & P1 & V1 & U1).
    assert (Z1 : forall o, In o l -> crowding_of w2 o (Fin 0)) by (apply U1; intros l' El o Ho; eapply Un; eauto).
    destruct (first_check G ev _ s a1 w2 l H1 Hsize) as (a2 & E2 & H2 & M2 & S2 & V2); [rewrite C1; exact Hck|exact P1|exact Z1|].
    destruct (watched_loop G ev h sched so s (length stats) EV Htot Hfair Hany Hsize He Har Hsel Hop user stats Blk Hw (a_max_gen a2) 1 a2 w2 H2) as (a3 & w3 & blocks & E3 & W3 & H3 & L3 & B3).
    { rewrite S2, S1, Hst. reflexivity. }
    pose proof (going_pub' G ev h s "evolution_finished" a3 w3 H3) as H4.
    destruct (mgoing_finish _ _ _ _ _ _ H4) as (b & i & B & Fb & A & Gi & Ef). rewrite (show_printable i (Pr _ Gi)) in Ef.
    destruct L3 as (more & L3 & L4).
    assert (Ev : evals (a_trace (pub "evolution_finished" a3 w3)) = l :: more).
    { cbn [a_trace pub add_trace]. rewrite evals_app. etransitivity; [apply app_nil_r|]. rewrite L3, V2, V1. reflexivity. }
    exists (pub "evolution_finished" a3 w3), w3, blocks, b, i. split; [|split; [|split; [|split; [|split; [|auto]]]]].
    - unfold nsga2_evolve_all, evolve_all_with.
      rewrite (bind_eq_ok _ _ _ _ _ (quiet_init ev sched (a, w) _ [] Ei)).
      rewrite (bind_eq_ok _ _ _ _ _ (liftA_ok _ _ _ _ [] E2)).
      erewrite bind_eq_ok; [|erewrite bind_eq_ok; [|reflexivity]; cbn [fst snd]; apply W3].
      rewrite (bind_eq_ok _ _ _ _ _ (quiet_event "evolution_finished" a3 w3 _ eq_refl)). apply liftA_ok. exact Ef.
    - unfold nsga2_evolve, evolve_with. rewrite (bind_eq_ok _ _ _ _ _ Ei), (bind_eq_ok _ _ _ _ _ E2).
      erewrite bind_eq_ok; [|erewrite bind_eq_ok; [|reflexivity]; cbn [fst snd]; exact E3]. rewrite (bind_eq_ok _ _ _ _ _ (publish_eq _ _ _)). exact Ef.
    - rewrite Ev. cbn. congruence.
    - intros g ls X. apply (B3 g ls X).
    - exists a1, w2, l. rewrite Ev. auto.
  Qed.
End Run.

Lemma fronts_quiet nm : String.eqb nm "after_generation" = false -> fronts_shown nm = [].
Proof. unfold fronts_shown. intros ->. reflexivity. Qed.

Lemma fronts_run (G : genome -> Prop) ev h0 h1 sched so s n a w : gives_objectives ev 2 -> total_on G ev -> fair sched -> any_order so ->
  a_trace a = [] -> a_stats a = 0 -> moo_configured [h0; h1] a w s -> closed_under G w s -> (forall g, G g -> printable g) ->
  (forall l o, sp_inds s = Some l -> In o l -> crowding_of w o (Fin 0)) ->
  Forall (fun c => exists t m, c = CkUser (crowding_checker t) m) (a_checkers a) ->
  exists a' w' blocks,
    nsga2_evolve_all ev sched so true fronts_shown (repeat SMinimal n) ((a, w), []) = (Ok tt, ((a', w'), concat blocks)) /\
    nsga2_evolve ev sched so true n (a, w) = (Ok tt, (a', w')) /\
    length (evals (a_trace a')) = S (length blocks) /\
    forall g ls, nth_error blocks g = Some ls -> fronts_block G ev (sp_size s) n (S g) ls.
Proof.
  intros EV Htot Hfair Hany Htr Hst C K Pr Un Hck. pose proof (mc_size _ _ _ _ C) as Hsize.
  destruct (watched_run fronts_shown (repeat SMinimal n) fronts_quiet G ev [h0; h1] sched so s a w (fronts_block G ev (sp_size s) n))
    as (a' & w' & blocks & b & i & E1 & E2 & E3 & E4 & _); auto.
  - intros a1 w1 H1 S1 St. rewrite repeat_length in St. apply (fronts_written G ev h0 h1 so s n); auto. apply (mc_elite _ _ _ _ C).
  - rewrite repeat_length in E2. exists a', w', blocks. auto.
Qed.

(** ** The minimal statistics alone *)

Lemma minimal_run (G : genome -> Prop) ev h sched so s n a w : gives_objectives ev (length h) -> total_on G ev -> fair sched -> any_order so ->
  a_trace a = [] -> a_stats a = 0 -> moo_configured h a w s -> closed_under G w s -> (forall g, G g -> printable g) ->
  (forall l o, sp_inds s = Some l -> In o l -> crowding_of w o (Fin 0)) ->
  Forall (fun c => exists t m, c = CkUser (crowding_checker t) m) (a_checkers a) ->
    exists a' w' blocks b i,
      nsga2_evolve_all ev sched so true (fun _ => []) (repeat SMinimal n) ((a, w), []) = (Ok tt, ((a', w'), concat blocks)) /\
      nsga2_evolve ev sched so true n (a, w) = (Ok tt, (a', w')) /\
      length (evals (a_trace a')) = S (length blocks) /\
      (forall g ls, nth_error blocks g = Some ls -> ls = repeat (LGeneration (S g)) n) /\
      mgoing G ev h s a' w' /\ a_best_run a' = Some b /\ In b (hd [] (evals (a_trace a'))) /\ at_ w' b = Some i /\ G (i_genome i).
Proof.
  intros EV Htot Hfair Hany Htr Hst C K Pr Un Hck.
  destruct (watched_run (fun _ => []) (repeat SMinimal n) (fun _ _ => eq_refl) G ev h sched so s a w (fun g ls => ls = repeat (LGeneration g) n))
    as (a' & w' & blocks & b & i & E1 & E2 & E3 & E4 & _ & E5); auto.
  - intros a1 w1 H1 S1 St. eexists. split; [reflexivity|]. intros out. unfold publish_all.
    rewrite (bind_eq_ok _ _ _ _ _ (liftA_ok _ _ _ _ out (publish_eq _ a1 w1))). fold (pub "after_generation" a1 w1).
    erewrite bind_eq_ok; [|reflexivity]. unfold call_subscribers. cbn [String.eqb Ascii.eqb Bool.eqb iterM].
    erewrite bind_eq_ok; [|reflexivity]. erewrite bind_eq_ok; [|reflexivity]. cbn [fst snd].
    rewrite registered_all by exact St. apply minimal_written. reflexivity.
  - rewrite repeat_length in E2. exists a', w', blocks, b, i. auto.
Qed.

(** ** One call *)

Lemma corners_of r ms c w l : reports w l ms -> get_corners r ms = Ok c -> 1 <= length c <= 2 /\ Forall (corner_of w l r) c.
Proof.
  intros R E. split; [apply (corners_in _ _ _ E)|]. unfold get_corners in E. set (d := dedup _) in E. destruct ((length d =? 1) || (length d =? 2)); [|discriminate].
  injection E as <-. apply Forall_forall. intros p Hp. unfold d in Hp. apply dedup_in, in_map_iff in Hp. destruct Hp as (m & <- & Hm). apply filter_In in Hm. destruct Hm as [Hm Hf].
  induction R as [|o m' l ms (i & v & A & V & ->) R IH]; [destruct Hm|]. destruct Hm as [<-|Hm].
  - apply andb_true_iff in Hf. exists o, i. cbn. intuition.
  - destruct (IH Hm) as (o' & i' & Ho & X). exists o', i'. split; [right; exact Ho|exact X].
Qed.

Lemma max_in l : forall r, In (fold_left max_num l r) (r :: l).
Proof.
  induction l as [|x l IH]; intros r; [left; reflexivity|]. cbn [fold_left]. destruct (IH (max_num r x)) as [H|H]; [|right; right; exact H].
  rewrite <- H. unfold max_num. destruct (nlt _ _); [right; left|left]; reflexivity.
Qed.

Lemma ranks_in w l ms r : reports w l ms -> In r (map (fun m => fst (fst m)) ms) -> exists o i, In o l /\ at_ w o = Some i /\ ft_rank (i_fit i) = r.
Proof.
  intros R. induction R as [|o m l ms (i & v & A & V & ->) R IH]; [intros []|]. intros [<-|H]; [exists o, i; cbn; auto|].
  destruct (IH H) as (o' & i' & Ho & X). exists o', i'. split; [right; exact Ho|exact X].
Qed.

Lemma front_members l : forall w ms w', mapM front_member l w = (Ok ms, w') -> w' = w /\ reports w l ms.
Proof.
  induction l as [|o l IH]; intros w ms w' H; cbn [mapM] in H; [injection H as <- <-; split; [reflexivity|constructor]|].
  mb H as m w1 E1. mb H as ms' w2 E2. injection H as <- <-. unfold front_member in E1. mb E1 as i w3 E3.
  unfold load in E3. destruct (nth_error (w_heap w) o) as [j|] eqn:A; [|discriminate]. injection E3 as <- <-.
  destruct (ft_class (i_fit j)) eqn:C; try discriminate. mb E1 as v w4 E4. unfold lift in E4. destruct (get_pure_fitness (i_fit j)) as [v'|] eqn:P; [|discriminate]. injection E4 as <- <-.
  destruct v' as [|x|v'|o']; try discriminate. injection E1 as <- <-. destruct (IH _ _ _ E2) as [-> R]. split; [reflexivity|]. constructor; [|exact R].
  exists j, v'. split; [exact A|]. split; [|reflexivity]. unfold get_pure_fitness in P. destruct (ft_evaluated (i_fit j)); [|discriminate]. congruence.
Qed.

Lemma fronts_call d a w ls st' ls' : moe_best_worst d ((a, w), ls) = (Ok tt, (st', ls')) ->
  st' = (a, w) /\ exists bs, ls' = ls ++ LGeneration (a_gen_num a) :: concat bs /\ length bs = length (a_pop a) /\
    forall i s b, nth_error (a_pop a) i = Some s -> nth_error bs i = Some b -> fronts_lines w i (inds_of s) b.
Proof.
  intros H. unfold moe_best_worst in H. mb H as a1 s1 E1. injection E1 as <- <-. mb H as u s2 E2. injection E2 as _ <-. cbn [fst snd] in H.
  assert (K : forall pop index out st' out', write_fronts index pop ((a, w), out) = (Ok tt, (st', out')) ->
    st' = (a, w) /\ exists bs, out' = out ++ concat bs /\ length bs = length pop /\
      forall i s b, nth_error pop i = Some s -> nth_error bs i = Some b -> fronts_lines w (index + i) (inds_of s) b).
  { clear. induction pop as [|s pop IH]; intros index out st' out' H; cbn [write_fronts] in H.
    { injection H as <- <-. split; [reflexivity|]. exists []. split; [rewrite app_nil_r; reflexivity|]. split; [reflexivity|]. intros [|i] ? ? [=]. }
    mb H as ms s1 E1. unfold liftA, liftM in E1. cbn [fst snd] in E1. destruct (mapM front_member (inds_of s) w) as [[ms'|e] w1] eqn:Em; [|discriminate].
    injection E1 as <- <-. destruct (front_members _ _ _ _ Em) as [-> R].
    mb H as r s2 E2. unfold lift in E2. destruct (moe_statistics ms') as [[[[first rank] lst] count]|] eqn:Es; [|discriminate]. injection E2 as <- <-.
    mb H as u0 q0 I0. unfold info in I0. injection I0 as _ <-.
    mb H as u1 q1 I1. unfold info in I1. injection I1 as _ <-.
    mb H as u2 q2 I2. unfold info in I2. injection I2 as _ <-.
    mb H as u3 q3 I3. unfold info in I3. injection I3 as _ <-.
    cbn [fst snd] in H.
    apply IH in H. destruct H as (-> & bs & -> & L & F). split; [reflexivity|].
    exists ([LSubpop index; LValues [VNum rank; VNum (nof_nat count)]; LValues (map VList first); LValues (map VList lst)] :: bs).
    split; [rewrite <- !app_assoc; reflexivity|]. split; [cbn; congruence|]. intros [|i] s' b Hs Hb.
    - injection Hs as <-. injection Hb as <-. rewrite Nat.add_0_r. unfold moe_statistics in Es.
      destruct (get_corners (Fin 1) ms') as [c|] eqn:E1; [|discriminate]. cbn [rbind] in Es. destruct (map _ ms') as [|r rs] eqn:Er; [discriminate|].
      destruct (get_corners (fold_left max_num rs r) ms') as [c'|] eqn:E2; [|discriminate]. cbn [rbind] in Es. injection Es as <- <- <- <-.
      destruct (corners_of _ _ _ _ _ R E1), (corners_of _ _ _ _ _ R E2). exists (fold_left max_num rs r), (length (filter (fun m => neq_num (fst (fst m)) (Fin 1)) ms')), c, c'.
      split; [reflexivity|]. split; [|auto]. apply (ranks_in _ _ _ _ R). rewrite Er. apply max_in.
    - rewrite Nat.add_succ_r. apply (F i s' b Hs Hb). }
  apply K in H. destruct H as (-> & bs & -> & L & F). split; [reflexivity|]. exists bs. split; [rewrite <- app_assoc; reflexivity|]. split; [exact L|exact F].
Qed.

Lemma fronts_scalar d a w ls s rest o l i : a_pop a = s :: rest -> inds_of s = o :: l -> at_ w o = Some i -> ft_class (i_fit i) <> KNSGA2 ->
  moe_best_worst d ((a, w), ls) = (Raise AttributeError, ((a, w), ls ++ [LGeneration (a_gen_num a)])).
Proof.
  intros P I A C. unfold moe_best_worst. erewrite bind_eq_ok; [|reflexivity]. cbn [fst snd]. erewrite bind_eq_ok; [|reflexivity]. cbn [fst snd].
  rewrite P. cbn [write_fronts]. rewrite I. cbn [mapM]. apply bind_eq_raise. unfold liftA, liftM. cbn [fst snd].
  rewrite (bind_eq_raise _ _ _ AttributeError w); [reflexivity|]. unfold front_member. rewrite (bind_eq_ok _ _ _ _ _ (load_at _ _ _ A)).
  destruct (ft_class (i_fit i)); [reflexivity|reflexivity|congruence].
Qed.
