(** * A fitness function that raises less often: completed runs stay as they are. *)
From Coq Require Import Lia.
From Verif.Proofs Require Import StatP EvoFinalP TraceP CompleteP.
From Verif.Model Require Import World Evolution Statistics.
From Verif.Spec Require Import WorldSpec FitnessSpec SelSpec EvoSpec CompleteSpec ShowSpec StatSpec.
Open Scope nat_scope.
Open Scope list_scope.

(** Where the first completes, the second does the same. *)
Definition leads {S X} (m m' : SE S X) : Prop := forall s x s1, m s = (Ok x, s1) -> m' s = (Ok x, s1).

Lemma leads_refl {S X} (m : SE S X) : leads m m.
Proof. intros s x s1 H. exact H. Qed.

Lemma leads_bind {S X Y} (m m' : SE S X) (k k' : X -> SE S Y) : leads m m' -> (forall x, leads (k x) (k' x)) -> leads (bind m k) (bind m' k').
Proof.
  intros H K s y s1 E. unfold bind in *. destruct (m s) as [[x|e] s2] eqn:Em; [|discriminate].
  rewrite (H _ _ _ Em). apply K. exact E.
Qed.

Lemma leads_liftM {X} (m m' : M X) : leads m m' -> leads (liftM m) (liftM m').
Proof.
  intros H s x s1 E. unfold liftM in *. destruct (m (snd s)) as [r w] eqn:Em. injection E as -> <-. rewrite (H _ _ _ Em). reflexivity.
Qed.

Lemma leads_liftA {X} (m m' : A X) : leads m m' -> leads (liftA m) (liftA m').
Proof.
  intros H s x s1 E. unfold liftA in *. destruct (m (fst s)) as [r w] eqn:Em. injection E as -> <-. rewrite (H _ _ _ Em). reflexivity.
Qed.

Section Lead.
  Variables ev ev' : genome -> res fval.
  Hypothesis L : forall g v, ev g = Ok v -> ev' g = Ok v.
  Variable sched : nat -> list nat.

  Lemma result_lead gs i : forall r, result_of i (completed ev sched gs) = Ok r -> result_of i (completed ev' sched gs) = Ok r.
  Proof.
    unfold completed. induction (sched (length gs)) as [|j l IH]; intros r H; cbn [flat_map] in *; [exact H|].
    destruct (nth_error gs j) as [g|]; cbn [app] in *; [|auto]. cbn [result_of] in *. destruct (i =? j); [auto|auto].
  Qed.

  Lemma assign_lead gs : forall is inds, leads (assign_results inds (map (fun i => result_of i (completed ev sched gs)) is))
                                              (assign_results inds (map (fun i => result_of i (completed ev' sched gs)) is)).
  Proof.
    induction is as [|i is IH]; intros [|o inds]; try apply leads_refl. cbn [map assign_results]. intros s x s1 E.
    unfold bind in E |- *. unfold lift in *. destruct (result_of i (completed ev sched gs)) as [v|e] eqn:Er; [|discriminate].
    rewrite (result_lead _ _ _ Er). revert E. apply leads_bind; [apply leads_refl|]. intros _. apply IH.
  Qed.

  Definition all_ok (l : list (nat * res fval)) : Prop := Forall (fun p => exists v, snd p = Ok v) l.

  Lemma completed_all gs : all_ok (completed ev sched gs) -> completed ev' sched gs = completed ev sched gs.
  Proof.
    unfold completed, all_ok. induction (sched (length gs)) as [|j l IH]; intros H; cbn [flat_map] in *; [reflexivity|].
    apply Forall_app in H. destruct H as [H1 H2]. rewrite (IH H2). f_equal. destruct (nth_error gs j) as [g|]; [|reflexivity].
    inversion H1 as [|? ? [v Hv] _]; subst. cbn [snd] in Hv. rewrite Hv. rewrite (L _ _ Hv). reflexivity.
  Qed.

  (** The outcome of a task that raised is that it raised. *)
  Lemma workers_raised inds : forall done w outs w', run_workers inds done w = (Ok outs, w') ->
    Forall2 (fun d o => fst o = fst d /\ forall e, snd d = Raise e -> exists e', snd o = Raise e') done outs.
  Proof.
    unfold run_workers. induction done as [|[i r] done IH]; intros w outs w' H; cbn [mapM] in H; [mr H; constructor|].
    mb H as x w1 E. mb H as xs w2 E1. mr H. constructor; [|eapply IH; exact E1]. cbn [fst snd] in *.
    destruct (nth_error inds i) as [o|].
    - mb E as y w3 E2. mr E. cbn [fst snd]. split; [reflexivity|]. intros e ->. unfold worker in E2. mr E2. eauto.
    - mr E. cbn [fst snd]. split; [reflexivity|]. eauto.
  Qed.

  Lemma rmap_in {X Y} (f : X -> res Y) l : forall ys, rmap f l = Ok ys -> forall x, In x l -> exists y, f x = Ok y.
  Proof.
    induction l as [|a l IH]; intros ys H x Hx; [destruct Hx|]. cbn [rmap] in H. destruct (f a) as [y|e] eqn:E; [|discriminate]. cbn [rbind] in H.
    destruct (rmap f l) as [zs|e]; [|discriminate]. destruct Hx as [<-|Hx]; [eauto|]. eapply IH; eauto.
  Qed.

  Lemma evaluate_lead m alive inds : leads (evaluate_inds ev sched m alive inds) (evaluate_inds ev' sched m alive inds).
  Proof.
    unfold evaluate_inds. intros w b w' H. mb H as gs w1 E. 
    assert (Lg : length gs = length inds).
    { clear H. revert gs w w1 E. induction inds as [|o inds IH]; intros gs w w1 E; cbn [mapM] in E; [mr E; reflexivity|].
      mb E as g w2 E1. mb E as xs w3 E2. mr E. cbn. f_equal. eapply IH; eauto. }
    rewrite (bind_eq_ok _ _ _ _ _ E). clear E w.
    mb H as rs w2 E. unfold lift in E. destruct (executor_map ev sched alive gs) as [rs'|e] eqn:Ex; [|discriminate]. injection E as -> ->.
    unfold executor_map in Ex.
    assert (Ex' : exists rs', executor_map ev' sched alive gs = Ok rs' /\
              (rs = [] /\ rs' = [] \/ rs = map (fun i => result_of i (completed ev sched gs)) (seq 0 (length gs)) /\
                                      rs' = map (fun i => result_of i (completed ev' sched gs)) (seq 0 (length gs)))).
    { unfold executor_map. destruct gs as [|g gs]; [injection Ex as <-; exists []; auto|]. destruct alive; [|discriminate]. injection Ex as <-. eauto. }
    destruct Ex' as (rs' & Ex' & R). unfold bind at 1, lift at 1. rewrite Ex'. destruct m.
    - revert H. apply leads_bind; [|intros; apply leads_refl]. destruct R as [(-> & ->)|(-> & ->)]; [apply leads_refl|apply assign_lead].
    - assert (Al : all_ok (completed ev sched gs)).
      { mb H as outs w3 E1. mb H as u w4 E2. clear H. unfold lift in E2.
        destruct (rmap (fun i => result_of i outs) (seq 0 (length inds))) as [us|e] eqn:Eu; [|discriminate].
        apply workers_raised in E1. apply Forall_forall. intros [i r] Hin. cbn [snd]. destruct r as [v|e]; [eauto|]. exfalso.
        assert (Hi : exists g, nth_error gs i = Some g /\ ev g = Raise e).
        { unfold completed in Hin. apply in_flat_map in Hin. destruct Hin as (j & _ & Hin). destruct (nth_error gs j) as [g|] eqn:Eg; [|destruct Hin].
          destruct Hin as [[= -> Ee]|[]]. eauto. }
        destruct Hi as (g & Hg & Ev). assert (Lt : i < length inds) by (rewrite <- Lg; apply nth_error_Some; congruence).
        destruct (rmap_in _ _ _ Eu i) as (y & Ey); [apply in_seq; lia|].
        assert (Al : forall r, In (i, r) (completed ev sched gs) -> r = Raise e).
        { intros r Hr. unfold completed in Hr. apply in_flat_map in Hr. destruct Hr as (j & _ & Hr). destruct (nth_error gs j) as [g'|] eqn:Eg; [|destruct Hr].
          destruct Hr as [[= -> Er]|[]]. congruence. }
        revert Ey Al E1 Hin. generalize (completed ev sched gs) as done. clear. intros done Ey Al F. revert Ey Al.
        induction F as [|[j r] [j' o] done outs (Ej & Eo) F IH]; intros Ey Al Hin; [destruct Hin|]. cbn [fst snd] in *. subst j'. cbn [result_of] in Ey.
        destruct (i =? j) eqn:Eij.
        - apply Nat.eqb_eq in Eij. subst j. rewrite (Al r (or_introl eq_refl)) in Eo. destruct (Eo e eq_refl) as (e' & ->). discriminate.
        - destruct Hin as [[= -> _]|Hin]; [rewrite Nat.eqb_refl in Eij; discriminate|]. apply IH; auto. intros r' Hr'. apply Al. right. exact Hr'. }
      rewrite (completed_all _ Al). exact H.
  Qed.

  Lemma act_lead : leads (act_evaluator ev sched) (act_evaluator ev' sched).
  Proof.
    unfold act_evaluator. apply leads_bind; [apply leads_refl|]. intros a. apply leads_bind; [|intros; apply leads_refl].
    apply leads_liftM. unfold evaluate_population. destruct (a_pop a) as [|s [|]]; try apply leads_refl. apply evaluate_lead.
  Qed.

  Lemma initialize_lead n : leads (initialize ev sched n) (initialize ev' sched n).
  Proof.
    unfold initialize. repeat (apply leads_bind; [apply leads_refl|intros]). apply leads_bind; [apply act_lead|]. intros. apply leads_refl.
  Qed.

  Lemma iteration_lead : leads (generation_iteration ev sched) (generation_iteration ev' sched).
  Proof.
    unfold generation_iteration. repeat (apply leads_bind; [apply leads_refl|intros]). apply leads_bind; [apply act_lead|]. intros. apply leads_refl.
  Qed.

  Lemma loop_lead it it' : leads it it' -> forall todo gen, leads (main_loop it todo gen) (main_loop it' todo gen).
  Proof.
    intros H todo. induction todo as [|todo IH]; intros gen; cbn [main_loop]; [apply leads_refl|].
    apply leads_bind; [apply leads_refl|intros]. apply leads_bind; [apply leads_refl|intros]. apply leads_bind; [apply leads_refl|intros].
    apply leads_bind; [apply leads_refl|intros]. apply leads_bind; [apply leads_refl|intros]. apply leads_bind; [exact H|intros].
    apply leads_bind; [apply leads_refl|]. intros [|]; [apply leads_refl|]. apply leads_bind; [apply leads_refl|]. intros. apply IH.
  Qed.

  Lemma evolve_lead n : leads (evolve ev sched n) (evolve ev' sched n).
  Proof.
    unfold evolve, evolve_with. apply leads_bind; [apply initialize_lead|intros]. apply leads_bind; [apply leads_refl|]. intros st.
    apply leads_bind; [|intros; apply leads_refl]. destruct st; [apply leads_refl|]. apply leads_bind; [apply leads_refl|]. intros.
    apply loop_lead, iteration_lead.
  Qed.

  Lemma loop_all_lead d user stats it it' : leads it it' -> forall todo gen, leads (main_loop_all d user stats it todo gen) (main_loop_all d user stats it' todo gen).
  Proof.
    intros H todo. induction todo as [|todo IH]; intros gen; cbn [main_loop_all]; [apply leads_refl|].
    apply leads_bind; [apply leads_refl|intros]. apply leads_bind; [apply leads_refl|intros]. apply leads_bind; [apply leads_refl|intros].
    apply leads_bind; [apply leads_refl|intros]. apply leads_bind; [apply leads_refl|intros]. apply leads_bind; [apply leads_liftA, H|intros].
    apply leads_bind; [apply leads_refl|]. intros [|]; [apply leads_refl|]. apply leads_bind; [apply leads_refl|]. intros. apply IH.
  Qed.

  Lemma evolve_all_lead user stats : leads (evolve_all ev sched user stats) (evolve_all ev' sched user stats).
  Proof.
    unfold evolve_all, evolve_all_with. apply leads_bind.
    { unfold initialize_all. repeat (apply leads_bind; [apply leads_refl|intros]). apply leads_bind; [apply leads_liftA, act_lead|]. intros. apply leads_refl. }
    intros. apply leads_bind; [apply leads_refl|]. intros st.
    apply leads_bind; [|intros; apply leads_refl]. destruct st; [apply leads_refl|]. apply leads_bind; [apply leads_refl|]. intros.
    apply loop_all_lead, iteration_lead.
  Qed.
End Lead.

(** The function that raises where [ev] does not give a number. *)
Definition numeric (ev : genome -> res fval) (g : genome) : res fval :=
  match ev g with
  | Ok (VNum x) => if is_nan x then Raise ValueError else Ok (VNum x)
  | Ok _ => Raise ValueError
  | Raise e => Raise e
  end.

Lemma numeric_ok ev g v : numeric ev g = Ok v -> ev g = Ok v /\ exists x, v = VNum x /\ is_nan x = false.
Proof.
  unfold numeric. destruct (ev g) as [[|x| |]|e]; try discriminate. destruct (is_nan x) eqn:E; [discriminate|]. intros [= <-]. eauto.
Qed.

Lemma numeric_gives ev : gives_numbers (numeric ev).
Proof. intros g v H. apply numeric_ok in H. apply H. Qed.

Lemma numeric_total (G : genome -> Prop) ev : (forall g, G g -> exists x, ev g = Ok (VNum x) /\ is_nan x = false) -> total_on G (numeric ev).
Proof. intros H g Hg. destruct (H g Hg) as (x & E & N). exists (VNum x). unfold numeric. rewrite E, N. reflexivity. Qed.

Lemma numbers_completes : forall (G : genome -> Prop) ev sched h s n a w,
  (forall g, G g -> exists x, ev g = Ok (VNum x) /\ is_nan x = false) -> fair sched -> a_trace a = [] -> configured h a w s -> closed_under G w s ->
  (forall g, G g -> printable g) ->
  exists a' w', evolve ev sched n (a, w) = (Ok tt, (a', w')) /\
    forall l, In l (evals (a_trace a')) -> length l = sp_size s /\ genomes_in G l w'.
Proof.
  intros G ev sched h s n a w Hn Hf Ht C K Hp.
  destruct (run_completes G (numeric ev) sched h s n a w (numeric_gives ev) (numeric_total G ev Hn) Hf Ht C K Hp) as (a' & w' & E & V).
  exists a', w'. split; [|exact V]. apply (evolve_lead (numeric ev) ev); [|exact E]. intros g v H. apply numeric_ok in H. apply H.
Qed.
