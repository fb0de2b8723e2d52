(** Proofs about the termination checkers (C38, C39). *)
From Coq Require Import Qabs Qminmax Lqa.
From Verif.Proofs Require Export AgainP.
From Verif.Model Require Import Tree World Evolution.
Open Scope nat_scope.

Lemma nle_fin x y : nle (Fin x) (Fin y) = true <-> (x <= y)%Q.
Proof.
  unfold nle. simpl. rewrite orb_true_iff, Qlt_b_spec, Qeq_bool_iff. split; [intros [H|H]; lra|].
  intros H. destruct (Qlt_le_dec x y); [left; assumption|right; lra].
Qed.

Lemma nabs_fin x : exists y, nabs (Fin x) = Fin y /\ (y == Qabs x)%Q.
Proof. eexists. split; [reflexivity|]. reflexivity. Qed.

Lemma isclose_iff x y : isclose (Fin x) (Fin y) = true <-> close_to x y.
Proof.
  unfold isclose, close_to. destruct (neq_num (Fin x) (Fin y)) eqn:E.
  - simpl in E. apply Qeq_bool_iff in E. split; [|reflexivity]. intros _.
    assert (Z : (Qabs (x - y) == 0)%Q) by (rewrite E; setoid_replace (y - y)%Q with 0%Q by ring; reflexivity).
    rewrite Z. apply Qmult_le_0_compat; [discriminate|]. eapply Qle_trans; [apply Qabs_nonneg|apply Q.le_max_l].
  - destruct (nlt (nabs (Fin x)) (nabs (Fin y))) eqn:L; simpl in L.
    + apply Qlt_b_spec in L. rewrite Q.max_r by (apply Qlt_le_weak; exact L). apply nle_fin.
    + apply not_true_iff_false in L. rewrite Qlt_b_spec in L. rewrite Q.max_l by (apply Qnot_lt_le; exact L). apply nle_fin.
Qed.

(** ** Stagnation *)

Section Stag.
  Variable v : nat -> Q.

  Lemma reference_unique t : forall s s', reference v s -> reference v s' -> s <= t -> s' <= t ->
    (forall j, s < j <= t -> close_to (v j) (v s)) -> (forall j, s' < j <= t -> close_to (v j) (v s')) -> s = s'.
  Proof.
    induction t as [|t IH]; intros s s' R R' L L' C C'; [lia|].
    assert (G : forall a b, reference v a -> reference v b -> a < S t -> b = S t -> (forall j, a < j <= S t -> close_to (v j) (v a)) -> False).
    { intros a b Ra Rb La -> Ca. inversion Rb as [|p b' Rp Lp Cp Np]; subst.
      assert (a = p) as -> by (apply IH; try assumption; try lia; [intros j Hj; apply Ca; lia|intros j Hj; apply Cp; lia]).
      apply Np. apply Ca. lia. }
    destruct (Nat.eq_dec s (S t)) as [->|Ns], (Nat.eq_dec s' (S t)) as [->|Ns'].
    - reflexivity.
    - exfalso. apply (G s' (S t)); auto. lia.
    - exfalso. apply (G s (S t)); auto. lia.
    - apply IH; try assumption; try lia; intros j Hj; [apply C|apply C']; lia.
  Qed.

  Lemma checker_step (call : list subpop * world) q c : best_value call q ->
    (forall best gen, run_checker (fst call) best gen (CkStagnation c None 0) (snd call) = (Ok (false, CkStagnation c (Some [VNum (Fin q)]) 0), snd call)) /\
    forall r count best gen, run_checker (fst call) best gen (CkStagnation c (Some [VNum (Fin r)]) count) (snd call) =
      (Ok (if isclose (Fin q) (Fin r) then (c <=? S count, CkStagnation c (Some [VNum (Fin r)]) (S count))
           else (false, CkStagnation c (Some [VNum (Fin q)]) 0)), snd call).
  Proof.
    destruct call as [pop w]. simpl. intros (s & h & score & o & i & E & Hh & Hs & Fb & Hi & Hp). simpl in *. subst pop.
    destruct (best_individual s w h score Hh) as (o' & Eo & Fb'); [|exact Hs|].
    { intros C. rewrite C in Fb. destruct Fb as (p & q' & C' & _). destruct p; discriminate. }
    rewrite (first_best_unique _ _ _ _ _ Fb' Fb) in Eo. clear o' Fb'.
    assert (Eb : mapM get_best_individual [s] w = (Ok [o], w)) by (simpl; rewrite (bind_eq_ok _ _ _ _ _ Eo); reflexivity).
    assert (Ep : mapM pure_fitness [o] w = (Ok [VNum (Fin q)], w)).
    { simpl. rewrite (bind_eq_ok _ _ _ _ _ (pure_value _ _ _ _ Hi Hp)). reflexivity. }
    split; [intros best gen|intros r count best gen]; unfold run_checker; rewrite (bind_eq_ok _ _ _ _ _ Eb), (bind_eq_ok _ _ _ _ _ Ep).
    - reflexivity.
    - unfold lift, stagnation_step, close_values. simpl combine. cbn [rmap rbind fst snd as_num]. destruct (isclose _ _); reflexivity.
  Qed.

  Lemma stagnation_from limit calls : forall t s count, reference v s -> s <= t -> count = t - s ->
    (forall j, s < j <= t -> close_to (v j) (v s)) ->
    (forall k call, nth_error calls k = Some call -> best_value call (v (t + 1 + k))) ->
    exists answers, asked (CkStagnation limit (Some [VNum (Fin (v s))]) count) calls answers /\ length answers = length calls /\
      forall k b, nth_error answers k = Some b -> (b = true <-> stagnant v limit (t + 1 + k)).
  Proof.
    induction calls as [|call calls IH]; intros t s count Rs Ls Ec Cs Hv.
    - exists []. split; [constructor|]. split; [reflexivity|]. intros [|k] b H; discriminate.
    - assert (H0 : best_value call (v (t + 1))) by (rewrite <- (Nat.add_0_r (t + 1)); apply Hv; reflexivity).
      destruct (checker_step call (v (t + 1)) limit H0) as [_ St]. specialize (St (v s) count).
      destruct call as [pop w]. simpl in St.
      assert (Hv' : forall k c, nth_error calls k = Some c -> best_value c (v (t + 1 + 1 + k))).
      { intros k c Hk. replace (t + 1 + 1 + k) with (t + 1 + S k) by lia. apply Hv. exact Hk. }
      destruct (isclose (Fin (v (t + 1))) (Fin (v s))) eqn:Cl.
      + apply isclose_iff in Cl.
        assert (Cs' : forall j, s < j <= t + 1 -> close_to (v j) (v s)).
        { intros j Hj. destruct (Nat.eq_dec j (t + 1)) as [->|]; [exact Cl|apply Cs; lia]. }
        destruct (IH (t + 1) s (S count) Rs) as (ans & A & L & F); [lia|lia|exact Cs'|exact Hv'|].
        exists ((limit <=? S count) :: ans). split; [econstructor; [exact St|exact A]|]. split; [simpl; lia|].
        intros [|k] b H; [injection H as <-|].
        * rewrite Nat.add_0_r, Nat.leb_le. split.
          -- intros Hl. exists s. split; [exact Rs|]. split; [exact Cs'|]. lia.
          -- intros (s' & Rs' & Cs2 & Hl). assert (s' = s) as -> by (apply (reference_unique (t + 1)); try assumption; lia). lia.
        * replace (t + 1 + S k) with (t + 1 + 1 + k) by lia. apply F. exact H.
      + assert (NC : ~ close_to (v (t + 1)) (v s)) by (intros C; apply isclose_iff in C; congruence).
        assert (Rn : reference v (t + 1)) by (apply ref_next with s; [exact Rs|lia|intros j Hj; apply Cs; lia|exact NC]).
        destruct (IH (t + 1) (t + 1) 0 Rn) as (ans & A & L & F); [lia|lia|intros j Hj; lia|exact Hv'|].
        exists (false :: ans). split; [econstructor; [exact St|exact A]|]. split; [simpl; lia|].
        intros [|k] b H; [injection H as <-|].
        * split; [discriminate|]. intros (s' & Rs' & Cs2 & Hl). exfalso. rewrite Nat.add_0_r in *.
          assert (s' = t + 1) by (apply (reference_unique (t + 1)); try assumption; try lia; intros j Hj; lia). lia.
        * replace (t + 1 + S k) with (t + 1 + 1 + k) by lia. apply F. exact H.
  Qed.

  Lemma stagnation_answers limit calls :
    (forall k call, nth_error calls k = Some call -> best_value call (v k)) ->
    exists answers, asked (CkStagnation limit None 0) calls answers /\ length answers = length calls /\
      forall k b, nth_error answers k = Some b -> (b = true <-> stagnant v limit k).
  Proof.
    intros Hv. destruct calls as [|call calls]; [exists []; split; [constructor|]; split; [reflexivity|]; intros [|k] b H; discriminate|].
    destruct (checker_step call (v 0) limit (Hv 0 call eq_refl)) as [St _].
    destruct (stagnation_from limit calls 0 0 0) as (ans & A & L & F); [constructor|lia|lia|intros j Hj; lia|intros k c Hk; apply (Hv (S k)); exact Hk|].
    exists (false :: ans). destruct call as [pop w]. split; [econstructor; [exact St|exact A]|]. split; [simpl; lia|].
    intros [|k] b H; [injection H as <-|apply F; exact H].
    split; [discriminate|]. intros (s & _ & _ & Hl). lia.
  Qed.
End Stag.

(** ** Threshold *)

Lemma threshold_exact pop best gen opt th w i x : at_ w best = Some i -> get_pure_fitness (i_fit i) = Ok (VNum (Fin x)) ->
  exists b, run_checker pop best gen (CkThreshold (Fin opt) (Fin th)) w = (Ok (b, CkThreshold (Fin opt) (Fin th)), w) /\
    (b = true <-> (Qabs (x - opt) <= th)%Q).
Proof.
  intros Hi Hp. exists (nle (nabs (nsub (Fin x) (Fin opt))) (Fin th)). split.
  - unfold run_checker. rewrite (bind_eq_ok _ _ _ _ _ (pure_value _ _ _ _ Hi Hp)). reflexivity.
  - apply nle_fin.
Qed.

Lemma checker_state pop best gen c w r w' : run_checker pop best gen c w = (r, w') -> w' = w.
Proof.
  intros H. assert (E : exists r', run_checkers pop best gen [c] w = (r', w')).
  { unfold run_checkers. simpl. unfold bind, ret. rewrite H. destruct r; eauto. }
  destruct E as (r' & E). eapply run_checkers_state; eauto.
Qed.

Lemma checkers_each pop best gen cs : forall w ans cs' w', run_checkers pop best gen cs w = (Ok (ans, cs'), w') ->
  Forall2 (fun c b => exists c', run_checker pop best gen c w = (Ok (b, c'), w)) cs ans.
Proof.
  induction cs as [|c cs IH]; intros w ans cs' w' H; unfold run_checkers in H; mb H as rs w1 E; mr H; simpl in E.
  - mr E. constructor.
  - mb E as r w2 E1. mb E as rest w3 E2. mr E. pose proof (checker_state _ _ _ _ _ _ _ E1) as ->. destruct r as [b c'].
    simpl. constructor; [eauto|]. apply (IH w (map fst rest) (map snd rest) w'). unfold run_checkers. rewrite (bind_eq_ok _ _ _ _ _ E2). reflexivity.
Qed.

(** The algorithm stops iff one of its checkers answers True. *)
Lemma terminate_iff a w st a' w' : should_terminate (a, w) = (Ok st, (a', w')) ->
  exists best, a_best_run a = Some best /\
    (st = true <-> exists c c', In c (a_checkers a) /\ run_checker (a_pop a) best (a_gen_num a) c w = (Ok (true, c'), w)).
Proof.
  intros H. apply terminate_ok in H. destruct H as (_ & best & ans & cs & Eb & Er & _ & ->). exists best. split; [exact Eb|].
  apply checkers_each in Er. rewrite existsb_true. unfold some_true. split.
  - intros H. clear -H Er. induction Er as [|c b l m (c' & E) F IH]; [destruct H|]. destruct H as [->|H].
    + exists c, c'. simpl. auto.
    + destruct (IH H) as (d & d' & Hd & Ed). exists d, d'. simpl. auto.
  - intros (c & c' & Hc & E). induction Er as [|d b l m (d' & Ed) F IH]; [destruct Hc|]. destruct Hc as [->|Hc]; [|right; auto].
    rewrite E in Ed. injection Ed as <- _. left. reflexivity.
Qed.
