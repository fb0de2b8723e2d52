(** * Multi-objective runs with the default breeder. *)
From Coq Require Import Lia.
From Verif.Proofs Require Import Lib RunP TraceP EvoFinalP Nsga2P.
From Verif.Model Require Import Evolution Nsga2 World Base.
From Verif.Spec Require Import WorldSpec EvoSpec Nsga2Spec.
Open Scope nat_scope.
Open Scope list_scope.
Local Arguments Nat.div : simpl never.

Lemma evaluated_some ev sched m alive pop w b w' : evaluate_population ev sched m alive pop w = (Ok b, w') -> exists s, pop = [s] /\ 1 <= length (inds_of s).
Proof.
  destruct pop as [|s [|s2 pop]]; try discriminate. intros H. exists s. split; [reflexivity|]. unfold evaluate_population in H.
  destruct (inds_of s) as [|o l]; [|cbn; lia]. exfalso. unfold evaluate_inds in H. mb H as gs w1 E1. mb H as rs w2 E2.
  destruct m; [mb H as u w3 E3; discriminate|]. mb H as outs w3 E3. mb H as us w4 E4. mb H as u w5 E5. discriminate.
Qed.

Definition picks_one (s : subpop) : Prop := exists sel sels, sp_sels s = sel :: sels /\ sel_arity sel = 1.

Lemma evals_snoc tr e : evals (tr ++ [e]) = evals tr ++ match e with TEval l => [l] | _ => [] end.
Proof. unfold evals. rewrite flat_map_app. cbn. rewrite app_nil_r. reflexivity. Qed.

Section Shrink.
  Variables (ev : genome -> res fval) (sched : nat -> list nat) (so : nat -> list nat -> list nat).
  Notation it := (nsga2_generation ev sched so false).

  Lemma default_generation s a w u a' w' : a_pop a = [s] -> picks_one s -> it (a, w) = (Ok u, (a', w')) ->
    exists s' l, a_pop a' = [s'] /\ picks_one s' /\ length l = length (inds_of s) /\ 1 <= length l /\ length (inds_of s') = length l / 2 /\
      evals (a_trace a') = evals (a_trace a) ++ [l].
  Proof.
    intros Es Hs H. unfold nsga2_generation in H. mb H as a0 x E. unfold algo_get in E. injection E as <- <-. cbn [fst snd] in H.
    mb H as pop x E. destruct x as [a1 w1]. la E. cbv iota in E. rewrite Es in E. unfold breed in E. cbn in E. mb E as s1 w2 Eb. mr E.
    mb H as u1 x E1. destruct x as [a2 w3]. unfold algo_mod in E1. injection E1 as _ <- <-.
    mb H as u2 x E2. destruct x as [a3 w3]. unfold algo_mod in E2. injection E2 as _ <- <-. cbn [fst snd] in H.
    mb H as b x E3. destruct x as [a4 w4]. apply eval_ok in E3. destruct E3 as [E3 ->]. cbn [a_pop set_pop add_trace a_method a_alive] in E3.
    mb H as pop' x E4. destruct x as [a5 w5]. la E4. unfold algo_mod in H. injection H as _ <- <-.
    apply evaluated_some in E3. destruct E3 as (s0 & E0 & Hl). injection E0 as <-.
    unfold select_for_population in E4. cbn in E4. mb E4 as s2 w6 Es2. mr E4. mb Es2 as d w7 Ed. mr Es2. apply nsga2_select_size in Ed. cbn in Ed.
    pose proof (breed_len _ _ _ _ Eb Hs) as Lb.
    assert (Sl : sp_sels s1 = sp_sels s).
    { unfold breed_subpop in Eb. mb Eb as z0 v0 F0. mb Eb as z1 v1 F1. destruct (sp_sels s) as [|sel sels] eqn:Esel; [discriminate|].
      mb Eb as z2 v2 F2. mb Eb as z3 v3 F3. mr Eb. exact Esel. }
    exists (with_inds s1 d), (inds_of s1). split; [reflexivity|]. split; [unfold picks_one in *; cbn; rewrite Sl; exact Hs|]. split; [exact Lb|]. split; [exact Hl|].
    split; [exact Ed|]. cbn. rewrite !evals_snoc. cbn. rewrite !app_nil_r. reflexivity.
  Qed.

  Lemma default_loop todo : forall g s a w a' w', a_pop a = [s] -> picks_one s -> main_loop it todo g (a, w) = (Ok tt, (a', w')) ->
    exists s' ls k, a_pop a' = [s'] /\ k <= todo /\ evals (a_trace a') = evals (a_trace a) ++ ls /\
      map (@length oid) ls = map (fun j => length (inds_of s) / 2 ^ j) (seq 0 k) /\ (forall l, In l ls -> l <> []) /\ length (inds_of s') = length (inds_of s) / 2 ^ k.
  Proof.
    induction todo as [|todo IH]; intros g s a w a' w' Es Hs E.
    { cbn in E. injection E as <- <-. exists s, [], 0. cbn. rewrite app_nil_r, Nat.div_1_r. repeat split; auto; intros l []. }
    rewrite main_loop_body in E. mb E as st x E1. destruct x as [a1 w1]. apply body_ok in E1. destruct E1 as (v1 & a2 & w2 & _ & _ & E1 & E2).
    eapply default_generation in E1; [|exact Es|exact Hs]. destruct E1 as (s' & l & Ep & Hs' & Ll & Hl & Ls & Ev). cbn in Ev. rewrite evals_snoc, app_nil_r in Ev.
    apply terminate_ok in E2. destruct E2 as (-> & best & ans & cs & _ & _ & -> & _).
    assert (Nl : l <> []) by (intros ->; cbn in Hl; lia).
    assert (Hd : forall k, length (inds_of s') / 2 ^ k = length (inds_of s) / 2 ^ (S k)).
    { intros k. rewrite Ls, Ll, Nat.div_div by (try apply Nat.pow_nonzero; lia). reflexivity. }
    destruct st.
    - mb E as x1 x E3. unfold algo_mod in E3. cbn in E3. injection E3 as _ <-. rewrite publish_eq in E. injection E as <- <-.
      exists s', [l], 1. cbn. rewrite !evals_snoc, !app_nil_r, Ev. split; [exact Ep|]. split; [lia|]. split; [reflexivity|].
      split; [cbn; rewrite Nat.div_1_r, Ll; reflexivity|]. split; [intros x [<-|[]]; exact Nl|]. rewrite Ls, Ll. reflexivity.
    - mb E as x1 x E3. rewrite publish_eq in E3. injection E3 as _ <-. eapply IH in E; [|exact Ep|exact Hs'].
      destruct E as (s2 & ls & k & Ep2 & Hk & Ev2 & Lm & Hn & L2). exists s2, (l :: ls), (S k). split; [exact Ep2|]. split; [lia|].
      cbn in Ev2. rewrite !evals_snoc, !app_nil_r, Ev, <- app_assoc in Ev2. split; [exact Ev2|].
      split; [|split; [intros x [<-|Hx]; auto|rewrite L2; apply Hd]].
      cbn [map seq]. rewrite Lm, <- seq_shift, map_map. cbn [Nat.pow]. rewrite Nat.div_1_r, Ll. f_equal. apply map_ext. intros j. apply Hd.
  Qed.
End Shrink.

Lemma default_run ev sched so n a w a' w' : a_trace a = [] -> (forall s, In s (a_pop a) -> picks_one s) ->
  nsga2_evolve ev sched so false n (a, w) = (Ok tt, (a', w')) ->
  exists size k, map (@length oid) (evals (a_trace a')) = size :: map (fun j => size / 2 ^ j) (seq 0 k) /\ ~ In [] (evals (a_trace a')) /\
    sizes (a_pop a') = [size / 2 ^ k] /\ exists s, a_pop a = [s] /\ size = match sp_inds s with Some l => length l | None => sp_size s end.
Proof.
  intros Ht Hs H. unfold nsga2_evolve in H. apply evolve_ok in H. destruct H as (a1 & w1 & st & a2 & a3 & w3 & E1 & E2 & E3 & E4).
  assert (Fin_ : a_trace a' = a_trace a3 ++ [TPublish "evolution_finished" (a_gen_num a3) (a_best_run a3) (match a_best_run a3 with Some o => at_ w3 o | None => None end)] /\ a_pop a' = a_pop a3).
  { unfold nsga2_finish in E4. mb E4 as x z F1. destruct z as [b0 v0]. apply show_best_ok in F1. destruct F1 as (-> & -> & _).
    mb E4 as y z F1. unfold algo_get in F1. injection F1 as <- <-. cbn in E4. destruct (a_best_run a3) as [o|]; [|discriminate].
    mb E4 as v z F1. destruct z as [b1 v1]. la F1. mr E4. split; reflexivity. }
  destruct Fin_ as [-> ->]. rewrite evals_snoc, app_nil_r.
  apply init_ok in E1. destruct E1 as (pop & v1 & best & C1 & C2 & ->). apply evaluated_some in C2. destruct C2 as (s & -> & Hl).
  assert (P : exists s0, a_pop a = [s0] /\ length (inds_of s) = (match sp_inds s0 with Some l => length l | None => sp_size s0 end) /\ picks_one s).
  { pose proof (mapM_length _ _ _ _ _ C1) as L. destruct (a_pop a) as [|s0 [|s2 rest]]; try discriminate. clear L. cbn in C1.
    mb C1 as z1 u1 F1. mr C1. exists s0. split; [reflexivity|].
    pose proof (created_population _ _ _ _ F1) as [G1 G2]. destruct (sp_inds s0) as [l|] eqn:El.
    - destruct (G1 l eq_refl) as [-> _]. unfold inds_of. rewrite El. split; [reflexivity|apply Hs; left; reflexivity].
    - destruct (G2 eq_refl) as (c & l & _ & -> & L & _). split; [exact L|]. destruct (Hs s0 (or_introl eq_refl)) as (sel & sels & A & B). exists sel, sels. auto. }
  destruct P as (s0 & Es0 & Len & Pk). apply terminate_ok in E2. destruct E2 as (_ & best0 & ans & cs & _ & _ & -> & _).
  assert (Ne : inds_of s <> []) by (destruct (inds_of s); [cbn in Hl; lia|discriminate]).
  destruct st.
  - destruct E3 as [-> ->]. exists (length (inds_of s)), 0. cbn. rewrite !evals_snoc, !app_nil_r, Ht. cbn. rewrite Nat.div_1_r.
    split; [reflexivity|]. split; [intros [C|[]]; auto|]. split; [reflexivity|]. exists s0. auto.
  - apply default_loop with (s := s) in E3; [|reflexivity|exact Pk]. destruct E3 as (s' & ls & k & Ep & _ & Ev & Lm & Hn & L). cbn in Ev.
    rewrite !evals_snoc, !app_nil_r, Ht in Ev. cbn in Ev. exists (length (inds_of s)), k. rewrite Ev, Ep. cbn. rewrite Lm, L.
    split; [reflexivity|]. split; [intros [C|C]; [auto|exact (Hn _ C eq_refl)]|]. split; [reflexivity|]. exists s0. auto.
Qed.

Lemma default_fails ev sched so n a w s : a_trace a = [] -> a_checkers a = [] -> a_pop a = [s] -> picks_one s ->
  match sp_inds s with Some l => length l | None => sp_size s end < 2 ^ (a_max_gen a - 1) -> 0 < a_max_gen a ->
  fst (nsga2_evolve ev sched so false n (a, w)) <> Ok tt.
Proof.
  intros Ht Hc Hp Hs Hsz Hm H. destruct (nsga2_evolve ev sched so false n (a, w)) as [r [a' w']] eqn:E. cbn in H. subst r.
  pose proof (nsga2_well_run _ _ _ _ _ _ _ _ _ Ht E) as (k & st & pre & c & Hk & _ & Hkind & _ & _ & Ck & _ & Hl & H0 & _ & Hf).
  assert (Ec : c = []).
  { assert (L : length c = 0) by (rewrite (Hl c), Hc; [reflexivity|]; rewrite Ck; apply in_or_app; right; left; reflexivity).
    destruct c; [reflexivity|discriminate]. }
  subst c. destruct Hf as [-> _]; [intros []|]. destruct st; [destruct (proj1 H0 eq_refl) as [_ []]|].
  destruct (default_run _ _ _ _ _ _ _ _ Ht ltac:(intros s0 Hi; rewrite Hp in Hi; destruct Hi as [<-|[]]; exact Hs) E) as (size & k & Lm & Nn & _ & s0 & Es0 & ->).
  rewrite Hp in Es0. injection Es0 as <-.
  assert (Cnt : forall tr, length (evals tr) = length (filter (fun x => match x with Eval => true | _ => false end) (map kind_of tr))).
  { induction tr as [|e tr IH]; [reflexivity|]. unfold evals in *. destruct e; cbn; rewrite ?IH; reflexivity. }
  pose proof (Cnt (a_trace a')) as L. rewrite Hkind, !filter_app in L. cbn in L. rewrite !app_length in L. cbn in L.
  assert (G : forall m, length (filter (fun x => match x with Eval => true | _ => false end) (concat (repeat generation_events m))) = m).
  { induction m as [|m IH]; [reflexivity|]. cbn in *. rewrite IH. reflexivity. }
  rewrite G in L. assert (Lk : k = a_max_gen a).
  { apply (f_equal (@length nat)) in Lm. rewrite map_length in Lm. cbn in Lm. rewrite map_length, seq_length in Lm. lia. }
  subst k. set (sz := match sp_inds s with Some l => length l | None => sp_size s end) in *.
  assert (Z : In 0 (map (@length oid) (evals (a_trace a')))).
  { rewrite Lm. right. apply in_map_iff. exists (a_max_gen a - 1). split; [apply Nat.div_small; exact Hsz|apply in_seq; lia]. }
  apply in_map_iff in Z. destruct Z as ([|o l] & Z1 & Z2); [exact (Nn Z2)|discriminate].
Qed.
