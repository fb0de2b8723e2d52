(** Proofs about the events of a run, its seeds, and the termination checkers (C33, C34, C38, C39, C42). *)
From Verif.Proofs Require Export RunP.
From Verif.Model Require Import Tree World Evolution Nsga2.
Open Scope nat_scope.

(** What a [generation_iteration] leaves alone. *)
Definition quiet (it : A unit) : Prop := forall a w a' w', it (a, w) = (Ok tt, (a', w')) ->
  exists l, a_trace a' = a_trace a ++ [TBreed; TEval l] /\ a_gen_num a' = a_gen_num a /\ a_gen_seed a' = a_gen_seed a /\
            a_final a' = a_final a /\ a_checkers a' = a_checkers a.

Lemma simple_quiet ev sched : quiet (generation_iteration ev sched).
Proof.
  intros a w a' w' H. apply iteration_ok in H. destruct H as (pop & w1 & best & w2 & b & worst & _ & _ & _ & _ & ->).
  exists (flat_map inds_of pop). unfold after_breeding. destruct b; simpl; rewrite <- app_assoc; auto.
Qed.

Lemma nsga2_quiet ev sched so d : quiet (nsga2_generation ev sched so d).
Proof.
  intros a w a' w' H. unfold nsga2_generation in H. mb H as a0 s E. unfold algo_get in E. injection E as <- <-. simpl in H.
  mb H as pop s E. destruct s as [a1 w1]. la E.
  mb H as x1 s E1. unfold algo_mod in E1. simpl in E1. injection E1 as _ <-.
  mb H as x2 s E1. unfold algo_mod in E1. simpl in E1. injection E1 as _ <-.
  mb H as best s E1. destruct s as [a2 w2]. apply eval_ok in E1. destruct E1 as [_ ->].
  mb H as pop' s E1. destruct s as [a3 w3]. la E1. unfold algo_mod in H. simpl in H. injection H as <- <-.
  exists (flat_map inds_of pop). simpl. rewrite <- app_assoc. auto.
Qed.

Lemma run_checkers_length pop best gen cs w ans cs' w' : run_checkers pop best gen cs w = (Ok (ans, cs'), w') ->
  length ans = length cs /\ length cs' = length cs.
Proof.
  intros H. unfold run_checkers in H. mb H as rs w1 E. mr H. rewrite !map_length. apply mapM_length in E. auto.
Qed.

Lemma existsb_true l : existsb (fun b : bool => b) l = true <-> some_true l.
Proof.
  unfold some_true. rewrite existsb_exists. split; [intros (x & Hx & ->); exact Hx|intros H; exists true; auto].
Qed.
Lemma existsb_none l : existsb (fun b : bool => b) l = false -> ~ some_true l.
Proof. intros H C. apply existsb_true in C. congruence. Qed.

Lemma seeds_app t t' : seeds (t ++ t') = seeds t ++ seeds t'. Proof. apply flat_map_app. Qed.
Lemma checks_app t t' : checks (t ++ t') = checks t ++ checks t'. Proof. apply flat_map_app. Qed.
Lemma published_app n t t' : published n (t ++ t') = published n t ++ published n t'. Proof. apply flat_map_app. Qed.

Lemma rev_case {X} (l : list X) : l = [] \/ exists pre c, l = pre ++ [c].
Proof.
  destruct l as [|x l]; [left; reflexivity|]. right. destruct (exists_last (l := x :: l)) as (p & c & E); [discriminate|]. exists p, c. exact E.
Qed.

Definition seed_of (s : Z) (g : nat) : Z := ((s + Z.of_nat g) mod 2 ^ 32)%Z.

Lemma seeds_shift s k : map (seed_of (next_seed s)) (seq 1 k) = map (seed_of s) (seq 2 k).
Proof.
  rewrite <- (seq_shift k 1), map_map. apply map_ext. intros j. unfold seed_of, next_seed.
  change 4294967296%Z with (2 ^ 32)%Z. rewrite Z.add_mod_idemp_l by discriminate. f_equal. lia.
Qed.

Lemma loop_trace it : quiet it -> forall todo g a w a' w', main_loop it todo g (a, w) = (Ok tt, (a', w')) ->
  exists k tr, k <= todo /\ a_trace a' = a_trace a ++ tr /\ map kind_of tr = concat (repeat generation_events k) /\
    seeds tr = map (seed_of (a_gen_seed a)) (seq 1 k) /\ published "after_generation" tr = seq g k /\
    (forall c, In c (checks tr) -> length c = length (a_checkers a)) /\
    ((exists pre c, checks tr = pre ++ [c] /\ (forall d, In d pre -> ~ some_true d) /\ some_true c /\ a_final a' = Some (g + k - 1) /\ 1 <= k) \/
     (k = todo /\ (forall d, In d (checks tr) -> ~ some_true d) /\ a_final a' = a_final a)).
Proof.
  intros Q todo. induction todo as [|todo IH]; intros g a w a' w' H.
  - simpl in H. unfold ret in H. injection H as <- <-. exists 0, []. rewrite app_nil_r. simpl. repeat (split; [auto; intros c []|]); try (intros c []). right. repeat split; auto.
  - rewrite main_loop_body in H. mb H as st s E. destruct s as [a1 w1]. apply body_ok in E.
    destruct E as (v1 & a2 & w2 & _ & _ & E1 & E2). apply Q in E1. destruct E1 as (l & T2 & N2 & S2 & F2 & C2). simpl in T2, N2, S2, F2, C2.
    apply terminate_ok in E2. destruct E2 as (-> & best & ans & cs & _ & Er & -> & Est).
    apply run_checkers_length in Er. destruct Er as [L1 L2].
    set (ns := next_seed (a_gen_seed a)) in *.
    destruct st.
    + mb H as x s E. unfold algo_mod in E. simpl in E. injection E as _ <-. rewrite publish_eq in H. simpl in H. injection H as <- <-.
      exists 1. simpl. rewrite T2, N2. set (p := TPublish _ _ _ _).
      exists [TSeed ns; TBreed; TEval l; TCheck ans; p]. rewrite <- !app_assoc. split; [lia|]. split; [reflexivity|]. split; [reflexivity|].
      split; [reflexivity|]. split; [reflexivity|]. split; [intros c [<-|[]]; rewrite L1, C2; reflexivity|].
      left. exists [], ans. split; [reflexivity|]. split; [intros d []|]. symmetry in Est. apply existsb_true in Est. split; [exact Est|]. split; [f_equal; lia|lia].
    + mb H as x s E. rewrite publish_eq in E. simpl in E. injection E as _ <-. 
      destruct (IH _ _ _ _ _ H) as (k & tr & Hk & Ht & Hm & Hs & Hp & Hl & Hd). simpl in Ht, Hs, Hl, Hd.
      rewrite T2, N2 in Ht. set (p := TPublish _ _ _ _) in Ht.
      exists (S k), ([TSeed ns; TBreed; TEval l; TCheck ans; p] ++ tr). split; [lia|].
      split; [rewrite Ht, <- !app_assoc; reflexivity|]. split; [simpl; rewrite Hm; reflexivity|].
      split; [rewrite seeds_app, Hs, S2; unfold ns; rewrite seeds_shift; reflexivity|].
      split; [rewrite published_app, Hp; reflexivity|].
      symmetry in Est. apply existsb_none in Est.
      split; [intros c Hc; rewrite checks_app in Hc; destruct Hc as [<-|Hc]; [rewrite L1, C2; reflexivity|rewrite (Hl c Hc), L2, C2; reflexivity]|].
      rewrite checks_app. destruct Hd as [(pre & c & Hc & Hn & Hy & Hf & Hk1)|(-> & Hn & Hf)].
      * left. exists (ans :: pre), c. rewrite Hc. split; [reflexivity|]. split; [intros d [<-|Hd]; auto|]. split; [exact Hy|].
        split; [rewrite Hf; f_equal; lia|lia].
      * right. split; [reflexivity|]. split; [intros d [<-|Hd]; auto|]. rewrite Hf. exact F2.
Qed.

Lemma run_trace ev sched it fin n a w a' w' : quiet it ->
  (forall b v b' v', fin (b, v) = (Ok tt, (b', v')) -> a_trace b' = a_trace b /\ a_final b' = a_final b) ->
  a_trace a = [] -> evolve_with ev sched it fin n (a, w) = (Ok tt, (a', w')) -> well_run a (a_trace a') (a_final a').
Proof.
  intros Q Hfin Ht H. apply evolve_ok in H. destruct H as (a1 & w1 & st & a2 & a3 & w3 & E1 & E2 & E3 & E4).
  apply init_ok in E1. destruct E1 as (pop & v1 & best & _ & _ & ->). apply terminate_ok in E2.
  destruct E2 as (_ & b2 & ans & cs & _ & Er & -> & Est). apply run_checkers_length in Er. simpl in Er. destruct Er as [L1 L2].
  apply Hfin in E4. destruct E4 as [T4 F4]. rewrite T4, F4. simpl in E3 |- *. rewrite ?Ht in *. simpl in *.
  set (p0 := TPublish "init" _ _ _) in *. set (ev0 := TEval _) in *. set (pf := TPublish "evolution_finished" _ _ _).
  destruct st.
  - destruct E3 as [-> _]. simpl. rewrite Ht. set (p1 := TPublish "after_generation" _ _ _).
    symmetry in Est. apply existsb_true in Est.
    exists 0, true, [], ans. split; [lia|]. split; [reflexivity|]. split; [reflexivity|]. split; [reflexivity|]. split; [reflexivity|].
    split; [reflexivity|]. split; [intros c []|]. split; [intros c [<-|[]]; exact L1|]. split; [tauto|]. split; [reflexivity|]. intros C. contradiction.
  - symmetry in Est. apply existsb_none in Est.
    destruct (loop_trace it Q _ _ _ _ _ _ E3) as (k & tr & Hk & Htr & Hm & Hs & Hp & Hl & Hd). simpl in Htr, Hk, Hs, Hl, Hd.
    assert (Tr : a_trace a3 ++ [pf] = [TSeed (a_random_seed a); ev0; p0; TCheck ans] ++ tr ++ [pf]).
    { rewrite Htr, ?Ht. rewrite <- !app_assoc. reflexivity. }
    rewrite Tr.
    assert (Ck : checks ([TSeed (a_random_seed a); ev0; p0; TCheck ans] ++ tr ++ [pf]) = ans :: checks tr).
    { rewrite !checks_app. simpl. rewrite app_nil_r. reflexivity. }
    assert (K : exists pre c, ans :: checks tr = pre ++ [c] /\ (forall d, In d pre -> ~ some_true d) /\
                (some_true c -> a_final a3 = Some k) /\ (~ some_true c -> k = a_max_gen a /\ a_final a3 = a_final a) /\ (pre = [] -> ~ some_true c)).
    { destruct Hd as [(pre & c & Hc & Hn & Hy & Hf & Hk1)|(-> & Hn & Hf)].
      - exists (ans :: pre), c. rewrite Hc. split; [reflexivity|]. split; [intros d [<-|Hd]; auto|].
        split; [intros _; rewrite Hf; f_equal; lia|]. split; [intros C; contradiction|]. discriminate.
      - destruct (rev_case (checks tr)) as [Ec|(pre & c & Ec)].
        + exists [], ans. rewrite Ec. split; [reflexivity|]. split; [intros d []|]. split; [intros C; contradiction|]. split; [auto|auto].
        + exists (ans :: pre), c. rewrite Ec in Hn |- *. split; [reflexivity|].
          split; [intros d [<-|Hd]; [exact Est|apply Hn, in_or_app; auto]|].
          assert (N : ~ some_true c) by (apply Hn, in_or_app; right; left; reflexivity).
          split; [intros C; contradiction|]. split; [auto|]. discriminate. }
    destruct K as (pre & c & Kc & Kn & Ky & Kf & K0).
    exists k, false, pre, c. split; [exact Hk|]. split; [discriminate|].
    split; [rewrite !map_app, Hm; reflexivity|].
    split; [rewrite !published_app, Hp; simpl; rewrite app_nil_r; reflexivity|].
    split; [rewrite !seeds_app, Hs; simpl; rewrite app_nil_r; reflexivity|].
    split; [rewrite Ck; exact Kc|]. split; [exact Kn|].
    split; [rewrite Ck; intros d [<-|Hd2]; [exact L1|rewrite (Hl d Hd2); exact L2]|].
    split; [split; [discriminate|intros [C1 C2]; exfalso; apply (K0 C1 C2)]|]. split; [exact Ky|exact Kf].
Qed.

(** C33 *)
Lemma evolve_well_run ev sched n a w a' w' : a_trace a = [] -> evolve ev sched n (a, w) = (Ok tt, (a', w')) ->
  well_run a (a_trace a') (a_final a').
Proof.
  intros Ht H. unfold evolve in H. eapply run_trace; [apply simple_quiet| |exact Ht|exact H].
  intros b v b' v' E. apply finish_ok in E. destruct E as [-> _]. auto.
Qed.

Lemma nsga2_well_run ev sched so d n a w a' w' : a_trace a = [] -> nsga2_evolve ev sched so d n (a, w) = (Ok tt, (a', w')) ->
  well_run a (a_trace a') (a_final a').
Proof.
  intros Ht H. unfold nsga2_evolve in H. eapply run_trace; [apply nsga2_quiet| |exact Ht|exact H].
  intros b v b' v' E. unfold nsga2_finish in E. mb E as x0 s E0. destruct s as [a9 w9]. apply show_best_ok in E0. destruct E0 as (-> & -> & _).
  mb E as a0 s E1. unfold algo_get in E1. injection E1 as <- <-. simpl in E.
  destruct (a_best_run b) as [o|]; [|discriminate]. mb E as x s E1. destruct s as [a1 w1]. la E1.
  unfold ret in E. injection E as <- <-. auto.
Qed.

Lemma no_checker_full ev sched n a w a' w' : a_trace a = [] -> a_checkers a = [] -> evolve ev sched n (a, w) = (Ok tt, (a', w')) ->
  published "after_generation" (a_trace a') = seq 1 (a_max_gen a) /\ a_final a' = a_final a.
Proof.
  intros Ht Hc H. apply evolve_well_run in H; [|exact Ht].
  destruct H as (k & st & pre & c & Hk & Hs & _ & Hp & _ & Ck & _ & Hl & H0 & _ & Hf).
  assert (E : c = []).
  { assert (L : length c = 0) by (rewrite (Hl c), Hc; [reflexivity|]; rewrite Ck; apply in_or_app; right; left; reflexivity).
    destruct c; [reflexivity|discriminate]. }
  subst c. destruct Hf as [-> Hf]; [intros []|]. destruct st; [exfalso; destruct (proj1 H0 eq_refl) as [_ []]|]. auto.
Qed.

(** C34 *)
Lemma evolve_prior_state ev sched n a hp id g1 g2 : r_py g1 = r_py g2 -> r_np g1 = r_np g2 ->
  evolve ev sched n (a, mkWorld hp id g1) = evolve ev sched n (a, mkWorld hp id g2).
Proof.
  intros E1 E2. unfold evolve, evolve_with. unfold bind at 1 3.
  assert (E : initialize ev sched n (a, mkWorld hp id g1) = initialize ev sched n (a, mkWorld hp id g2)).
  { unfold initialize. unfold bind at 1 7. unfold algo_get. simpl.
    unfold bind at 1 6. unfold seed_generators at 1 2. unfold bind at 1 3. unfold liftM at 1 2, liftR, set_seed. simpl. rewrite E1, E2. reflexivity. }
  rewrite E. reflexivity.
Qed.

(** One more generation: its outcome does not depend on the generators' state before. *)
Lemma regen_rng gen l : forall hp id g1 g2, present l (mkWorld hp id g1) -> exists hp', 
  iterM (fun o => modify o (set_gen gen)) l (mkWorld hp id g1) = (Ok tt, mkWorld hp' id g1) /\
  iterM (fun o => modify o (set_gen gen)) l (mkWorld hp id g2) = (Ok tt, mkWorld hp' id g2).
Proof.
  induction l as [|o l IH]; intros hp id g1 g2 P; [exists hp; split; reflexivity|].
  destruct (P o) as (i & Hi); [left; reflexivity|].
  assert (E1 := modify_at o (set_gen gen) _ _ Hi). assert (E2 := modify_at o (set_gen gen) (mkWorld hp id g2) _ Hi).
  destruct (IH (list_set hp o (set_gen gen i)) id g1 g2) as (hp' & A & B).
  - intros p Hp. destruct (P p) as (j & Hj); [right; exact Hp|]. destruct (Nat.eq_dec o p) as [<-|N].
    + exists (set_gen gen i). apply (at_put_same _ _ _ _ Hi).
    + exists j. etransitivity; [apply (at_put_other (mkWorld hp id g1) _ _ (set_gen gen i) N)|exact Hj].
  - exists hp'. simpl. rewrite (bind_eq_ok _ _ _ _ _ E1), (bind_eq_ok _ _ _ _ _ E2). split; [exact A|exact B].
Qed.

Lemma loop_prior_state it todo gen a hp id g1 g2 : r_py g1 = r_py g2 -> r_np g1 = r_np g2 ->
  present (flat_map inds_of (a_pop a)) (mkWorld hp id g1) ->
  main_loop it (S todo) gen (a, mkWorld hp id g1) = main_loop it (S todo) gen (a, mkWorld hp id g2).
Proof.
  intros E1 E2 P. destruct (regen_rng gen _ _ _ _ g2 P) as (hp' & A & B). simpl main_loop.
  rewrite !(bind_eq_ok (algo_mod (set_gen_num gen)) _ _ tt (set_gen_num gen a, mkWorld hp id g1)) by reflexivity.
  rewrite !(bind_eq_ok (algo_mod (set_gen_num gen)) _ (a, mkWorld hp id g2) tt (set_gen_num gen a, mkWorld hp id g2)) by reflexivity.
  rewrite (bind_eq_ok (update_gen gen) _ _ tt (set_gen_num gen a, mkWorld hp' id g1)) by (unfold update_gen, bind, algo_get, liftM; simpl; rewrite A; reflexivity).
  rewrite (bind_eq_ok (update_gen gen) _ (set_gen_num gen a, mkWorld hp id g2) tt (set_gen_num gen a, mkWorld hp' id g2)) by (unfold update_gen, bind, algo_get, liftM; simpl; rewrite B; reflexivity).
  set (b := set_gen_num gen a).
  rewrite (bind_eq_ok algo_get _ _ b (b, mkWorld hp' id g1)) by reflexivity.
  rewrite (bind_eq_ok algo_get _ (b, mkWorld hp' id g2) b (b, mkWorld hp' id g2)) by reflexivity.
  set (s := next_seed (a_gen_seed b)).
  assert (E : seed_generators s (b, mkWorld hp' id g1) = seed_generators s (b, mkWorld hp' id g2)).
  { unfold seed_generators, bind, liftM, liftR, set_seed. simpl. rewrite E1, E2. reflexivity. }
  unfold bind at 1 6. rewrite E. reflexivity.
Qed.
