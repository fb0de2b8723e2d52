(** * Runs that go on where another one ended. *)
From Coq Require Import Lia QArith.
From Verif.Spec Require Import WorldSpec FitnessSpec SelSpec EvoSpec LimitSpec ResumeSpec.
From Verif.Proofs Require Import Lib WorldP RunP BestP.
From Verif.Proofs Require Import OrderP LimitP EvalP MooCompleteP.
From Verif.Model Require Import Num Rng Fitness Vector Tree World Operators Selection Creators Evolution.
From Verif.Model Require Import Nsga2.
Open Scope nat_scope.
Open Scope list_scope.

Local Arguments vec_attempt : simpl nomatch.

(** ** The same but for the generation numbers of the individuals *)

Definition irel := same_but_gen.

Definition wrel (w1 w2 : world) : Prop := Forall2 irel (w_heap w1) (w_heap w2) /\ w_next_id w1 = w_next_id w2 /\ w_rng w1 = w_rng w2.

Local Notation Mrel := (rel wrel).
Local Notation self m := (rel wrel eq m m).

Lemma r_liftR {X} (m : R X) : self (liftR m).
Proof.
  intros w1 w2 (H1 & H2 & H3). unfold liftR. rewrite H3. destruct (m (w_rng w2)) as [[x|e] g]; (split; [reflexivity|split; auto]).
Qed.

Lemma r_load o : Mrel irel (load o) (load o).
Proof.
  intros w1 w2 H. unfold load. pose proof (Forall2_nth_both _ _ _ o (proj1 H)) as Ho.
  destruct (nth_error (w_heap w1) o), (nth_error (w_heap w2) o); try contradiction; auto.
Qed.

Lemma r_store o i j : irel i j -> Mrel eq (store o i) (store o j).
Proof.
  intros H w1 w2 (H1 & H2 & H3). unfold store. rewrite (Forall2_len _ _ _ H1). destruct (o <? length (w_heap w2)); [|cbn; repeat split; auto].
  split; [reflexivity|]. split; [|auto]. apply Forall2_set; assumption.
Qed.

Lemma r_alloc i j : irel i j -> Mrel eq (alloc i) (alloc j).
Proof.
  intros H w1 w2 (H1 & H2 & H3). unfold alloc. rewrite (Forall2_len _ _ _ H1). split; [reflexivity|]. split; [|auto].
  cbn. apply Forall2_app; [exact H1|]. constructor; auto.
Qed.

Lemma r_fresh : self fresh_id.
Proof. intros w1 w2 (H1 & H2 & H3). unfold fresh_id. rewrite H2. split; [reflexivity|]. split; [exact H1|]. cbn. auto. Qed.

Lemma r_modify o f1 f2 : (forall i j, irel i j -> irel (f1 i) (f2 j)) -> Mrel eq (modify o f1) (modify o f2).
Proof. intros H. eapply r_bind; [apply r_load|]. intros i j Hij. apply r_store. auto. Qed.

Lemma irel_fields i j : irel i j -> i_id i = i_id j /\ i_fit i = i_fit j /\ i_cloned_from i = i_cloned_from j /\
  i_selected_by i = i_selected_by j /\ i_applied i = i_applied j /\ i_update_parents i = i_update_parents j /\
  i_parents i = i_parents j /\ i_genome i = i_genome j.
Proof. intros E. unfold irel, same_but_gen in E. rewrite E. cbn. auto 10. Qed.

Lemma irel_intro i j : i_fit i = i_fit j -> i_id i = i_id j -> i_cloned_from i = i_cloned_from j ->
  i_selected_by i = i_selected_by j -> i_applied i = i_applied j -> i_update_parents i = i_update_parents j ->
  i_parents i = i_parents j -> i_genome i = i_genome j -> irel i j.
Proof. intros. destruct i, j; cbn in *. unfold irel, same_but_gen, set_gen. cbn. congruence. Qed.

Ltac irels := intros; match goal with H : irel ?i ?j |- _ => pose proof (irel_fields i j H) as (? & ? & ? & ? & ? & ? & ? & ?); clear H;
  apply irel_intro; cbn; try congruence; auto end.

Lemma s_reset o : self (set_fitness_not_evaluated o).
Proof. apply r_modify. irels. Qed.

Lemma s_clone o : self (clone o).
Proof.
  eapply r_bind; [apply r_load|]. intros i j H. apply r_bind_eq; [apply r_fresh|]. intros id. apply r_alloc.
  revert H. irels. repeat match goal with E : i_update_parents _ = _ |- _ => rewrite E; clear E | E : i_parents _ = _ |- _ => rewrite E; clear E end. reflexivity.
Qed.

Lemma s_put o g : self (put_genome o g).
Proof. apply r_modify. irels. Qed.

Lemma s_load_vec o : self (load_vec o).
Proof.
  eapply r_bind; [apply r_load|]. intros i j H. apply irel_fields in H as (_ & _ & _ & _ & _ & _ & _ & ->).
  destruct (i_genome j); [apply r_ret_eq|apply r_raise].
Qed.

Lemma s_load_tree o : self (load_tree o).
Proof.
  eapply r_bind; [apply r_load|]. intros i j H. apply irel_fields in H as (_ & _ & _ & _ & _ & _ & _ & ->).
  destruct (i_genome j); [apply r_raise|apply r_ret_eq].
Qed.

Ltac sm := repeat lazymatch goal with
  | |- rel _ _ (liftR _) _ => apply r_liftR
  | |- rel _ _ (lift _) _ => apply r_lift
  | |- rel _ _ (ret _) _ => apply r_ret_eq
  | |- rel _ _ (raise _) _ => apply r_raise
  | |- rel _ _ (clone _) _ => apply s_clone
  | |- rel _ _ (put_genome _ _) _ => apply s_put
  | |- rel _ _ (load_vec _) _ => apply s_load_vec
  | |- rel _ _ (load_tree _) _ => apply s_load_tree
  | |- rel _ _ (set_fitness_not_evaluated _) _ => apply s_reset
  | |- rel _ _ fresh_id _ => apply r_fresh
  | |- rel _ _ (mapM _ _) _ => apply r_mapM_eq; intros ?
  | |- rel _ _ (iterM _ _) _ => apply r_iterM; intros ?
  | |- rel _ _ (foldM _ _ _) _ => apply r_foldM; intros ? ?
  | |- rel _ _ (repeatM _ _) _ => apply r_repeatM
  | |- rel _ _ (bind _ _) _ => apply r_bind_eq; [|intros ?]
  end.

Lemma s_vec_attempt m n : forall l, self (vec_attempt m n l).
Proof. induction l as [|o l IH]; cbn [vec_attempt]; sm. match goal with |- rel _ _ (if ?b then _ else _) _ => destruct b end; sm. exact IH. Qed.

Lemma s_kpoint k l : self (kpoint_apply k l).
Proof. unfold kpoint_apply. destruct l as [|a [|b l]]; sm. Qed.

Lemma s_record name l o : self (record_applied name l o).
Proof.
  eapply r_bind; [apply r_load|]. intros i j H. pose proof (irel_fields i j H) as (_ & _ & _ & _ & _ & Hu & _).
  apply r_bind_eq; [apply r_store; revert H; irels|]. intros _. rewrite Hu. destruct (i_update_parents j); [|apply r_ret_eq].
  apply r_bind_eq.
  - apply r_mapM_eq. intros p. eapply r_bind; [apply r_load|]. intros x y Hxy. apply r_ret. apply (irel_fields x y Hxy).
  - intros ids. apply r_modify. irels.
Qed.

Lemma s_with_probability name p apply l : (forall l, self (apply l)) -> self (with_probability name p apply l).
Proof.
  intros Ha. unfold with_probability. sm. match goal with |- rel _ _ (if ?b then _ else _) _ => destruct b end; sm.
  { apply Ha. }
  match goal with |- rel _ _ (match ?y with _ => _ end) _ => destruct y end; sm. apply s_record.
Qed.

Lemma s_pick nt o : self (pick_subtree nt o).
Proof. unfold pick_subtree. sm. Qed.

Lemma s_xo n l : self (xo_attempt n l).
Proof.
  unfold xo_attempt. destruct (negb _); [apply r_raise|]. apply r_bind_eq.
  - unfold pick_subtrees. destruct l as [|a l]; [apply r_raise|]. apply r_bind_eq; [apply s_pick|]. intros [[|m s]|]; sm. apply s_pick.
  - intros [ss|]; [|apply r_ret_eq]. unfold swap_subtrees. apply r_bind_eq; [|intros _; apply r_ret_eq]. apply r_iterM. intros [i o]. unfold swap_one. sm.
Qed.

Lemma s_mut mn mx l : self (mut_attempt mn mx l).
Proof.
  unfold mut_attempt. apply r_bind_eq; [sm; apply s_pick|]. intros olds. destruct (all_somes olds) as [ss|]; [|apply r_ret_eq].
  apply r_bind_eq; [|intros _; apply r_ret_eq]. apply r_iterM. intros [o [|m s]]; unfold mut_one; sm.
Qed.

Lemma s_erc mu sigma l : self (erc_attempt mu sigma l).
Proof.
  unfold erc_attempt. apply r_bind_eq; [sm|]. intros olds. destruct (all_somes olds) as [ss|]; [|apply r_ret_eq].
  apply r_bind_eq; [|intros _; apply r_ret_eq]. apply r_iterM. intros [o m]. unfold erc_one. sm. destruct (nth_error _ _); sm.
Qed.

Lemma s_apply op l : self (apply_operator op l).
Proof.
  apply s_with_probability. clear l. intros l. unfold op_apply, failable_apply.
  assert (P : forall m n k l, self (vec_apply_plain m n k l)).
  { intros m n k l0. unfold vec_apply_plain, failable_apply. apply r_failable; [|apply r_ret_eq]. intros _. sm. apply s_vec_attempt. }
  destruct (op_kind op).
  - sm. apply s_kpoint.
  - unfold vec_apply, failable_apply. apply r_failable; [intros _; sm; apply s_vec_attempt|]. destruct m; sm; apply s_with_probability; auto.
  - apply r_failable; [|apply r_ret_eq]. intros _. sm. apply s_xo.
  - apply r_failable; [|apply r_ret_eq]. intros _. sm. apply s_mut.
  - apply r_failable; [|apply r_ret_eq]. intros _. sm. apply s_erc.
  - apply r_ret_eq.
Qed.

(** ** Comparisons and selection *)

Lemma s_better a b : self (ind_better_than a b).
Proof.
  eapply r_bind; [apply r_load|]. intros i i' Hi. eapply r_bind; [apply r_load|]. intros j j' Hj.
  pose proof (irel_fields _ _ Hi) as (_ & Fi & _ & _ & _ & _ & _ & Gi). pose proof (irel_fields _ _ Hj) as (_ & Fj & _ & _ & _ & _ & _ & Gj).
  unfold isize. rewrite Gi, Gj, Fi, Fj. apply r_liftR.
Qed.

Lemma s_augmented o : self (augmented o).
Proof.
  eapply r_bind; [apply r_load|]. intros i i' Hi. pose proof (irel_fields _ _ Hi) as (_ & Fi & _ & _ & _ & _ & _ & Gi).
  unfold ind_augmented, isize. rewrite Fi, Gi. apply r_lift.
Qed.

Lemma s_pure o : self (pure_fitness o).
Proof. eapply r_bind; [apply r_load|]. intros i i' Hi. pose proof (irel_fields _ _ Hi) as (_ & Fi & _). rewrite Fi. apply r_lift. Qed.

Lemma s_sorted rev l : self (sorted_by_fitness rev l).
Proof.
  unfold sorted_by_fitness. apply r_bind_eq; [apply r_mapM_eq; intros x; apply s_augmented|]. intros ks. destruct (keys_comparable ks); [apply r_ret_eq|apply r_raise].
Qed.

Lemma s_clone_selected name o : self (clone_selected name o).
Proof. unfold clone_selected. sm. apply r_modify. irels. Qed.

Lemma s_elitism n rev src dest : self (elitism_select n rev src dest).
Proof. unfold elitism_select. apply r_bind_eq; [apply s_sorted|]. intros l. sm. apply s_clone_selected. Qed.

Lemma s_scan l a : self (foldM (fun best p => b <- ind_better_than p best ;; ret (if b then p else best)) l a).
Proof. apply r_foldM. intros b x. apply r_bind_eq; [apply s_better|]. intros c. apply r_ret_eq. Qed.

Lemma s_select sel src dest : self (select sel src dest).
Proof.
  destruct sel as [size rep ar|hi ar]; cbn [select].
  - unfold tournament_select. destruct (negb rep && _); [apply r_raise|]. destruct (ar =? 0); [apply r_raise|]. sm.
    + unfold tournament_winner. destruct x0; [apply r_raise|]. apply s_scan.
    + apply s_clone_selected.
  - unfold fp_select. sm; try apply s_augmented; try apply s_clone_selected.
    all: repeat match goal with |- rel _ _ (if ?b then _ else _) _ => destruct b end; sm; try apply s_clone_selected.
Qed.

Lemma s_chunks op ar : forall fuel l, self (apply_chunks fuel (apply_operator op) ar l).
Proof.
  induction fuel; intros l; cbn [apply_chunks]; [apply r_ret_eq|]. destruct l; [apply r_ret_eq|]. apply r_bind_eq; [apply s_apply|]. intros x.
  apply r_bind_eq; [apply IHfuel|]. intros y. apply r_ret_eq.
Qed.

Lemma s_breed_sub s : self (breed_subpop s).
Proof.
  unfold breed_subpop. apply r_bind_eq; [apply r_lift|]. intros _. apply r_bind_eq.
  - destruct (0 <? sp_n_elite s); [|apply r_ret_eq]. apply r_bind_eq; [apply r_lift|]. intros r. apply s_elitism.
  - intros el. destruct (sp_sels s) as [|sel sels]; [apply r_raise|]. apply r_bind_eq; [apply s_select|]. intros l. apply r_bind_eq; [|intros nx; apply r_ret_eq].
    unfold apply_operators. apply r_foldM. intros cur op. destruct (_ =? 0); [apply r_raise|]. apply s_chunks.
Qed.

Lemma s_breed pop : self (breed pop).
Proof. unfold breed. apply r_mapM_eq. apply s_breed_sub. Qed.

(** ** Evaluation *)

Section Eval.
  Variables (ev : genome -> res fval) (sched : nat -> list nat).

  Lemma s_set_fitness o v : self (ind_set_fitness o v).
  Proof.
    eapply r_bind; [apply r_load|]. intros i j H. pose proof (irel_fields _ _ H) as (_ & Fi & _). rewrite Fi. apply r_bind_eq; [apply r_store; revert H; irels|]. intros _. apply r_lift.
  Qed.

  Lemma s_assign : forall l rs, self (assign_results l rs).
  Proof.
    induction l as [|o l IH]; intros rs; [cbn; apply r_ret_eq|]. destruct rs as [|r rs]; [cbn; apply r_ret_eq|]. cbn [assign_results].
    apply r_bind_eq; [apply r_lift|]. intros v. apply r_bind_eq; [apply s_set_fitness|]. intros _. apply IH.
  Qed.

  Lemma s_best_scan l : self (best_scan l).
  Proof. destruct l; [apply r_raise|]. apply s_scan. Qed.

  Lemma s_evaluate alive pop : self (evaluate_population ev sched ByMap alive pop).
  Proof.
    unfold evaluate_population. destruct pop as [|s [|t pop]]; [apply r_raise| |apply r_raise]. unfold evaluate_inds. apply r_bind_eq.
    - apply r_mapM_eq. intros o. eapply r_bind; [apply r_load|]. intros i j H. apply r_ret. apply (irel_fields _ _ H).
    - intros gs. apply r_bind_eq; [apply r_lift|]. intros rs. apply r_bind_eq; [apply s_assign|]. intros _. apply s_best_scan.
  Qed.
End Eval.

(** ** One generation *)

(** The generators may be anywhere, but have the same streams. *)
Definition lw (w v : world) : Prop :=
  Forall2 irel (w_heap w) (w_heap v) /\ w_next_id w = w_next_id v /\ r_py (w_rng w) = r_py (w_rng v) /\ r_np (w_rng w) = r_np (w_rng v).

Lemma wrel_lw w v : wrel w v -> lw w v.
Proof. intros (A & B & C). split; [exact A|]. split; [exact B|]. rewrite C. auto. Qed.

Lemma lw_seed z w v : lw w v -> wrel (snd (liftR (set_seed z) w)) (snd (liftR (set_seed z) v)).
Proof. intros (A & B & C & D). unfold liftR, set_seed. cbn. split; [exact A|]. split; [exact B|]. cbn. rewrite C, D. reflexivity. Qed.

Lemma lw_modify o g g' : rel lw eq (modify o (set_gen g)) (modify o (set_gen g')).
Proof.
  intros w v (A & B & C). unfold modify, bind, load. pose proof (Forall2_nth_both _ _ _ o A) as Ho.
  destruct (nth_error (w_heap w) o) as [i|], (nth_error (w_heap v) o) as [j|]; try contradiction; [|split; [reflexivity|split; auto]].
  unfold store. rewrite (Forall2_len _ _ _ A). destruct (o <? length (w_heap v)); [|split; [reflexivity|split; auto]].
  split; [reflexivity|]. split; [|split; auto]. apply Forall2_set; [exact A|]. revert Ho. irels.
Qed.

Lemma lw_update g g' : forall l, rel lw eq (iterM (fun o => modify o (set_gen g)) l) (iterM (fun o => modify o (set_gen g')) l).
Proof. induction l as [|o l IH]; cbn [iterM]; [apply r_ret_eq|]. apply r_bind_eq; [apply lw_modify|]. intros _. exact IH. Qed.

(** Comparing moves at most the generators. *)
Definition kept (w v : world) : Prop := w_heap v = w_heap w /\ w_next_id v = w_next_id w /\ r_py (w_rng v) = r_py (w_rng w) /\ r_np (w_rng v) = r_np (w_rng w).

Lemma better_kept a b w x w' : ind_better_than a b w = (Ok x, w') -> kept w w'.
Proof.
  unfold ind_better_than. intros E. mb E as i s E1. assert (s = w) as -> by (pose proof (load_state a w) as L; rewrite E1 in L; exact L). mb E as j s E2.
  assert (s = w) as -> by (pose proof (load_state b w) as L; rewrite E2 in L; exact L).
  apply liftR_ok in E. destruct E as (g & E & ->). split; [reflexivity|]. split; [reflexivity|]. cbn.
  assert (S : r_py g = r_py (w_rng w) /\ r_np g = r_np (w_rng w)); [|exact S].
  revert E. unfold better_than. destruct (ft_class (i_fit i)).
  1,2: unfold lift; destruct (simple_better_than _ _ _ _); intros E; inversion E; auto.
  unfold nsga2_better_than. destruct (neq_num (ft_rank (i_fit i)) PInf).
  - intros E. unfold random_bool in E. cbn in E. inversion E. cbn. auto.
  - unfold bind, lift. destruct (nsga2_check_comparable _ _ _ _); [|discriminate]. destruct (neq_num (ft_rank (i_fit i)) (ft_rank (i_fit j))); intros E; inversion E; auto.
Qed.

Lemma lw_kept w v w' v' : lw w v -> kept w w' -> kept v v' -> lw w' v'.
Proof. intros (A & B & C & D) (A1 & B1 & C1 & D1) (A2 & B2 & C2 & D2). unfold lw. rewrite A1, A2, B1, B2, C1, C2, D1, D2. auto. Qed.

Lemma kept_refl w : kept w w. Proof. repeat split. Qed.

Lemma rel_ok {S1 S2 X} (SR : S1 -> S2 -> Prop) (m1 : SE S1 X) (m2 : SE S2 X) s t x s' y t' :
  rel SR eq m1 m2 -> SR s t -> m1 s = (Ok x, s') -> m2 t = (Ok y, t') -> x = y /\ SR s' t'.
Proof. intros H L E1 E2. specialize (H s t L). rewrite E1, E2 in H. exact H. Qed.

Record lk (s t : algo * world) : Prop := {
  l_pop : a_pop (fst s) = a_pop (fst t);
  l_seed : a_gen_seed (fst s) = a_gen_seed (fst t);
  l_meth : a_method (fst s) = ByMap /\ a_method (fst t) = ByMap;
  l_alive : a_alive (fst s) = a_alive (fst t);
  l_free : a_checkers (fst s) = [] /\ a_checkers (fst t) = [];
  l_given : forall p, In p (a_pop (fst s)) -> sp_inds p <> None;
  l_world : lw (snd s) (snd t)
}.

(** ** The loop *)

Section Loop.
  Variables (ev : genome -> res fval) (sched : nat -> list nat).
  Local Notation it := (generation_iteration ev sched).

  Lemma body_parts g a w st a' w' : body it g (a, w) = (Ok st, (a', w')) ->
    exists w0 pop w1 best w2,
      iterM (fun o => modify o (set_gen g)) (flat_map inds_of (a_pop a)) w = (Ok tt, w0) /\
      breed (a_pop a) (snd (liftR (set_seed (next_seed (a_gen_seed a))) w0)) = (Ok pop, w1) /\
      evaluate_population ev sched (a_method a) (a_alive a) pop w1 = (Ok best, w2) /\ kept w2 w' /\
      a_pop a' = pop /\ a_gen_seed a' = next_seed (a_gen_seed a) /\ a_method a' = a_method a /\ a_alive a' = a_alive a /\ a_best_gen a' = Some best /\
      evals (a_trace a') = evals (a_trace a) ++ [flat_map inds_of pop] /\ (a_checkers a = [] -> st = false /\ a_checkers a' = []).
  Proof.
    intros H. unfold body in H. mb H as x1 s E1. unfold algo_mod in E1. cbn in E1. injection E1 as _ <-.
    mb H as x2 s E1. destruct s as [a1 w0]. unfold update_gen in E1. mb E1 as a0 s E2. unfold algo_get in E2. injection E2 as <- <-. la E1. destruct x2.
    mb H as a0 s E2. unfold algo_get in E2. injection E2 as <- <-. cbn [fst snd] in H.
    mb H as x3 s E2. destruct s as [a3 w3]. apply seed_ok in E2. destruct E2 as [-> ->].
    mb H as x4 s E2. unfold algo_mod in E2. cbn [fst snd] in E2. injection E2 as _ <-.
    mb H as x5 s E2. destruct s as [a4 w4]. apply iteration_ok in E2. destruct E2 as (pop & w1 & best & w2 & b & worst & B1 & B2 & B3 & _ & ->).
    apply terminate_ok in H. destruct H as (-> & best' & ans & cs & _ & Ec & -> & ->).
    exists w0, pop, w1, best, w2. split; [exact E1|]. split; [exact B1|]. split; [exact B2|]. split.
    { cbn [set_gen_seed add_trace set_gen_num a_best_run] in B3. destruct (a_best_run a) as [r|]; [eapply better_kept; exact B3|]. destruct B3 as [_ ->]. apply kept_refl. }
    unfold after_breeding in *. repeat (split; [destruct b; reflexivity|]). split.
    - destruct b; cbn; rewrite !evals_app; cbn; rewrite !app_nil_r; reflexivity.
    - intros C. assert (C' : a_checkers (set_worst_gen (Some worst) (if b then set_best_run (Some best) (set_best_gen (Some best) (add_trace (TEval (flat_map inds_of pop)) (add_trace TBreed (set_pop pop (set_gen_seed (next_seed (a_gen_seed a)) (add_trace (TSeed (next_seed (a_gen_seed a))) (set_gen_num g a))))))) else (set_best_gen (Some best) (add_trace (TEval (flat_map inds_of pop)) (add_trace TBreed (set_pop pop (set_gen_seed (next_seed (a_gen_seed a)) (add_trace (TSeed (next_seed (a_gen_seed a))) (set_gen_num g a)))))))) ) = []) by (destruct b; exact C).
      cbn [set_gen_num a_gen_seed] in Ec. rewrite C' in Ec. cbn in Ec. injection Ec as <- <-. auto.
  Qed.

  Lemma breed_given pop w pop' w' : breed pop w = (Ok pop', w') -> forall p, In p pop' -> sp_inds p <> None.
  Proof.
    revert w pop' w'. unfold breed. induction pop as [|s pop IH]; intros w pop' w' E p Hp; cbn [mapM] in E.
    - mr E. destruct Hp.
    - mb E as s' w1 E1. mb E as l w2 E2. mr E. destruct Hp as [<-|Hp]; [|eapply IH; eauto].
      unfold breed_subpop in E1. mb E1 as u w3 F1. mb E1 as el w4 F2. destruct (sp_sels s); [discriminate|]. mb E1 as sl w5 F3. mb E1 as nx w6 F4. mr E1. discriminate.
  Qed.

  Lemma step g g' s t st s' st' t' : lk s t -> body it g s = (Ok st, s') -> body it g' t = (Ok st', t') ->
    lk s' t' /\ st = false /\ st' = false /\ a_best_gen (fst s') = a_best_gen (fst t') /\
    evals (a_trace (fst s')) = evals (a_trace (fst s)) ++ [flat_map inds_of (a_pop (fst s'))] /\
    evals (a_trace (fst t')) = evals (a_trace (fst t)) ++ [flat_map inds_of (a_pop (fst s'))].
  Proof.
    destruct s as [a w], t as [b v], s' as [a' w'], t' as [b' v']. intros [Lp Ls [Lm Lm'] La [Lf Lf'] Lg Lw] E1 E2. cbn [fst snd] in *.
    apply body_parts in E1. destruct E1 as (w0 & p1 & w1 & x1 & w2 & U1 & B1 & V1 & K1 & P1 & S1 & M1 & A1 & X1 & T1 & C1).
    apply body_parts in E2. destruct E2 as (v0 & p2 & v1 & x2 & v2 & U2 & B2 & V2 & K2 & P2 & S2 & M2 & A2 & X2 & T2 & C2).
    destruct (C1 Lf) as [-> C1']. destruct (C2 Lf') as [-> C2']. rewrite <- Lp in U2, B2. rewrite <- Ls in B2. rewrite <- La, Lm' in V2. rewrite Lm in V1.
    destruct (rel_ok _ _ _ _ _ _ _ _ _ (lw_update g g' _) Lw U1 U2) as [_ L0].
    destruct (rel_ok _ _ _ _ _ _ _ _ _ (s_breed _) (lw_seed _ _ _ L0) B1 B2) as [<- L1].
    destruct (rel_ok _ _ _ _ _ _ _ _ _ (s_evaluate ev sched _ _) L1 V1 V2) as [<- L2].
    split; [|rewrite P1; repeat split; congruence].
    constructor; cbn [fst snd]; try congruence; try (split; congruence).
    - rewrite P1. eapply breed_given. exact B1.
    - eapply lw_kept; [apply wrel_lw; exact L2|exact K1|exact K2].
  Qed.

  Lemma lk_publish nm s t x s' y t' : lk s t -> publish nm s = (Ok x, s') -> publish nm t = (Ok y, t') ->
    lk s' t' /\ evals (a_trace (fst s')) = evals (a_trace (fst s)) /\ evals (a_trace (fst t')) = evals (a_trace (fst t)) /\
    a_best_gen (fst s') = a_best_gen (fst s) /\ a_best_gen (fst t') = a_best_gen (fst t) /\ a_pop (fst s') = a_pop (fst s).
  Proof.
    destruct s as [a w], t as [b v]. intros [Lp Ls Lm La Lf Lg Lw] E1 E2. rewrite publish_eq in E1, E2. injection E1 as _ <-. injection E2 as _ <-. cbn [fst snd] in *.
    split; [constructor; assumption|]. cbn. rewrite !evals_app. cbn. rewrite !app_nil_r. auto.
  Qed.

  Lemma loops k : forall g g' s t s' t', lk s t -> main_loop it k g s = (Ok tt, s') -> main_loop it k g' t = (Ok tt, t') ->
    lk s' t' /\ (k = 0 -> s' = s /\ t' = t) /\ (k <> 0 -> a_best_gen (fst s') = a_best_gen (fst t')) /\
    (exists e, evals (a_trace (fst s')) = evals (a_trace (fst s)) ++ e /\ evals (a_trace (fst t')) = evals (a_trace (fst t)) ++ e) /\
    (In (flat_map inds_of (a_pop (fst s))) (evals (a_trace (fst s))) -> In (flat_map inds_of (a_pop (fst s'))) (evals (a_trace (fst s')))).
  Proof.
    induction k as [|k IH]; intros g g' s t s' t' L E1 E2.
    - cbn in E1, E2. unfold ret in E1, E2. injection E1 as <-. injection E2 as <-. split; [exact L|]. split; [auto|]. split; [congruence|].
      split; [exists []; rewrite !app_nil_r; auto|auto].
    - rewrite main_loop_body in E1, E2. mb E1 as st s1 F1. mb E2 as st' t1 F2.
      destruct (step _ _ _ _ _ _ _ _ L F1 F2) as (L1 & -> & -> & X1 & T1 & T1').
      mb E1 as x s2 G1. mb E2 as y t2 G2. destruct (lk_publish _ _ _ _ _ _ _ L1 G1 G2) as (L2 & P1 & P2 & P3 & P4 & P5).
      destruct (IH _ _ _ _ _ _ L2 E1 E2) as (L3 & Z & X & (e & Q1 & Q2) & K). split; [exact L3|]. split; [discriminate|]. split.
      { intros _. destruct k; [destruct (Z eq_refl) as [-> ->]; congruence|apply X; discriminate]. }
      split.
      + exists (flat_map inds_of (a_pop (fst s1)) :: e). rewrite Q1, Q2, P1, P2, T1, T1', <- !app_assoc. auto.
      + intros _. apply K. rewrite P5, P1, T1. apply in_or_app. right. left. reflexivity.
  Qed.

  Lemma loop_split k : forall m g s s', a_checkers (fst s) = [] -> main_loop it (k + m) g s = (Ok tt, s') ->
    exists s1, main_loop it k g s = (Ok tt, s1) /\ main_loop it m (g + k) s1 = (Ok tt, s').
  Proof.
    induction k as [|k IH]; intros m g s s' C E; [exists s; rewrite Nat.add_0_r; auto|].
    cbn [Nat.add] in E. rewrite main_loop_body in E. mb E as st s1 F. destruct s as [a w], s1 as [a1 w1].
    pose proof F as F'. apply body_parts in F'. destruct F' as (w0 & p & w2 & b & w3 & _ & _ & _ & _ & _ & _ & _ & _ & _ & _ & C'). destruct (C' C) as [-> C1].
    mb E as u s2 G. destruct u. assert (C2 : a_checkers (fst s2) = []) by (rewrite publish_eq in G; injection G as <-; exact C1).
    destruct (IH _ _ _ _ C2 E) as (s3 & E3 & E4). exists s3. rewrite main_loop_body, (bind_eq_ok _ _ _ _ _ F), (bind_eq_ok _ _ _ _ _ G).
    split; [exact E3|]. rewrite Nat.add_succ_r. exact E4.
  Qed.
End Loop.

(** ** Evaluating again *)

Lemma again ev sched h a w best w' : fair sched -> gives_numbers ev -> loop_inv ev h a w -> In (flat_map inds_of (a_pop a)) (evals (a_trace a)) ->
  evaluate_population ev sched ByMap true (a_pop a) w = (Ok best, w') -> w_heap w' = w_heap w /\ same_but_heap w w'.
Proof.
  intros F G [(s & Es & Hs) _ _ (b & _ & Hh)] Hin E. rewrite Es in *. cbn [evaluate_population] in E.
  apply (evaluate_ok _ _ _ _ h _ _ F G Hs) in E. destruct E as (_ & Sb & Ein & Eout & _). split; [|exact Sb].
  destruct Sb as (_ & _ & Len). apply nth_error_ext. intros o. change (at_ w' o = at_ w o).
  destruct (in_dec Nat.eq_dec o (inds_of s)) as [Ho|Ho]; [|apply Eout; exact Ho].
  destruct (hi_vals _ _ _ _ _ Hh o) as [_ (i & v & Hi & Ev & P)].
  { exists (flat_map inds_of [s]). split; [exact Hin|]. cbn. rewrite app_nil_r. exact Ho. }
  destruct (Ein o i Ho Hi) as (j & Hj & v' & Ev' & ->). rewrite Hi, Hj. rewrite Ev in Ev'. injection Ev' as <-.
  unfold get_pure_fitness in P. destruct i as [id ge [c va e hb ca re cr rk] cf sb ap up pa gm]. cbn in *. destruct e; [|discriminate]. injection P as ->. reflexivity.
Qed.

Lemma no_checkers a w st a' w' : a_checkers a = [] -> should_terminate (a, w) = (Ok st, (a', w')) ->
  st = false /\ w' = w /\ a' = add_trace (TCheck []) (set_checkers [] a).
Proof.
  intros C E. apply terminate_ok in E. destruct E as (-> & b & ans & cs & _ & Ec & -> & ->). rewrite C in Ec. cbn in Ec. injection Ec as <- <-. auto.
Qed.

Lemma irel_refl i : irel i i. Proof. apply irel_intro; reflexivity. Qed.
Lemma irels_refl l : Forall2 irel l l. Proof. induction l; constructor; auto using irel_refl. Qed.
Lemma lw_refl w : lw w w. Proof. repeat split. apply irels_refl. Qed.

Lemma create_given : forall pop w pop' w', mapM create_subpopulation pop w = (Ok pop', w') -> forall p, In p pop' -> sp_inds p <> None.
Proof.
  induction pop as [|s pop IH]; intros w pop' w' E p Hp; cbn [mapM] in E.
  - mr E. destruct Hp.
  - mb E as s' w1 E1. mb E as l w2 E2. mr E. destruct Hp as [<-|Hp]; [|eapply IH; eauto].
    unfold create_subpopulation in E1. destruct (sp_inds s) eqn:Es; [mr E1; congruence|]. mb E1 as c w3 F1. mb E1 as l1 w4 F2. mr E1. discriminate.
Qed.

Lemma given_created : forall pop w, (forall p, In p pop -> sp_inds p <> None) -> mapM create_subpopulation pop w = (Ok pop, w).
Proof.
  induction pop as [|s pop IH]; intros w H; [reflexivity|]. cbn [mapM]. assert (E : create_subpopulation s w = (Ok s, w)).
  { unfold create_subpopulation. destruct (sp_inds s) eqn:Es; [reflexivity|]. destruct (H s (or_introl eq_refl)). exact Es. }
  rewrite (bind_eq_ok _ _ _ _ _ E), (bind_eq_ok _ _ _ _ _ (IH w (fun p Hp => H p (or_intror Hp)))). reflexivity.
Qed.

Lemma resumed_more ev sched h n n' k m a w a1 w1 b a2 w2 a3 w3 : gives_numbers ev -> fair sched -> a_trace a = [] -> a_method a = ByMap ->
  scalar_population w h (a_pop a) ->
  evolve ev sched n (limited k [] a, w) = (Ok tt, (a1, w1)) -> resumes m a1 b ->
  evolve ev sched n' (b, w1) = (Ok tt, (a2, w2)) ->
  evolve ev sched n (limited (k + m) [] a, w) = (Ok tt, (a3, w3)) ->
  a_pop a3 = a_pop a2 /\ a_gen_seed a3 = a_gen_seed a2 /\ (m <> 0 -> a_best_gen a3 = a_best_gen a2) /\
  (exists more, evals (a_trace a2) = flat_map inds_of (a_pop a1) :: more /\ evals (a_trace a3) = evals (a_trace a1) ++ more) /\
  Forall2 same_but_gen (w_heap w3) (w_heap w2) /\ w_next_id w3 = w_next_id w2 /\
  In (flat_map inds_of (a_pop a1)) (evals (a_trace a1)) /\ scalar_population w1 h (a_pop a1).
Proof.
  intros G F Ht Hm Hp E1 (Rp & Rx & Rc & Rs & Rm & Ra & Rt) E2 E3. unfold evolve in E1, E2, E3.
  apply evolve_ok in E1. destruct E1 as (x1 & u1 & st1 & x2 & x3 & u3 & I1 & S1 & L1 & F1).
  apply evolve_ok in E3. destruct E3 as (y1 & v1 & st3 & y2 & y3 & v3 & I3 & S3 & L3 & F3).
  pose proof (init_inv ev h G sched F n (limited k [] a) w x1 u1 Ht Hm Hp I1) as Inv1.
  apply init_ok in I1. destruct I1 as (p1 & c1 & best1 & C1 & V1 & ->). apply init_ok in I3. destruct I3 as (p3 & c3 & best3 & C3 & V3 & ->).
  cbn [limited a_pop a_random_seed a_method a_alive] in C1, V1, C3, V3. rewrite C1 in C3. injection C3 as <- <-. rewrite V1 in V3. injection V3 as <- <-.
  apply no_checkers in S1; [|reflexivity]. destruct S1 as (-> & _ & ->). apply no_checkers in S3; [|reflexivity]. destruct S3 as (-> & _ & ->).
  cbn [limited a_max_gen add_trace set_checkers add_stats set_best_run set_pop] in L1, L3.
  apply loop_split in L3; [|reflexivity]. destruct L3 as ([ym vm] & L3 & L3').
  match type of L1 with main_loop _ _ _ ?s = _ => set (s1 := s) in * end.
  match type of L3 with main_loop _ _ _ ?s = _ => set (t1 := s) in * end.
  assert (K : lk s1 t1).
  { constructor; try reflexivity; try (split; assumption || reflexivity); [|apply lw_refl]. intros p. apply (create_given _ _ _ _ C1). }
  destruct (loops ev sched k _ _ _ _ _ _ K L1 L3) as (K1 & _ & _ & (e1 & Q1 & Q1') & N1).
  assert (N : In (flat_map inds_of (a_pop (fst s1))) (evals (a_trace (fst s1)))).
  { subst s1. cbn. rewrite Ht. cbn. auto. }
  specialize (N1 N). cbn [fst snd] in *.
  assert (Inv3 : loop_inv ev h x3 u3).
  { eapply (loop_ok ev h G sched F); [|exact L1]. destruct Inv1 as [(s & Es & Hs) Hm' Ha' (b0 & Eb & Hh)].
    split; [exists s; split; [exact Es|exact Hs]|exact Hm'|exact Ha'|]. exists b0. split; [exact Eb|]. apply (hist_skip ev h) with (e := TCheck []) in Hh; [|reflexivity|reflexivity]. exact Hh. }
  apply finish_ok in F1. destruct F1 as [-> ->]. apply finish_ok in F3. destruct F3 as [-> ->].
  cbn [set_alive add_trace a_pop a_gen_seed a_trace a_best_gen] in *.
  assert (Sp : scalar_population u3 h (a_pop x3)).
  { destruct Inv3 as [(s & Es & Hs) _ _ _]. exists s. split; [exact Es|]. destruct (sp_inds s) as [l|] eqn:El; [unfold inds_of in Hs; rewrite El in Hs; exact Hs|].
    destruct (l_given _ _ K1 s); [cbn; rewrite Es; left; reflexivity|exact El]. }
  apply evolve_ok in E2. destruct E2 as (z1 & r1 & st2 & z2 & z3 & r3 & I2 & S2 & L2 & F2).
  apply init_ok in I2. destruct I2 as (p2 & c2 & best2 & C2 & V2 & ->). rewrite Rp in C2.
  rewrite (given_created _ _ (l_given _ _ K1)) in C2. injection C2 as <- <-. rewrite Rm, Ra in V2.
  apply no_checkers in S2; [|exact Rc]. destruct S2 as (-> & _ & ->). cbn [a_max_gen add_trace set_checkers add_stats set_best_run set_pop] in L2. rewrite Rx in L2.
  match type of L2 with main_loop _ _ _ ?s = _ => set (z := s) in * end.
  assert (Inv4 : loop_inv ev h x3 (snd (liftR (set_seed (a_random_seed b)) u3))).
  { destruct Inv3 as [(s & Es & Hs) Hm' Ha' (b0 & Eb & Hh)]. split; [exists s; split; [exact Es|exact Hs]|exact Hm'|exact Ha'|]. exists b0. split; [exact Eb|].
    eapply hist_regen; [|exact Hh]. apply regen_ext, ext_same, liftR_heap. }
  destruct (again _ _ h _ _ _ _ F G Inv4 N1 V2) as [Hh (Hn & Hr & _)].
  assert (K2 : lk (ym, vm) z).
  { destruct K1 as [Kp Ks [Km Km'] Ka [Kf Kf'] Kg Kw]. cbn [fst snd] in *. subst z. constructor; cbn [fst snd].
    - cbn. congruence.
    - cbn. congruence.
    - split; [exact Km'|cbn; congruence].
    - cbn. rewrite Ra. rewrite <- Ka. apply (li_alive _ _ _ _ Inv3).
    - split; [exact Kf'|reflexivity].
    - rewrite <- Kp. exact Kg.
    - destruct Kw as (W1 & W2 & W3 & W4). unfold lw. rewrite Hh, Hn, Hr. cbn. split; [|split; [congruence|split; congruence]].
      clear -W1. induction W1 as [|i j l l' Hij W IH]; constructor; [|exact IH]. revert Hij. irels. }
  destruct (loops ev sched m _ _ _ _ _ _ K2 L3' L2) as (K3 & _ & X & (e2 & Q2 & Q2') & _).
  apply finish_ok in F2. destruct F2 as [-> ->]. cbn [fst snd set_alive add_trace a_pop a_gen_seed a_trace a_best_gen] in *.
  destruct K3 as [Kp Ks _ _ _ _ (W1 & W2 & _)]. cbn [fst snd] in *. rewrite !evals_app. cbn [evals flat_map]. rewrite !app_nil_r.
  split; [exact Kp|]. split; [exact Ks|]. split; [exact X|]. split; [|split; [exact W1|split; [exact W2|split; [exact N1|exact Sp]]]].
  exists e2. split.
  - rewrite Q2'. subst z. cbn. rewrite Rt. reflexivity.
  - rewrite Q2, Q1', Q1.  f_equal.
Qed.

(** C100 *)
Lemma resumed ev sched h n n' k m a w a1 w1 b a2 w2 a3 w3 : gives_numbers ev -> fair sched -> a_trace a = [] -> a_method a = ByMap ->
  scalar_population w h (a_pop a) ->
  evolve ev sched n (limited k [] a, w) = (Ok tt, (a1, w1)) -> resumes m a1 b ->
  evolve ev sched n' (b, w1) = (Ok tt, (a2, w2)) ->
  evolve ev sched n (limited (k + m) [] a, w) = (Ok tt, (a3, w3)) ->
  a_pop a3 = a_pop a2 /\ a_gen_seed a3 = a_gen_seed a2 /\ (m <> 0 -> a_best_gen a3 = a_best_gen a2) /\
  (exists more, evals (a_trace a2) = flat_map inds_of (a_pop a1) :: more /\ evals (a_trace a3) = evals (a_trace a1) ++ more) /\
  Forall2 same_but_gen (w_heap w3) (w_heap w2) /\ w_next_id w3 = w_next_id w2.
Proof.
  intros G F Ht Hm Hp E1 R E2 E3. destruct (resumed_more _ _ _ _ _ _ _ _ _ _ _ _ _ _ _ _ G F Ht Hm Hp E1 R E2 E3) as (A1 & A2 & A3 & A4 & A5 & A6 & _). auto 10.
Qed.

Lemma same_score w v o : Forall2 irel (w_heap w) (w_heap v) -> score_of w o = score_of v o.
Proof.
  intros H. pose proof (Forall2_nth_both _ _ _ o H) as Ho. unfold score_of, at_. destruct (nth_error (w_heap w) o) as [i|], (nth_error (w_heap v) o) as [j|]; try contradiction; [|reflexivity].
  apply irel_fields in Ho as (_ & E1 & _ & _ & _ & _ & _ & E2). unfold isize. rewrite E1, E2. reflexivity.
Qed.

(** C100 *)
Lemma resumed_best ev sched h n n' k m a w a1 w1 b a2 w2 a3 w3 : gives_numbers ev -> fair sched -> a_trace a = [] -> a_method a = ByMap ->
  scalar_population w h (a_pop a) ->
  evolve ev sched n (limited k [] a, w) = (Ok tt, (a1, w1)) -> resumes m a1 b ->
  evolve ev sched n' (b, w1) = (Ok tt, (a2, w2)) ->
  evolve ev sched n (limited (k + m) [] a, w) = (Ok tt, (a3, w3)) ->
  exists b1 b2 b3 x y z, a_best_run a1 = Some b1 /\ a_best_run a2 = Some b2 /\ a_best_run a3 = Some b3 /\
    scored w3 b1 x /\ scored w3 b2 y /\ scored w3 b3 z /\
    ~ better_score h x z /\ ~ better_score h y z /\ (~ better_score h z x \/ ~ better_score h z y).
Proof.
  intros G F Ht Hm Hp E1 R E2 E3.
  destruct (resumed_more _ _ _ _ _ _ _ _ _ _ _ _ _ _ _ _ G F Ht Hm Hp E1 R E2 E3) as (_ & _ & _ & (more & D1 & D2) & W & _ & N & Sp).
  assert (Ht1 : a_trace (limited k [] a) = []) by exact Ht.
  destruct (evolve_inv ev h G sched F n (limited k [] a) w a1 w1 Ht Hm Hp E1) as (b1 & B1 & H1).
  destruct (evolve_inv ev h G sched F n (limited (k + m) [] a) w a3 w3 Ht Hm Hp E3) as (b3 & B3 & H3).
  destruct R as (Rp & _ & _ & _ & Rm & _ & Rt). rewrite <- Rp in Sp.
  destruct (evolve_inv ev h G sched F n' b w1 a2 w2 Rt Rm Sp E2) as (b2 & B2 & H2).
  assert (I1 : forall o, evd (a_trace a1) o -> evd (a_trace a3) o).
  { intros o (l & Hl & Ho). exists l. split; [rewrite D2; apply in_or_app; left; exact Hl|exact Ho]. }
  assert (I2 : forall o, evd (a_trace a2) o -> evd (a_trace a3) o).
  { intros o (l & Hl & Ho). exists l. split; [|exact Ho]. rewrite D2. apply in_or_app. rewrite D1 in Hl. destruct Hl as [<-|Hl]; [left; exact N|right; exact Hl]. }
  assert (I3 : forall o, evd (a_trace a3) o -> evd (a_trace a1) o \/ evd (a_trace a2) o).
  { intros o (l & Hl & Ho). rewrite D2 in Hl. apply in_app_or in Hl. destruct Hl as [Hl|Hl]; [left; exists l; auto|right; exists l; split; [rewrite D1; right; exact Hl|exact Ho]]. }
  assert (S1 : forall o, evd (a_trace a1) o -> score_of w1 o = score_of w3 o).
  { intros o Ho. destruct (Nat.le_gt_cases (length (doings (a_trace a1))) (length (doings (a_trace a3)))) as [L|L].
    - destruct (longer_better _ _ _ _ _ _ _ _ _ _ _ _ _ h G F Ht Hm Hp E1 E3 L) as [Q _]. destruct (hi_vals _ _ _ _ _ H1 o Ho) as [(i & Hi & _) _].
      destruct (Q o i Hi) as (g & Hg). unfold score_of. rewrite Hi, Hg. reflexivity.
    - apply Nat.lt_le_incl in L. destruct (longer_better _ _ _ _ _ _ _ _ _ _ _ _ _ h G F Ht Hm Hp E3 E1 L) as [Q _]. destruct (hi_vals _ _ _ _ _ H3 o (I1 o Ho)) as [(i & Hi & _) _].
      destruct (Q o i Hi) as (g & Hg). unfold score_of. rewrite Hi, Hg. reflexivity. }
  pose proof (hi_in _ _ _ _ _ H1) as J1. pose proof (hi_in _ _ _ _ _ H2) as J2. pose proof (hi_in _ _ _ _ _ H3) as J3.
  exists b1, b2, b3, (score_of w3 b1), (score_of w3 b2), (score_of w3 b3). split; [exact B1|]. split; [exact B2|]. split; [exact B3|].
  split; [eapply (hist_scored ev h G); eauto|]. split; [eapply (hist_scored ev h G); eauto|]. split; [eapply (hist_scored ev h G); eauto|].
  split; [apply (hi_best _ _ _ _ _ H3); auto|]. split; [apply (hi_best _ _ _ _ _ H3); auto|].
  destruct (I3 b3 J3) as [J|J].
  - left. rewrite <- (S1 b3 J), <- (S1 b1 J1). apply (hi_best _ _ _ _ _ H1). exact J.
  - right. rewrite !(same_score w3 w2 _ W). apply (hi_best _ _ _ _ _ H2). exact J.
Qed.

(** C100 *)
Lemma moo_given ev sched so d n a w s o l i v : fair sched -> a_pop a = [s] -> sp_inds s = Some (o :: l) -> a_method a = ByMap -> a_alive a = true ->
  at_ w o = Some i -> ft_class (i_fit i) = KNSGA2 -> ft_evaluated (i_fit i) = true -> ev (i_genome i) = Ok v -> present l w ->
  exists a2 w2, nsga2_evolve ev sched so d n (a, w) = (Raise AttributeError, (a2, w2)) /\ w_heap w2 = w_heap w /\ a_pop a2 = a_pop a.
Proof.
  intros Hf P1 El Hm Ha A C Ue Ex Hl.
  set (w1 := snd (liftR (set_seed (a_random_seed a)) w)).
  assert (Hh : w_heap w1 = w_heap w) by reflexivity.
  assert (Hp : present (o :: l) w1).
  { intros p [<-|Hp']; [exists i; exact A|]. exact (Hl p Hp'). }
  destruct (load_genomes _ w1 Hp) as (gs & Eg & Fg). inversion Fg as [|? g ? gs' (i' & A' & Gg) Fg']; subst.
  assert (i' = i) as -> by (change (at_ w1 o) with (at_ w o) in A'; congruence).
  assert (E : evaluate_population ev sched ByMap true [s] w1 = (Raise AttributeError, w1)).
  { cbn [evaluate_population]. unfold inds_of. rewrite El. unfold evaluate_inds. rewrite (bind_eq_ok _ _ _ _ _ Eg).
    rewrite (executor_map_fair ev sched _ Hf). erewrite bind_eq_ok; [|reflexivity]. cbn [map assign_results]. rewrite Ex.
    assert (Er : ind_set_fitness o v w1 = (Raise AttributeError, w1)).
    { unfold ind_set_fitness. rewrite (bind_eq_ok _ _ _ _ _ (load_at _ _ _ A')). unfold set_fitness. rewrite C, Ue. cbn [fst snd]. cbv zeta.
      rewrite (bind_eq_ok _ _ _ _ _ (store_at o _ i w1 A')), set_fit_same, (put_same _ _ _ A'). reflexivity. }
    unfold bind at 1. unfold bind at 1. cbn [lift]. unfold bind. rewrite Er. reflexivity. }
  eexists. exists w1. split; [|split; [exact Hh|]].
  - unfold nsga2_evolve, evolve_with. apply bind_eq_raise. unfold initialize. erewrite bind_eq_ok; [|reflexivity]. cbn [fst].
    erewrite bind_eq_ok.
    2:{ unfold seed_generators. erewrite bind_eq_ok; [|unfold liftM; cbn [fst snd]; reflexivity]. reflexivity. }
    rewrite P1. erewrite bind_eq_ok.
    2:{ unfold liftM. cbn [fst snd]. match goal with |- context [mapM _ _ ?x] => change x with w1 end.
        rewrite given_created; [reflexivity|]. intros p [<-|[]]. congruence. }
    erewrite bind_eq_ok; [|reflexivity]. cbn [fst snd]. apply bind_eq_raise. unfold act_evaluator. erewrite bind_eq_ok; [|reflexivity]. cbn [fst snd].
    apply bind_eq_raise. unfold liftM. cbn [fst snd a_method a_alive a_pop set_pop add_trace]. rewrite Hm, Ha, E. reflexivity.
  - cbn. rewrite P1. reflexivity.
Qed.
