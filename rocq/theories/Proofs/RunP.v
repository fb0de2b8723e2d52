(** Proofs about whole runs: what is evaluated, recorded, published and seeded. *)
From Verif.Proofs Require Export EvalP.
From Verif.Model Require Import Tree World Evolution.
Open Scope nat_scope.

(** ** Taking a run apart *)

Lemma liftM_ok {X} (m : M X) a w x a' w' : liftM m (a, w) = (Ok x, (a', w')) -> a' = a /\ m w = (Ok x, w').
Proof. unfold liftM. simpl. destruct (m w) as [[y|e] v]; intros H; injection H; intros; subst; auto; discriminate. Qed.

Ltac la H := apply liftM_ok in H; destruct H as [-> H].

Lemma seed_ok z a w u a' w' : seed_generators z (a, w) = (Ok u, (a', w')) ->
  a' = add_trace (TSeed z) a /\ w' = snd (liftR (set_seed z) w).
Proof.
  intros H. unfold seed_generators in H. mb H as x s E. destruct s as [a1 w1]. la E.
  unfold algo_mod in H. simpl in H. injection H as _ <- <-. rewrite E. auto.
Qed.

Lemma eval_ok ev sched a w b a' w' : act_evaluator ev sched (a, w) = (Ok b, (a', w')) ->
  evaluate_population ev sched (a_method a) (a_alive a) (a_pop a) w = (Ok b, w') /\
  a' = add_trace (TEval (flat_map inds_of (a_pop a))) a.
Proof.
  intros H. unfold act_evaluator in H. mb H as a0 s E. unfold algo_get in E. injection E as <- <-. simpl in H.
  mb H as o s E. destruct s as [a1 w1]. la E. mb H as u s E1. unfold algo_mod in E1. simpl in E1. injection E1 as _ <-.
  mr H. auto.
Qed.

Lemma run_checkers_state pop best gen cs w r w' : run_checkers pop best gen cs w = (r, w') -> w' = w.
Proof.
  intros H. assert (S : steps eq (run_checkers pop best gen cs)).
  - apply (st_bind eq); [|intros; apply (st_ret eq)]. apply (st_mapM eq). intros c _.
    assert (L : forall o, steps eq (load o)) by (intros o v; rewrite load_state; reflexivity).
    assert (P : forall o, steps eq (pure_fitness o)) by (intros o; apply (st_bind eq); [apply L|intros; apply (st_lift eq)]).
    assert (Au : forall o, steps eq (augmented o)) by (intros o; apply (st_bind eq); [apply L|intros; apply (st_lift eq)]).
    destruct c as [opt th|limit st count|f m]; simpl.
    + apply (st_bind eq); [apply P|]. intros v. apply (st_bind eq); [apply (st_lift eq)|]. intros; apply (st_ret eq).
    + apply (st_bind eq).
      * apply (st_mapM eq). intros s _. apply (st_bind eq); [apply (st_lift eq)|]. intros rev.
        apply (st_bind eq); [|intros; apply (st_lift eq)]. apply (st_bind eq); [apply (st_mapM eq); intros; apply Au|].
        intros ks. destruct (keys_comparable ks); [apply (st_ret eq)|apply (st_raise eq)].
      * intros bs. apply (st_bind eq); [apply (st_mapM eq); intros; apply P|]. intros; apply (st_lift eq).
    + apply (st_bind eq); [intros v; reflexivity|]. intros v. apply (st_bind eq); [apply (st_lift eq)|]. intros; apply (st_ret eq).
  - specialize (S w). rewrite H in S. symmetry. exact S.
Qed.

Lemma worst_state s w r w' : get_worst_individual s w = (r, w') -> w' = w.
Proof.
  intros H. assert (S : steps eq (get_worst_individual s)).
  - apply (st_bind eq); [|intros; apply (st_lift eq)]. apply (st_bind eq).
    + apply (st_mapM eq). intros o _. apply (st_bind eq); [intros v; rewrite load_state; reflexivity|intros; apply (st_lift eq)].
    + intros ks. destruct (keys_comparable ks); [apply (st_ret eq)|apply (st_raise eq)].
  - specialize (S w). rewrite H in S. symmetry. exact S.
Qed.

Lemma terminate_ok a w st a' w' : should_terminate (a, w) = (Ok st, (a', w')) ->
  w' = w /\ exists best answers cs, a_best_run a = Some best /\
    run_checkers (a_pop a) best (a_gen_num a) (a_checkers a) w = (Ok (answers, cs), w) /\
    a' = add_trace (TCheck answers) (set_checkers cs a) /\ st = existsb (fun b => b) answers.
Proof.
  intros H. unfold should_terminate in H. mb H as a0 s E. unfold algo_get in E. injection E as <- <-. simpl in H.
  destruct (a_best_run a) as [best|] eqn:Eb; [|discriminate]. mb H as r s E. destruct s as [a1 w1]. la E.
  pose proof (run_checkers_state _ _ _ _ _ _ _ E) as ->. destruct r as [answers cs]. simpl in H.
  mb H as u s E1. unfold algo_mod in E1. simpl in E1. injection E1 as _ <-.
  mb H as u' s E1. unfold algo_mod in E1. simpl in E1. injection E1 as _ <-. mr H.
  split; [reflexivity|]. exists best, answers, cs. auto.
Qed.

Lemma publish_eq n a w : publish n (a, w) =
  (Ok tt, (add_trace (TPublish n (a_gen_num a) (a_best_run a)
             (match a_best_run a with Some o => at_ w o | None => None end)) a, w)).
Proof. reflexivity. Qed.

Definition after_breeding (pop : list subpop) (best : oid) (b : bool) (worst : oid) (a : algo) : algo :=
  let a2 := set_best_gen (Some best) (add_trace (TEval (flat_map inds_of pop)) (add_trace TBreed (set_pop pop a))) in
  set_worst_gen (Some worst) (if b then set_best_run (Some best) a2 else a2).

Lemma iteration_ok ev sched a w u a' w' : generation_iteration ev sched (a, w) = (Ok u, (a', w')) ->
  exists pop w1 best w2 b worst, breed (a_pop a) w = (Ok pop, w1) /\
    evaluate_population ev sched (a_method a) (a_alive a) pop w1 = (Ok best, w2) /\
    match a_best_run a with None => b = true /\ w' = w2 | Some r => ind_better_than best r w2 = (Ok b, w') end /\
    (exists s rest, pop = s :: rest /\ get_worst_individual s w' = (Ok worst, w')) /\
    a' = after_breeding pop best b worst a.
Proof.
  intros H. unfold generation_iteration in H. mb H as a0 s E. unfold algo_get in E. injection E as <- <-. simpl in H.
  mb H as pop s E. destruct s as [a1 w1]. la E.
  mb H as x1 s E1. unfold algo_mod in E1. simpl in E1. injection E1 as _ <-.
  mb H as x2 s E1. unfold algo_mod in E1. simpl in E1. injection E1 as _ <-.
  mb H as best s E1. destruct s as [a2 w2]. apply eval_ok in E1. destruct E1 as [E1 ->]. simpl in E1, H.
  mb H as x3 s E2. unfold algo_mod in E2. simpl in E2. injection E2 as _ <-.
  mb H as a3 s E2. unfold algo_get in E2. injection E2 as <- <-. simpl in H.
  mb H as b s E2. destruct s as [a4 w3].
  exists pop, w1, best, w2, b. 
  assert (B : a4 = set_best_gen (Some best) (add_trace (TEval (flat_map inds_of pop)) (add_trace TBreed (set_pop pop a))) /\
              match a_best_run a with None => b = true /\ w3 = w2 | Some r => ind_better_than best r w2 = (Ok b, w3) end).
  { destruct (a_best_run a) as [r|]; [la E2; auto|]. unfold ret in E2. injection E2 as <- <- <-. auto. }
  destruct B as [-> B]. clear E2. mb H as x4 s E2. destruct s as [a5 w4].
  assert (B2 : w4 = w3 /\ a5 = if b then set_best_run (Some best) (set_best_gen (Some best) (add_trace (TEval (flat_map inds_of pop)) (add_trace TBreed (set_pop pop a))))
                 else set_best_gen (Some best) (add_trace (TEval (flat_map inds_of pop)) (add_trace TBreed (set_pop pop a)))).
  { destruct b; unfold algo_mod, ret in E2; simpl in E2; injection E2 as _ <- <-; auto. }
  destruct B2 as [-> ->]. clear E2. destruct pop as [|s rest]; [discriminate|]. mb H as worst s1 E2. destruct s1 as [a6 w5]. la E2.
  pose proof (worst_state _ _ _ _ E2) as ->. unfold algo_mod in H. simpl in H. injection H as _ <- <-.
  exists worst. split; [exact E|]. split; [exact E1|]. split; [exact B|]. split; [exists s, rest; auto|]. destruct b; reflexivity.
Qed.

(** One round of the main loop up to the check. *)
Definition body (it : A unit) (gen : nat) : A bool :=
  algo_mod (set_gen_num gen) ;;;
  update_gen gen ;;;
  a <- algo_get ;;
  seed_generators (next_seed (a_gen_seed a)) ;;;
  algo_mod (set_gen_seed (next_seed (a_gen_seed a))) ;;;
  it ;;;
  should_terminate.

Lemma main_loop_body it todo gen s : main_loop it (S todo) gen s =
  (stop <- body it gen ;;
   if stop then algo_mod (set_final (Some gen)) ;;; publish "after_generation"
   else publish "after_generation" ;;; main_loop it todo (S gen)) s.
Proof.
  unfold body. cbn [main_loop]. rewrite bind_assoc. apply bind_ext. intros _ s1.
  rewrite bind_assoc. apply bind_ext. intros _ s2. rewrite bind_assoc. apply bind_ext. intros a s3.
  rewrite bind_assoc. apply bind_ext. intros _ s4. rewrite bind_assoc. apply bind_ext. intros _ s5.
  rewrite bind_assoc. apply bind_ext. intros _ s6. reflexivity.
Qed.

(** Objects keep everything but their generation number. *)
Definition regen (w w' : world) : Prop :=
  forall o i, at_ w o = Some i -> exists n, at_ w' o = Some (set_gen n i).

Lemma set_gen_same i : set_gen (i_gen i) i = i.
Proof. destruct i. reflexivity. Qed.

Global Instance regen_pre : PreOrder regen.
Proof.
  split; [intros w o i H; exists (i_gen i); rewrite set_gen_same; exact H|].
  intros a b c H1 H2 o i H. destruct (H1 o i H) as (n & Hn). destruct (H2 o _ Hn) as (m & Hm). exists m. exact Hm.
Qed.

Lemma regen_ext w w' : ext w w' -> regen w w'.
Proof. intros E o i H. exists (i_gen i). rewrite set_gen_same. eapply ext_at; eauto. Qed.

Lemma regen_frame w w' : frame none w w' -> regen w w'.
Proof. intros [_ F] o i H. exists (i_gen i). rewrite set_gen_same, F; [exact H|eapply at_lt; eauto|intros []]. Qed.

Lemma regen_set o n : steps regen (modify o (set_gen n)).
Proof.
  intros w. destruct (at_ w o) as [i|] eqn:E.
  - rewrite (modify_at _ _ _ _ E). simpl. intros p j H. destruct (Nat.eq_dec o p) as [<-|Hn].
    + exists n. rewrite (at_put_same _ _ _ _ E). congruence.
    + exists (i_gen j). rewrite set_gen_same, at_put_other by exact Hn. exact H.
  - unfold modify, bind, load. unfold at_ in E. rewrite E. reflexivity.
Qed.

Lemma body_ok it gen a w st a' w' : body it gen (a, w) = (Ok st, (a', w')) ->
  exists w1 a2 w2, regen w w1 /\ length (w_heap w1) = length (w_heap w) /\
    it (set_gen_seed (next_seed (a_gen_seed a)) (add_trace (TSeed (next_seed (a_gen_seed a))) (set_gen_num gen a)), w1) = (Ok tt, (a2, w2)) /\
    should_terminate (a2, w2) = (Ok st, (a', w')).
Proof.
  intros H. unfold body in H. mb H as x1 s E1. unfold algo_mod in E1. simpl in E1. injection E1 as _ <-.
  mb H as x2 s E1. destruct s as [a1 w1]. unfold update_gen in E1. mb E1 as a0 s E2. unfold algo_get in E2. injection E2 as <- <-. simpl in E1.
  la E1.
  assert (R1 : regen w w1).
  { assert (S : steps regen (iterM (fun o => modify o (set_gen gen)) (flat_map inds_of (a_pop a)))) by (apply (st_iterM regen); intros; apply regen_set).
    specialize (S w). rewrite E1 in S. exact S. }
  assert (L1 : length (w_heap w1) = length (w_heap w)).
  { set (Rl := fun w w' : world => length (w_heap w') = length (w_heap w)).
    assert (PR : PreOrder Rl) by (split; [intros x; reflexivity|intros x y z Hx Hy; unfold Rl in *; congruence]).
    assert (S : steps Rl (iterM (fun o => modify o (set_gen gen)) (flat_map inds_of (a_pop a)))).
    { apply (st_iterM Rl). intros o _ v. destruct (at_ v o) as [i|] eqn:E; [rewrite (modify_at _ _ _ _ E); apply put_at_len|].
      unfold modify, bind, load. unfold at_ in E. rewrite E. reflexivity. }
    specialize (S w). rewrite E1 in S. exact S. }
  mb H as a0 s E2. unfold algo_get in E2. injection E2 as <- <-. simpl in H.
  mb H as x3 s E2. destruct s as [a3 w3]. apply seed_ok in E2. destruct E2 as [-> ->].
  mb H as x4 s E2. unfold algo_mod in E2. simpl in E2. injection E2 as _ <-.
  mb H as x5 s E2. destruct s as [a4 w4]. destruct x5.
  exists (snd (liftR (set_seed (next_seed (a_gen_seed a))) w1)), a4, w4.
  split; [transitivity w1; [exact R1|]; apply regen_ext, ext_same, liftR_heap|].
  split; [rewrite liftR_heap; exact L1|]. split; [exact E2|exact H].
Qed.

Lemma init_ok ev sched n a w u a' w' : initialize ev sched n (a, w) = (Ok u, (a', w')) ->
  exists pop w1 best, mapM create_subpopulation (a_pop a) (snd (liftR (set_seed (a_random_seed a)) w)) = (Ok pop, w1) /\
    evaluate_population ev sched (a_method a) (a_alive a) pop w1 = (Ok best, w') /\
    a' = add_stats n (add_trace (TPublish "init" (a_gen_num a) (Some best) (at_ w' best))
           (set_best_run (Some best) (add_trace (TEval (flat_map inds_of pop)) (set_pop pop (add_trace (TSeed (a_random_seed a)) a))))).
Proof.
  intros H. unfold initialize in H. mb H as a0 s E. unfold algo_get in E. injection E as <- <-. simpl in H.
  mb H as x1 s E. destruct s as [a1 w1]. apply seed_ok in E. destruct E as [-> ->].
  mb H as pop s E. destruct s as [a2 w2]. la E.
  mb H as x2 s E1. unfold algo_mod in E1. simpl in E1. injection E1 as _ <-.
  mb H as best s E1. destruct s as [a3 w3]. apply eval_ok in E1. destruct E1 as [E1 ->]. simpl in E1.
  mb H as x3 s E2. unfold algo_mod in E2. simpl in E2. injection E2 as _ <-.
  mb H as x4 s E2. rewrite publish_eq in E2. injection E2 as _ <-.
  unfold algo_mod in H. simpl in H. injection H as _ <- <-.
  exists pop, w2, best. auto.
Qed.

Lemma evolve_ok ev sched it fin n a w u a' w' : evolve_with ev sched it fin n (a, w) = (Ok u, (a', w')) ->
  exists a1 w1 st a2 a3 w3, initialize ev sched n (a, w) = (Ok tt, (a1, w1)) /\
    should_terminate (a1, w1) = (Ok st, (a2, w1)) /\
    (if st then a3 = add_trace (TPublish "after_generation" (a_gen_num a2) (a_best_run a2)
                       (match a_best_run a2 with Some o => at_ w1 o | None => None end)) (set_final (Some 0) a2) /\ w3 = w1
     else main_loop it (a_max_gen a2) 1 (a2, w1) = (Ok tt, (a3, w3))) /\
    fin (add_trace (TPublish "evolution_finished" (a_gen_num a3) (a_best_run a3)
           (match a_best_run a3 with Some o => at_ w3 o | None => None end)) a3, w3) = (Ok u, (a', w')).
Proof.
  intros H. unfold evolve_with in H. mb H as x1 s E. destruct s as [a1 w1]. destruct x1.
  mb H as st s E1. destruct s as [a2 w2]. assert (E1' := E1). apply terminate_ok in E1. destruct E1 as [-> _].
  mb H as x3 s E2. destruct s as [a3 w3]. mb H as x4 s E3. rewrite publish_eq in E3. injection E3 as _ <-.
  exists a1, w1, st, a2, a3, w3. split; [exact E|]. split; [exact E1'|]. split; [|exact H].
  destruct st.
  - mb E2 as x5 s E3. unfold algo_mod in E3. simpl in E3. injection E3 as _ <-. rewrite publish_eq in E2. simpl in E2. injection E2 as _ <- <-. auto.
  - mb E2 as a0 s E3. unfold algo_get in E3. injection E3 as <- <-. simpl in E2. destruct x3. exact E2.
Qed.

Lemma show_best_ok a w u a' w' : show_best (a, w) = (Ok u, (a', w')) -> a' = a /\ w' = w /\
  exists o i, a_best_run a = Some o /\ at_ w o = Some i /\ show i = Ok tt.
Proof.
  intros H. unfold show_best in H. mb H as a0 s E2. unfold algo_get in E2. injection E2 as <- <-. simpl in H.
  destruct (a_best_run a) as [o|]; [|discriminate]. mb H as i s E3. unfold liftM, load in E3. cbn [fst snd] in E3.
  destruct (nth_error (w_heap w) o) as [i'|] eqn:E; [|discriminate]. injection E3 as <- <-. unfold lift in H.
  destruct (show i') as [[]|e] eqn:Es; [|discriminate]. injection H as _ <- <-. split; [reflexivity|]. split; [reflexivity|]. exists o, i'. auto.
Qed.

Lemma finish_ok a w u a' w' : finish (a, w) = (Ok u, (a', w')) -> a' = set_alive false a /\ w' = w.
Proof.
  intros H. unfold finish in H. mb H as x1 s E1. unfold algo_mod in E1. simpl in E1. injection E1 as _ <-.
  apply show_best_ok in H. destruct H as (-> & -> & _). auto.
Qed.

(** ** Scalar fitness through creation and breeding *)

Lemma repeatM_scalar h n (m : M oid) : steps kinds m ->
  (forall w o w', m w = (Ok o, w') -> scalar_at w' h o) ->
  forall w l w', repeatM n m w = (Ok l, w') -> forall o, In o l -> scalar_at w' h o.
Proof.
  intros K Hm. induction n as [|n IH]; intros w l w' H o Ho; simpl in H; [mr H; destruct Ho|].
  mb H as x w1 E. mb H as xs w2 E1. mr H. destruct Ho as [<-|Ho]; [|eauto].
  eapply kinds_scalar; [|eapply Hm; eauto]. 
  pose proof (st_repeatM kinds m n K w1) as S. rewrite E1 in S. exact S.
Qed.

Lemma kinds_alloc i : steps kinds (alloc i).
Proof. intros w. simpl. apply kinds_ext. eexists. reflexivity. Qed.
Lemma kinds_fresh : steps kinds fresh_id.
Proof. intros w. simpl. apply kinds_ext, ext_same. reflexivity. Qed.
Lemma kinds_new f u g : steps kinds (new_individual f u g).
Proof. apply (st_bind kinds); [apply kinds_fresh|intros; apply kinds_alloc]. Qed.
Lemma kinds_new_tree p h : steps kinds (new_tree_individual p h).
Proof. apply (st_bind kinds); [apply kinds_fresh|]. intros. apply (st_bind kinds); [apply (st_lift kinds)|intros; apply kinds_alloc]. Qed.
Lemma kinds_liftR {A} (m : R A) : steps kinds (liftR m).
Proof. intros w. apply kinds_ext, ext_same, liftR_heap. Qed.

Lemma new_scalar f u g h w o w' : scalar_fit h f -> new_individual f u g w = (Ok o, w') -> scalar_at w' h o.
Proof.
  intros S H. unfold new_individual, bind, fresh_id, alloc in H. simpl in H. injection H as <- <-.
  eexists. split; [unfold at_; simpl; rewrite nth_error_app2, Nat.sub_diag by lia; reflexivity|exact S].
Qed.

Lemma new_tree_scalar p hb h w o w' : is_fin (g_bloat p) = true -> hib_truthy hb = h -> new_tree_individual p hb w = (Ok o, w') -> scalar_at w' h o.
Proof.
  intros B S H. unfold new_tree_individual in H. mb H as id w1 E. mb H as ts w2 E1. unfold lift in E1. injection E1 as _ <-.
  unfold alloc in H. injection H as <- <-.
  eexists. split; [unfold at_; simpl; rewrite nth_error_app2, Nat.sub_diag by lia; reflexivity|]. repeat split; assumption.
Qed.

Lemma kinds_fill (P : oid -> M unit) l : (forall o, steps kinds (P o)) -> steps kinds (iterM P l).
Proof. intros H. apply (st_iterM kinds). intros; apply H. Qed.

Lemma kinds_put_genome o g : steps kinds (put_genome o g).
Proof. apply (g_put_genome kinds (fun _ => True) kinds_put). exact I. Qed.
Lemma kinds_load o : steps kinds (load o).
Proof. intros w. rewrite load_state. reflexivity. Qed.

Lemma trees_scalar m p n hb h w l w' : is_fin (g_bloat p) = true -> hib_truthy hb = h -> create_trees m p n hb w = (Ok l, w') ->
  forall o, In o l -> scalar_at w' h o.
Proof.
  intros B S H. unfold create_trees in H. mb H as inds w1 E. mb H as u w2 E1. intros o Ho. mr H.
  eapply kinds_scalar with w1; [|eapply repeatM_scalar; [apply kinds_new_tree| |exact E|exact Ho]; intros; eapply new_tree_scalar; eauto].
  assert (K : steps kinds (iterM (fun o => t <- load_tree o ;; l <- liftR (create_tree m p t) ;; put_genome o (GTree (with_nodes t l))) l)).
  { apply kinds_fill. intros x. apply (st_bind kinds); [apply (g_load_tree kinds)|]. intros t.
    apply (st_bind kinds); [apply kinds_liftR|intros; apply kinds_put_genome]. }
  specialize (K w1). rewrite E1 in K. exact K.
Qed.

Lemma kinds_trees m p n hb : steps kinds (create_trees m p n hb).
Proof.
  apply (st_bind kinds); [apply (st_repeatM kinds), kinds_new_tree|]. intros l. apply (st_bind kinds); [|intros; apply (st_ret kinds)].
  apply kinds_fill. intros x. apply (st_bind kinds); [apply (g_load_tree kinds)|]. intros t.
  apply (st_bind kinds); [apply kinds_liftR|intros; apply kinds_put_genome].
Qed.

Lemma create_scalar c n hb h w l w' : scalar_creator c -> hib_truthy hb = h -> create_individuals c n hb w = (Ok l, w') ->
  forall o, In o l -> scalar_at w' h o.
Proof.
  intros C S H. destruct c as [len b k fc upd|m p|mn mx p q]; cbn [create_individuals] in H.
  - destruct C as [C1 C2]. unfold create_vectors in H. mb H as inds w1 E. mb H as u w2 E1. intros o Ho. mr H.
    eapply kinds_scalar with w1.
    + assert (K : steps kinds (iterM (fun o => v <- load_vec o ;; v' <- liftR (create_vector len v) ;; put_genome o (GVec v')) l)).
      { apply kinds_fill. intros x. apply (st_bind kinds); [apply (g_load_vec kinds)|]. intros t.
        apply (st_bind kinds); [apply kinds_liftR|intros; apply kinds_put_genome]. }
      specialize (K w1). rewrite E1 in K. exact K.
    + eapply repeatM_scalar; [| |exact E|exact Ho].
      * apply (st_bind kinds); [apply (st_lift kinds)|intros; apply kinds_new].
      * intros v x v' Hx. mb Hx as y w3 E2. unfold lift in E2. injection E2 as _ <-.
        apply (new_scalar (new_fitness fc hb) upd (GVec y) _ v x v'); [repeat split; assumption|exact Hx].
  - eapply trees_scalar; eauto.
  - destruct C as [C1 C2]. unfold create_half in H.
    destruct (mx + 1 =? mn); [discriminate|]. destruct (mx + 1 <? mn).
    { destruct (n <? _); [discriminate|]. eapply trees_scalar; eauto. }
    destruct (_ =? 0); [discriminate|]. mb H as parts w1 E.
    assert (F : forall o, In o (concat parts) -> scalar_at w1 h o).
    { clear H. revert parts w w1 E. generalize (seq mn (mx + 1 - mn)) as ds.
      induction ds as [|d ds IH]; intros parts w0 w1 E o Ho; simpl in E; [mr E; destruct Ho|].
      mb E as part w2 E1. mb E as rest w3 E2. mr E. simpl in Ho. apply in_app_or in Ho. destruct Ho as [Ho|Ho].
      - eapply kinds_scalar with w2.
        + match type of E2 with mapM ?f _ _ = _ => assert (K : steps kinds (mapM f ds)) end.
          { apply (st_mapM kinds). intros x _. apply (st_bind kinds); [apply kinds_trees|]. intros l1.
            apply (st_bind kinds); [apply kinds_trees|]. intros; apply (st_ret kinds). }
          specialize (K w2). rewrite E2 in K. exact K.
        + mb E1 as l1 w4 Ea. mb E1 as l2 w5 Eb. mr E1. apply in_app_or in Ho. destruct Ho as [Ho|Ho].
          * eapply kinds_scalar with w4; [|eapply trees_scalar; [|reflexivity|exact Ea|exact Ho]; exact C1].
            match type of Eb with create_trees ?a ?b ?c ?d _ = _ => pose proof (kinds_trees a b c d w4) as K end.
            rewrite Eb in K. exact K.
          * eapply trees_scalar; [|reflexivity|exact Eb|exact Ho]. exact C2.
      - eapply IH; eauto. }
    destruct (_ =? 0); [intros o Ho; mr H; auto|]. mb H as rest w2 E1. intros o Ho. mr H. apply in_app_or in Ho. destruct Ho as [Ho|Ho].
    + eapply kinds_scalar with w1; [|auto]. 
      match type of E1 with create_trees ?a ?b ?c ?d _ = _ => pose proof (kinds_trees a b c d w1) as K end. rewrite E1 in K. exact K.
    + eapply trees_scalar; [|reflexivity|exact E1|exact Ho]. exact C2.
Qed.

Lemma copies_scalar name l w cs w' h : copies name l w cs w' -> (forall o, In o l -> scalar_at w h o) ->
  forall o, In o cs -> scalar_at w' h o.
Proof.
  intros (-> & js & E & F) Hs o Ho. apply in_seq in Ho. 
  assert (G : forall k j, nth_error js k = Some j -> scalar_fit h (i_fit j)).
  { clear E Ho o. induction F as [|p j l js (i & Hi & Cp) F IH]; intros [|k] j' Hj; simpl in Hj; try discriminate.
    - injection Hj as <-. destruct (Hs p) as (i' & Hi' & C & H & W); [left; reflexivity|]. rewrite Hi in Hi'. injection Hi' as <-.
      destruct (co_kind _ _ _ Cp) as (K1 & _ & _ & K2). unfold scalar_fit. rewrite K1, K2 by exact C. auto.
    - apply IH with k; [|exact Hj]. intros q Hq. apply Hs. right. exact Hq. }
  pose proof (Forall2_len _ _ _ F) as L.
  destruct (nth_error js (o - length (w_heap w))) as [j|] eqn:Ej.
  - exists j. split; [|eauto]. unfold at_. rewrite E, nth_error_app2 by lia. exact Ej.
  - apply nth_error_None in Ej. lia.
Qed.

Lemma breed_scalar s w pop w' h : (forall o, In o (inds_of s) -> scalar_at w h o) -> breed [s] w = (Ok pop, w') ->
  exists s', pop = [s'] /\ frame none w w' /\ forall o, In o (inds_of s') -> scalar_at w' h o /\ length (w_heap w) <= o.
Proof.
  intros Hs H. pose proof (breed_all_frame [s] w) as Fr. 
  assert (P : present (inds_of s) w) by (eapply scalar_present; eauto).
  rewrite H in Fr. simpl in Fr. rewrite app_nil_r in Fr. specialize (Fr P).
  unfold breed in H. simpl in H. mb H as s' w1 E. mr H. exists s'. split; [reflexivity|]. split; [exact Fr|].
  destruct (breed_parts s w s' w' P E) as (sel & sels & el & ch & v1 & v2 & _ & Ce & Le & Ie & Cc & Ic & _ & Es & Eo & _).
  pose proof (copies_ext _ _ _ _ _ Ce) as X1. pose proof (copies_ext _ _ _ _ _ Cc) as X2.
  pose proof (kinds_operators (sp_ops s) (inds_of s') v2) as K. rewrite Eo in K. simpl in K.
  rewrite Es. unfold inds_of at 1, with_inds. cbn [sp_inds]. intros o Ho. split; [|apply in_seq in Ho; lia].
  apply kinds_scalar with v2; [exact K|]. rewrite seq_app in Ho. apply in_app_or in Ho. destruct Ho as [Ho|Ho].
  - apply kinds_scalar with v1; [apply kinds_ext; exact X2|]. eapply copies_scalar; [exact Ce| |exact Ho]. intros p Hp. apply Hs, Ie, Hp.
  - eapply copies_scalar; [exact Cc| |exact Ho]. intros p Hp. apply kinds_scalar with w; [apply kinds_ext; exact X1|]. apply Hs, Ic, Hp.
Qed.
