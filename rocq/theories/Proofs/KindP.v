(** The fitness classes of the individuals during a run: those of the creators. *)
From Verif.Proofs Require Export IndP BestP.
From Verif.Spec Require Import CompleteSpec.
From Verif.Model Require Export Evolution.
Open Scope nat_scope.

Section Kinds.
Variable P : fclass -> Prop.

Definition cls (w w' : world) : Prop := all_kinds P w -> all_kinds P w'.

Local Instance cls_pre : PreOrder cls.
Proof. split; unfold cls; [intros w|intros a b c]; auto. Qed.

Lemma cls_rng w g : cls w (mkWorld (w_heap w) (w_next_id w) g).
Proof. intros H. exact H. Qed.

Lemma cls_alloc w i : P (ft_class (i_fit i)) -> forall n g, cls w (mkWorld (w_heap w ++ [i]) n g).
Proof. intros H n g Hw j Hj. simpl in Hj. apply in_app_or in Hj as [Hj|[<-|[]]]; auto. Qed.

Lemma cls_put' w o i j : True -> at_ w o = Some i -> kept w i j -> cls w (put_at w o j).
Proof.
  intros _ E (_ & _ & _ & (K & _) & _) Hw k Hk. simpl in Hk. apply In_list_set in Hk as [->|Hk]; auto.
  rewrite K. apply Hw. eapply nth_error_In; exact E.
Qed.

Lemma cls_new fc h u g : P fc -> steps cls (new_individual (new_fitness fc h) u g).
Proof. intros H w. exact (cls_alloc w (mkInd (w_next_id w) 0 (new_fitness fc h) (-1) [] [] u [] g) H _ _). Qed.

Lemma cls_new_tree p h : P (KGP (g_bloat p)) -> steps cls (new_tree_individual p h).
Proof.
  intros Hp w. unfold new_tree_individual. unfold bind at 1. unfold fresh_id. cbv beta iota zeta.
  destruct (handle_input_types (g_fset p) (g_terms p) (g_typed p) (g_erc p) (g_root p)) as [ts|e].
  - apply (cls_alloc w (mkInd (w_next_id w) 0 (new_fitness (KGP (g_bloat p)) h) (-1) [] [] (g_upd p) [] (GTree (mkTree (g_fset p) ts (g_erc p) (g_root p) [])))). exact Hp.
  - intros H. exact H.
Qed.

Lemma cls_clone o : steps cls (clone o).
Proof.
  intros w. destruct (at_ w o) as [i|] eqn:E.
  - rewrite (clone_at _ _ _ E). intros Hw. refine (cls_alloc w (cloned i (w_next_id w)) _ _ _ Hw).
    assert (H : P (ft_class (i_fit i))) by (apply Hw; eapply nth_error_In; exact E).
    unfold cloned, fit_getstate; simpl. repeat (match goal with |- context [if ?b then _ else _] => destruct b end); exact H.
  - unfold clone, bind, load. unfold at_ in E. rewrite E. reflexivity.
Qed.

Lemma cls_modify o f : (forall i, i_id (f i) = i_id i /\ i_cloned_from (f i) = i_cloned_from i /\
    i_update_parents (f i) = i_update_parents i /\ fit_kind (i_fit i) (i_fit (f i)) /\ i_parents (f i) = i_parents i) -> steps cls (modify o f).
Proof. intros H. exact (g_modify_plain cls (fun _ => True) cls_put' o f I H). Qed.

Lemma cls_clone_selected name o : steps cls (clone_selected name o).
Proof.
  apply (st_bind cls); [apply cls_clone|]. intros c. apply (st_bind cls); [|intros; apply (st_ret cls)].
  apply cls_modify. intros i. repeat split.
Qed.

Lemma cls_apply op inds : steps cls (apply_operator op inds).
Proof. apply (g_apply cls (fun _ => True) cls_rng cls_clone cls_put'). apply all_true. Qed.

Lemma cls_liftR {A} (m : R A) : steps cls (liftR m).
Proof. apply g_liftR. apply cls_rng. Qed.

Lemma cls_elitism n rev src dest : steps cls (elitism_select n rev src dest).
Proof. apply g_elitism; auto using cls_clone_selected; exact _. Qed.

Lemma cls_select s src dest : steps cls (select s src dest).
Proof. apply g_select; auto using cls_clone_selected, cls_rng; exact _. Qed.

Lemma cls_put_genome o g : steps cls (put_genome o g).
Proof. apply cls_modify. intros i. repeat split. Qed.

Lemma cls_set_fitness o v : steps cls (ind_set_fitness o v).
Proof. exact (g_set_fitness cls (fun _ => True) cls_put' o v I). Qed.

Lemma cls_trees m p n h : P (KGP (g_bloat p)) -> steps cls (create_trees m p n h).
Proof.
  intros Hp.
  apply (st_bind cls); [apply (st_repeatM cls); apply cls_new_tree; exact Hp|]. intros l.
  apply (st_bind cls); [|intros; apply (st_ret cls)]. apply (st_iterM cls). intros o _.
  apply (st_bind cls); [apply g_load_tree; exact _|]. intros t.
  apply (st_bind cls); [apply cls_liftR|]. intros ns. apply cls_put_genome.
Qed.

Lemma cls_create c n h : made_with P c -> steps cls (create_individuals c n h).
Proof.
  intros Hc. destruct c as [len b k fc upd|m p|mn mx gr fu]; simpl in *.
  - apply (st_bind cls).
    + apply (st_repeatM cls). apply (st_bind cls); [apply (st_lift cls)|]. intros v. apply cls_new; exact Hc.
    + intros l. apply (st_bind cls); [|intros; apply (st_ret cls)]. apply (st_iterM cls). intros o _.
      apply (st_bind cls); [apply g_load_vec; exact _|]. intros t.
      apply (st_bind cls); [apply cls_liftR|]. intros ns. apply cls_put_genome.
  - apply cls_trees. exact Hc.
  - destruct Hc as [Hg Hf]. unfold create_half. destruct (Nat.eqb _ _); [apply (st_raise cls)|].
    destruct (Nat.ltb _ mn); [destruct (Nat.ltb _ _); [apply (st_raise cls)|apply cls_trees; exact Hf]|].
    destruct (Nat.eqb _ 0); [apply (st_raise cls)|].
    apply (st_bind cls).
    + apply (st_mapM cls). intros d _. apply (st_bind cls); [apply cls_trees; exact Hg|]. intros a.
      apply (st_bind cls); [apply cls_trees; exact Hf|]. intros b. apply (st_ret cls).
    + intros parts. destruct (Nat.eqb _ 0); [apply (st_ret cls)|].
      apply (st_bind cls); [apply cls_trees; exact Hf|]. intros b. apply (st_ret cls).
Qed.

Lemma cls_chunks op a : (forall l, steps cls (op l)) -> forall fuel l, steps cls (apply_chunks fuel op a l).
Proof.
  intros Ho fuel. induction fuel as [|fuel IH]; intros l; simpl; [apply (st_ret cls)|].
  destruct l as [|x l]; [apply (st_ret cls)|].
  apply (st_bind cls); [apply Ho|]. intros r. apply (st_bind cls); [apply IH|]. intros; apply (st_ret cls).
Qed.

Lemma cls_breed s : steps cls (breed_subpop s).
Proof.
  unfold breed_subpop. apply (st_bind cls); [apply (st_lift cls)|]. intros _. apply (st_bind cls).
  - destruct (0 <? sp_n_elite s)%nat; [|apply (st_ret cls)]. apply (st_bind cls); [apply (st_lift cls)|]. intros rev. apply cls_elitism.
  - intros el. destruct (sp_sels s) as [|sel sels]; [apply (st_raise cls)|].
    apply (st_bind cls); [apply cls_select|]. intros sd. apply (st_bind cls); [|intros; apply (st_ret cls)].
    apply (st_foldM cls). intros b op _. destruct (Nat.eqb _ 0); [apply (st_raise cls)|].
    apply cls_chunks. intros l. apply cls_apply.
Qed.

Lemma cls_failed {A} (m : M A) : steps cls m -> steps cls (fun w => match m w with (x, w') => (Ok x, w') end).
Proof. intros H w. specialize (H w). destruct (m w); assumption. Qed.

Lemma cls_better a b : steps cls (ind_better_than a b).
Proof. apply g_better; auto using cls_rng; exact _. Qed.

Lemma cls_evaluate ev sched m alive l : steps cls (evaluate_inds ev sched m alive l).
Proof.
  unfold evaluate_inds. apply (st_bind cls).
  - apply (st_mapM cls). intros o _. apply (st_bind cls); [apply g_load; exact _|intros; apply (st_ret cls)].
  - intros gs. apply (st_bind cls); [apply (st_lift cls)|]. intros rs.
    assert (B : steps cls (best_scan l)).
    { destruct l as [|a l']; [apply (st_raise cls)|]. apply (st_foldM cls). intros b x _.
      apply (st_bind cls); [apply cls_better|intros; apply (st_ret cls)]. }
    destruct m.
    + apply (st_bind cls); [|intros; exact B]. clear B. revert rs. induction l as [|o l IH]; intros [|r rs]; simpl; try apply (st_ret cls).
      apply (st_bind cls); [apply (st_lift cls)|]. intros v. apply (st_bind cls); [apply cls_set_fitness|]. intros _. apply IH.
    + apply (st_bind cls).
      * apply (st_mapM cls). intros [i r] _. simpl. destruct (nth_error l i) as [o|]; [|apply (st_ret cls)].
        apply (st_bind cls); [|intros; apply (st_ret cls)].
        unfold worker. destruct r as [v|e]; [|apply (st_ret cls)]. apply cls_failed. apply cls_set_fitness.
      * intros outs. apply (st_bind cls); [apply (st_lift cls)|]. intros _.
        apply (st_bind cls); [apply (st_iterM cls); intros; apply cls_set_fitness|]. intros _. exact B.
Qed.


Definition clsA (s s' : algo * world) : Prop := cls (snd s) (snd s').
Local Instance clsA_pre : PreOrder clsA.
Proof. split; [intros s; apply cls_pre|]. intros a b c; apply cls_pre. Qed.

Lemma clsA_lift {X} (m : M X) : steps cls m -> steps clsA (liftM m).
Proof. intros H [a w]. unfold liftM, clsA. simpl. specialize (H w). destruct (m w); assumption. Qed.
Lemma clsA_mod f : steps clsA (algo_mod f).
Proof. intros s. unfold clsA, algo_mod. simpl. reflexivity. Qed.
Lemma clsA_get : steps clsA algo_get.
Proof. intros s. unfold clsA, algo_get. simpl. reflexivity. Qed.
Lemma clsA_publish n : steps clsA (publish n).
Proof. intros s. unfold clsA, publish. simpl. reflexivity. Qed.
Lemma clsA_seed z : steps clsA (seed_generators z).
Proof. apply (st_bind clsA); [apply clsA_lift, cls_liftR|intros; apply clsA_mod]. Qed.

Lemma clsA_eval ev sched : steps clsA (act_evaluator ev sched).
Proof.
  apply (st_bind clsA); [apply clsA_get|]. intros a.
  apply (st_bind clsA).
  - apply clsA_lift. unfold evaluate_population. destruct (a_pop a) as [|s [|? ?]]; try apply (st_raise cls). apply cls_evaluate.
  - intros o. apply (st_bind clsA); [apply clsA_mod|intros; apply (st_ret clsA)].
Qed.

Lemma cls_sorted rev l : steps cls (sorted_by_fitness rev l).
Proof. apply g_sorted; exact _. Qed.

Lemma cls_checkers pop best gen cs : steps cls (run_checkers pop best gen cs).
Proof.
  apply (st_bind cls); [|intros; apply (st_ret cls)]. apply (st_mapM cls). intros c _.
  assert (Pf : forall o, steps cls (pure_fitness o)).
  { intros o. apply (st_bind cls); [apply g_load; exact _|intros; apply (st_lift cls)]. }
  destruct c as [opt th|limit st count|f m]; simpl.
  - apply (st_bind cls); [apply Pf|]. intros v. apply (st_bind cls); [apply (st_lift cls)|]. intros; apply (st_ret cls).
  - apply (st_bind cls).
    + apply (st_mapM cls). intros s _. apply (st_bind cls); [apply (st_lift cls)|]. intros rev.
      apply (st_bind cls); [apply cls_sorted|intros; apply (st_lift cls)].
    + intros bs. apply (st_bind cls); [apply (st_mapM cls); intros; apply Pf|]. intros; apply (st_lift cls).
  - apply (st_bind cls); [intros w; apply (st_ret cls w w)|]. intros w. apply (st_bind cls); [apply (st_lift cls)|]. intros; apply (st_ret cls).
Qed.

Lemma clsA_terminate : steps clsA should_terminate.
Proof.
  apply (st_bind clsA); [apply clsA_get|]. intros a. destruct (a_best_run a); [|apply (st_raise clsA)].
  apply (st_bind clsA); [apply clsA_lift, cls_checkers|]. intros r.
  apply (st_bind clsA); [apply clsA_mod|]. intros _. apply (st_bind clsA); [apply clsA_mod|intros; apply (st_ret clsA)].
Qed.

Lemma clsA_iteration ev sched : steps clsA (generation_iteration ev sched).
Proof.
  apply (st_bind clsA); [apply clsA_get|]. intros a.
  apply (st_bind clsA); [apply clsA_lift, (st_mapM cls); intros; apply cls_breed|]. intros pop.
  apply (st_bind clsA); [apply clsA_mod|]. intros _. apply (st_bind clsA); [apply clsA_mod|]. intros _.
  apply (st_bind clsA); [apply clsA_eval|]. intros best. apply (st_bind clsA); [apply clsA_mod|]. intros _.
  apply (st_bind clsA); [apply clsA_get|]. intros a'.
  apply (st_bind clsA); [destruct (a_best_run a'); [apply clsA_lift, cls_better|apply (st_ret clsA)]|]. intros b.
  apply (st_bind clsA); [destruct b; [apply clsA_mod|apply (st_ret clsA)]|]. intros _.
  destruct (a_pop a') as [|s ?]; [apply (st_raise clsA)|].
  apply (st_bind clsA); [|intros; apply clsA_mod]. apply clsA_lift.
  apply (st_bind cls); [apply cls_sorted|intros; apply (st_lift cls)].
Qed.

Lemma clsA_loop it : steps clsA it -> forall todo gen, steps clsA (main_loop it todo gen).
Proof.
  intros Hi todo. induction todo as [|todo IH]; intros gen; simpl; [apply (st_ret clsA)|].
  apply (st_bind clsA); [apply clsA_mod|]. intros _.
  apply (st_bind clsA).
  { apply (st_bind clsA); [apply clsA_get|]. intros a. apply clsA_lift, (st_iterM cls). intros o _. apply cls_modify. intros i. repeat split. }
  intros _. apply (st_bind clsA); [apply clsA_get|]. intros a. apply (st_bind clsA); [apply clsA_seed|]. intros _.
  apply (st_bind clsA); [apply clsA_mod|]. intros _. apply (st_bind clsA); [exact Hi|]. intros _.
  apply (st_bind clsA); [apply clsA_terminate|]. intros [|].
  - apply (st_bind clsA); [apply clsA_mod|]. intros _. apply clsA_publish.
  - apply (st_bind clsA); [apply clsA_publish|]. intros _. apply IH.
Qed.


Lemma clsA_init ev sched n a w : (forall s, In s (a_pop a) -> sp_inds s = None -> forall c, In c (sp_creators s) -> made_with P c) ->
  clsA (a, w) (snd (initialize ev sched n (a, w))).
Proof.
  intros Hc. unfold initialize. unfold bind at 1. cbn [algo_get].
  change (snd (_ (a, w))) with (snd ((seed_generators (a_random_seed a) ;;; (pop <- liftM (mapM create_subpopulation (a_pop a)) ;;
    algo_mod (set_pop pop) ;;; best <- act_evaluator ev sched ;; algo_mod (set_best_run (Some best)) ;;; publish "init" ;;; algo_mod (add_stats n))) (a, w))).
  apply (st_bind clsA); [apply clsA_seed|]. intros _. apply (st_bind clsA).
  { apply clsA_lift, (st_mapM cls). intros s Hs. unfold create_subpopulation. destruct (sp_inds s) eqn:Ei; [apply (st_ret cls)|].
    intros w1. unfold bind at 1. pose proof (cls_liftR (choices_weighted (sp_creators s) (sp_pcr s)) w1) as L.
    destruct (liftR _ w1) as [[c|e] w2] eqn:E; [|exact L]. apply (PreOrder_Transitive _ _ _ L).
    assert (In c (sp_creators s)) as Hin by (apply liftR_ok in E; destruct E as (g & E & _); eapply choices_weighted_In; eauto).
    apply (st_bind cls); [apply cls_create, (Hc s); auto|intros; apply (st_ret cls)]. }
  intros pop. apply (st_bind clsA); [apply clsA_mod|]. intros _. apply (st_bind clsA); [apply clsA_eval|]. intros best.
  apply (st_bind clsA); [apply clsA_mod|]. intros _. apply (st_bind clsA); [apply clsA_publish|]. intros _. apply clsA_mod.
Qed.

Lemma run_kinds ev sched n a w : all_kinds P w ->
  (forall s, In s (a_pop a) -> sp_inds s = None -> forall c, In c (sp_creators s) -> made_with P c) ->
  all_kinds P (snd (snd (evolve ev sched n (a, w)))).
Proof.
  intros Hw Hc. pose proof (clsA_init ev sched n a w Hc) as I. unfold evolve, evolve_with. unfold bind at 1.
  destruct (initialize ev sched n (a, w)) as [[u|e] [a1 w1]] eqn:E; [|exact (I Hw)].
  specialize (I Hw). revert I. change (clsA (a1, w1) (snd ((stop <- should_terminate ;;
    (if stop then algo_mod (set_final (Some 0)) ;;; publish "after_generation"
     else a <- algo_get ;; main_loop (generation_iteration ev sched) (a_max_gen a) 1) ;;; publish "evolution_finished" ;;; finish) (a1, w1)))).
  apply (st_bind clsA); [apply clsA_terminate|]. intros stop. apply (st_bind clsA).
    + destruct stop.
      * apply (st_bind clsA); [apply clsA_mod|]. intros _. apply clsA_publish.
      * apply (st_bind clsA); [apply clsA_get|]. intros a2. apply clsA_loop, clsA_iteration.
    + intros _. apply (st_bind clsA); [apply clsA_publish|]. intros _.
      apply (st_bind clsA); [apply clsA_mod|]. intros _. apply (st_bind clsA); [apply clsA_get|]. intros a2.
      destruct (a_best_run a2); [|apply (st_raise clsA)].
      apply (st_bind clsA); [apply clsA_lift, g_load; exact _|intros; apply (st_lift clsA)].
Qed.
End Kinds.
