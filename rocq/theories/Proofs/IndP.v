(** Proofs about cloning, ids and lineage. *)
From Verif.Proofs Require Export StepP.
From Verif.Model Require Export Evolution.
Open Scope nat_scope.

Definition lin (w w' : world) : Prop :=
  incl (ids w) (ids w') /\ (w_next_id w <= w_next_id w')%Z /\ (lineage_ok w -> lineage_ok w').

Global Instance lin_pre : PreOrder lin.
Proof.
  split.
  - intros w. split; [intros x; auto|]. split; [lia|auto].
  - intros a b c (A1 & A2 & A3) (B1 & B2 & B3). split; [eapply incl_tran; eauto|]. split; [lia|auto].
Qed.

Lemma lin_same w w' : w_heap w' = w_heap w -> w_next_id w' = w_next_id w -> lin w w'.
Proof.
  intros E1 E2. unfold lin, ids. rewrite E1, E2. split; [intros x; auto|]. split; [lia|].
  intros [A B C D E]. constructor; unfold ids in *; rewrite ?E1, ?E2; auto.
Qed.

Lemma lin_rng w g : lin w (mkWorld (w_heap w) (w_next_id w) g).
Proof. apply lin_same; reflexivity. Qed.

Lemma map_list_set {A B} (f : A -> B) l o x y : nth_error l o = Some x -> f y = f x -> map f (list_set l o y) = map f l.
Proof.
  revert o. induction l as [|a l IH]; intros [|o] E F; simpl in *; try discriminate.
  - injection E as ->. rewrite F. reflexivity.
  - f_equal. auto.
Qed.

Lemma In_list_set {A} (l : list A) o x y : In y (list_set l o x) -> y = x \/ In y l.
Proof.
  revert o. induction l as [|a l IH]; intros [|o] H; simpl in *; auto.
  - destruct H; auto.
  - destruct H as [H|H]; auto. apply IH in H. destruct H; auto.
Qed.

Lemma lin_put w o i j : at_ w o = Some i -> kept w i j -> lin w (put_at w o j).
Proof.
  intros E (K1 & K2 & K3 & _ & ps & K4 & K5).
  assert (I : ids (put_at w o j) = ids w) by (unfold ids, put_at; simpl; eapply map_list_set; eauto).
  assert (N : In i (w_heap w)) by (eapply nth_error_In; exact E).
  split; [rewrite I; intros x; auto|]. split; [simpl; lia|].
  intros [A B C D F]. constructor; rewrite ?I; simpl; auto.
  - intros k Hk. apply In_list_set in Hk. destruct Hk as [->|Hk]; auto. rewrite K1, K2. auto.
  - intros k p Hk Hp. apply In_list_set in Hk. destruct Hk as [->|Hk]; eauto.
    rewrite K4 in Hp. apply in_app_or in Hp. destruct Hp; eauto.
Qed.

Lemma NoDup_snoc {A} (l : list A) x : NoDup l -> ~ In x l -> NoDup (l ++ [x]).
Proof.
  intros H Hx. eapply Permutation_NoDup; [apply Permutation_cons_append|]. constructor; assumption.
Qed.

(** Allocating an individual that carries the counter's value. *)
Lemma lin_alloc w i : i_id i = w_next_id w ->
  (i_cloned_from i = -1 \/ (In (i_cloned_from i) (ids w)))%Z -> (forall p, In p (i_parents i) -> In p (ids w)) ->
  lin w (mkWorld (w_heap w ++ [i]) (w_next_id w + 1) (w_rng w)).
Proof.
  intros Hi Hc Hp.
  assert (I : ids (mkWorld (w_heap w ++ [i]) (w_next_id w + 1) (w_rng w)) = ids w ++ [w_next_id w]).
  { unfold ids. simpl. rewrite map_app. simpl. rewrite Hi. reflexivity. }
  split; [rewrite I; intros x Hx; apply in_or_app; auto|]. split; [simpl; lia|].
  intros [A B C D F]. constructor; rewrite ?I; simpl.
  - apply NoDup_snoc; [assumption|]. intros H. apply B in H. lia.
  - intros id Hid. apply in_app_or in Hid. destruct Hid as [Hid|[<-|[]]]; [apply B in Hid|]; lia.
  - intros k Hk. apply in_app_or in Hk. destruct Hk as [Hk|[<-|[]]].
    + destruct (C k Hk) as [H|[H1 H2]]; auto. right. split; [assumption|apply in_or_app; auto].
    + destruct Hc as [Hc|Hc]; auto. right. split; [rewrite Hi; apply B in Hc; lia|apply in_or_app; auto].
  - intros k p Hk Hq. apply in_or_app. left. apply in_app_or in Hk. destruct Hk as [Hk|[<-|[]]]; eauto.
  - lia.
Qed.

Lemma lin_bump w : lin w (bump w).
Proof.
  split; [intros x; auto|]. split; [simpl; lia|]. intros [A B C D F]. constructor; auto.
  - intros id Hid. apply B in Hid. simpl. lia.
  - simpl. lia.
Qed.

(** All recorded parents of an individual that is in the heap exist; so do those of its clone. *)
Lemma lin_new f u g : steps lin (new_individual f u g).
Proof. intros w. exact (lin_alloc w (mkInd (w_next_id w) 0 f (-1) [] [] u [] g) eq_refl (or_introl eq_refl) (fun p H => match H with end)). Qed.

Lemma lin_new_tree p h : steps lin (new_tree_individual p h).
Proof.
  intros w. unfold new_tree_individual. unfold bind at 1. unfold fresh_id. cbv beta iota zeta.
  destruct (handle_input_types (g_fset p) (g_terms p) (g_typed p) (g_erc p) (g_root p)) as [ts|e].
  - exact (lin_alloc w (mkInd (w_next_id w) 0 _ (-1) [] [] _ [] _) eq_refl (or_introl eq_refl) (fun p H => match H with end)).
  - apply (lin_bump w).
Qed.

Lemma lin_clone o : steps lin (clone o).
Proof.
  intros w. destruct (at_ w o) as [i|] eqn:E.
  - rewrite (clone_at _ _ _ E). simpl.
    assert (N : In i (w_heap w)) by (eapply nth_error_In; exact E).
    split; [|split].
    + unfold ids, push. simpl. rewrite map_app. intros x Hx. apply in_or_app. auto.
    + simpl. lia.
    + intros L. apply (lin_alloc w (cloned i (w_next_id w))); simpl; auto.
      * right. apply in_map. exact N.
      * destruct (i_update_parents i); [intros p []|]. intros p Hp. eapply lin_parents; eauto.
  - unfold clone, bind, load. unfold at_ in E. rewrite E. reflexivity.
Qed.

Lemma lin_put' w o i j : True -> at_ w o = Some i -> kept w i j -> lin w (put_at w o j).
Proof. intros _. apply lin_put. Qed.

Lemma all_true (l : list oid) : Forall (fun _ => True) l.
Proof. apply Forall_forall. auto. Qed.

Lemma lin_modify o f : (forall i, i_id (f i) = i_id i /\ i_cloned_from (f i) = i_cloned_from i /\
    i_update_parents (f i) = i_update_parents i /\ fit_kind (i_fit i) (i_fit (f i)) /\ i_parents (f i) = i_parents i) -> steps lin (modify o f).
Proof. intros H. exact (g_modify_plain lin (fun _ => True) lin_put' o f I H). Qed.

Lemma lin_clone_selected name o : steps lin (clone_selected name o).
Proof.
  apply (st_bind lin); [apply lin_clone|]. intros c. apply (st_bind lin); [|intros; apply (st_ret lin)].
  apply lin_modify. intros i. repeat split.
Qed.

Lemma lin_apply op inds : steps lin (apply_operator op inds).
Proof. apply (g_apply lin (fun _ => True) lin_rng lin_clone lin_put'). apply all_true. Qed.

Lemma lin_liftR {A} (m : R A) : steps lin (liftR m).
Proof. apply g_liftR. apply lin_rng. Qed.

Lemma lin_elitism n rev src dest : steps lin (elitism_select n rev src dest).
Proof. apply g_elitism; auto using lin_clone_selected; exact _. Qed.

Lemma lin_select s src dest : steps lin (select s src dest).
Proof. apply g_select; auto using lin_clone_selected, lin_rng; exact _. Qed.

Lemma lin_put_genome o g : steps lin (put_genome o g).
Proof. apply lin_modify. intros i. repeat split. Qed.

Lemma lin_set_fitness o v : steps lin (ind_set_fitness o v).
Proof. exact (g_set_fitness lin (fun _ => True) lin_put' o v I). Qed.

Lemma lin_trees m p n h : steps lin (create_trees m p n h).
Proof.
  apply (st_bind lin); [apply (st_repeatM lin); apply lin_new_tree|]. intros l.
  apply (st_bind lin); [|intros; apply (st_ret lin)]. apply (st_iterM lin). intros o _.
  apply (st_bind lin); [apply g_load_tree; exact _|]. intros t.
  apply (st_bind lin); [apply lin_liftR|]. intros ns. apply lin_put_genome.
Qed.

Lemma lin_create c n h : steps lin (create_individuals c n h).
Proof.
  destruct c as [len b k fc upd|m p|mn mx gr fu]; simpl.
  - apply (st_bind lin).
    + apply (st_repeatM lin). apply (st_bind lin); [apply (st_lift lin)|]. intros v. apply lin_new.
    + intros l. apply (st_bind lin); [|intros; apply (st_ret lin)]. apply (st_iterM lin). intros o _.
      apply (st_bind lin); [apply g_load_vec; exact _|]. intros t.
      apply (st_bind lin); [apply lin_liftR|]. intros ns. apply lin_put_genome.
  - apply lin_trees.
  - unfold create_half. destruct (Nat.eqb _ _); [apply (st_raise lin)|].
    destruct (Nat.ltb _ mn); [destruct (Nat.ltb _ _); [apply (st_raise lin)|apply lin_trees]|].
    destruct (Nat.eqb _ 0); [apply (st_raise lin)|].
    apply (st_bind lin).
    + apply (st_mapM lin). intros d _. apply (st_bind lin); [apply lin_trees|]. intros a.
      apply (st_bind lin); [apply lin_trees|]. intros b. apply (st_ret lin).
    + intros parts. destruct (Nat.eqb _ 0); [apply (st_ret lin)|].
      apply (st_bind lin); [apply lin_trees|]. intros b. apply (st_ret lin).
Qed.

Lemma lin_chunks op a : (forall l, steps lin (op l)) -> forall fuel l, steps lin (apply_chunks fuel op a l).
Proof.
  intros Ho fuel. induction fuel as [|fuel IH]; intros l; simpl; [apply (st_ret lin)|].
  destruct l as [|x l]; [apply (st_ret lin)|].
  apply (st_bind lin); [apply Ho|]. intros r. apply (st_bind lin); [apply IH|]. intros; apply (st_ret lin).
Qed.

Lemma lin_breed s : steps lin (breed_subpop s).
Proof.
  unfold breed_subpop. apply (st_bind lin); [apply (st_lift lin)|]. intros _. apply (st_bind lin).
  - destruct (0 <? sp_n_elite s)%nat; [|apply (st_ret lin)]. apply (st_bind lin); [apply (st_lift lin)|]. intros rev. apply lin_elitism.
  - intros el. destruct (sp_sels s) as [|sel sels]; [apply (st_raise lin)|].
    apply (st_bind lin); [apply lin_select|]. intros sd. apply (st_bind lin); [|intros; apply (st_ret lin)].
    apply (st_foldM lin). intros b op _. destruct (Nat.eqb _ 0); [apply (st_raise lin)|].
    apply lin_chunks. intros l. apply lin_apply.
Qed.

Lemma st_failed {A} (m : M A) : steps lin m -> steps lin (fun w => match m w with (x, w') => (Ok x, w') end).
Proof. intros H w. specialize (H w). destruct (m w); assumption. Qed.

Lemma lin_better a b : steps lin (ind_better_than a b).
Proof. apply g_better; auto using lin_rng; exact _. Qed.

Lemma lin_evaluate ev sched m alive l : steps lin (evaluate_inds ev sched m alive l).
Proof.
  unfold evaluate_inds. apply (st_bind lin).
  - apply (st_mapM lin). intros o _. apply (st_bind lin); [apply g_load; exact _|intros; apply (st_ret lin)].
  - intros gs. apply (st_bind lin); [apply (st_lift lin)|]. intros rs.
    assert (B : steps lin (best_scan l)).
    { destruct l as [|a l']; [apply (st_raise lin)|]. apply (st_foldM lin). intros b x _.
      apply (st_bind lin); [apply lin_better|intros; apply (st_ret lin)]. }
    destruct m.
    + apply (st_bind lin); [|intros; exact B]. clear B. revert rs. induction l as [|o l IH]; intros [|r rs]; simpl; try apply (st_ret lin).
      apply (st_bind lin); [apply (st_lift lin)|]. intros v. apply (st_bind lin); [apply lin_set_fitness|]. intros _. apply IH.
    + apply (st_bind lin).
      * apply (st_mapM lin). intros [i r] _. simpl. destruct (nth_error l i) as [o|]; [|apply (st_ret lin)].
        apply (st_bind lin); [|intros; apply (st_ret lin)].
        unfold worker. destruct r as [v|e]; [|apply (st_ret lin)]. apply st_failed. apply lin_set_fitness.
      * intros outs. apply (st_bind lin); [apply (st_lift lin)|]. intros _.
        apply (st_bind lin); [apply (st_iterM lin); intros; apply lin_set_fitness|]. intros _. exact B.
Qed.

Lemma lin_call c w : lin w (run_call c w).
Proof.
  destruct c; simpl.
  - apply lin_new. - apply lin_create. - apply lin_clone. - apply lin_apply. - apply lin_elitism. - apply lin_select.
  - apply lin_breed. - apply lin_evaluate. - apply lin_set_fitness.
  - exact (g_reset lin (fun _ => True) lin_put' o I w).
  - apply lin_put_genome.
  - apply lin_modify. intros i. repeat split.
Qed.

Lemma lin_calls cs : forall w, lin w (run_calls_on cs w).
Proof.
  induction cs as [|c cs IH]; intros w; simpl; [reflexivity|].
  transitivity (run_call c w); [apply lin_call|apply IH].
Qed.

Lemma ids_lineage cs w : lineage_ok w -> lineage_ok (run_calls_on cs w) /\ incl (ids w) (ids (run_calls_on cs w)).
Proof. intros H. destruct (lin_calls cs w) as (A & _ & B). auto. Qed.

(** ** A whole run *)

Definition linA (s s' : algo * world) : Prop := lin (snd s) (snd s').
Global Instance linA_pre : PreOrder linA.
Proof. split; [intros s; apply lin_pre|]. intros a b c; apply lin_pre. Qed.

Lemma linA_lift {X} (m : M X) : steps lin m -> steps linA (liftM m).
Proof. intros H [a w]. unfold liftM, linA. simpl. specialize (H w). destruct (m w); assumption. Qed.
Lemma linA_mod f : steps linA (algo_mod f).
Proof. intros s. unfold linA, algo_mod. simpl. reflexivity. Qed.
Lemma linA_get : steps linA algo_get.
Proof. intros s. unfold linA, algo_get. simpl. reflexivity. Qed.
Lemma linA_publish n : steps linA (publish n).
Proof. intros s. unfold linA, publish. simpl. reflexivity. Qed.
Lemma linA_seed z : steps linA (seed_generators z).
Proof. apply (st_bind linA); [apply linA_lift, lin_liftR|intros; apply linA_mod]. Qed.

Lemma linA_eval ev sched : steps linA (act_evaluator ev sched).
Proof.
  apply (st_bind linA); [apply linA_get|]. intros a.
  apply (st_bind linA).
  - apply linA_lift. unfold evaluate_population. destruct (a_pop a) as [|s [|? ?]]; try apply (st_raise lin). apply lin_evaluate.
  - intros o. apply (st_bind linA); [apply linA_mod|intros; apply (st_ret linA)].
Qed.

Lemma lin_sorted rev l : steps lin (sorted_by_fitness rev l).
Proof. apply g_sorted; exact _. Qed.

Lemma lin_checkers pop best gen cs : steps lin (run_checkers pop best gen cs).
Proof.
  apply (st_bind lin); [|intros; apply (st_ret lin)]. apply (st_mapM lin). intros c _.
  assert (P : forall o, steps lin (pure_fitness o)).
  { intros o. apply (st_bind lin); [apply g_load; exact _|intros; apply (st_lift lin)]. }
  destruct c as [opt th|limit st count|f m]; simpl.
  - apply (st_bind lin); [apply P|]. intros v. apply (st_bind lin); [apply (st_lift lin)|]. intros; apply (st_ret lin).
  - apply (st_bind lin).
    + apply (st_mapM lin). intros s _. apply (st_bind lin); [apply (st_lift lin)|]. intros rev.
      apply (st_bind lin); [apply lin_sorted|intros; apply (st_lift lin)].
    + intros bs. apply (st_bind lin); [apply (st_mapM lin); intros; apply P|]. intros; apply (st_lift lin).
  - apply (st_bind lin); [intros w; apply (st_ret lin w w)|]. intros w. apply (st_bind lin); [apply (st_lift lin)|]. intros; apply (st_ret lin).
Qed.

Lemma linA_terminate : steps linA should_terminate.
Proof.
  apply (st_bind linA); [apply linA_get|]. intros a. destruct (a_best_run a); [|apply (st_raise linA)].
  apply (st_bind linA); [apply linA_lift, lin_checkers|]. intros r.
  apply (st_bind linA); [apply linA_mod|]. intros _. apply (st_bind linA); [apply linA_mod|intros; apply (st_ret linA)].
Qed.

Lemma linA_iteration ev sched : steps linA (generation_iteration ev sched).
Proof.
  apply (st_bind linA); [apply linA_get|]. intros a.
  apply (st_bind linA); [apply linA_lift, (st_mapM lin); intros; apply lin_breed|]. intros pop.
  apply (st_bind linA); [apply linA_mod|]. intros _. apply (st_bind linA); [apply linA_mod|]. intros _.
  apply (st_bind linA); [apply linA_eval|]. intros best. apply (st_bind linA); [apply linA_mod|]. intros _.
  apply (st_bind linA); [apply linA_get|]. intros a'.
  apply (st_bind linA); [destruct (a_best_run a'); [apply linA_lift, lin_better|apply (st_ret linA)]|]. intros b.
  apply (st_bind linA); [destruct b; [apply linA_mod|apply (st_ret linA)]|]. intros _.
  destruct (a_pop a') as [|s ?]; [apply (st_raise linA)|].
  apply (st_bind linA); [|intros; apply linA_mod]. apply linA_lift.
  apply (st_bind lin); [apply lin_sorted|intros; apply (st_lift lin)].
Qed.

Lemma linA_loop it : steps linA it -> forall todo gen, steps linA (main_loop it todo gen).
Proof.
  intros Hi todo. induction todo as [|todo IH]; intros gen; simpl; [apply (st_ret linA)|].
  apply (st_bind linA); [apply linA_mod|]. intros _.
  apply (st_bind linA).
  { apply (st_bind linA); [apply linA_get|]. intros a. apply linA_lift, (st_iterM lin). intros o _. apply lin_modify. intros i. repeat split. }
  intros _. apply (st_bind linA); [apply linA_get|]. intros a. apply (st_bind linA); [apply linA_seed|]. intros _.
  apply (st_bind linA); [apply linA_mod|]. intros _. apply (st_bind linA); [exact Hi|]. intros _.
  apply (st_bind linA); [apply linA_terminate|]. intros [|].
  - apply (st_bind linA); [apply linA_mod|]. intros _. apply linA_publish.
  - apply (st_bind linA); [apply linA_publish|]. intros _. apply IH.
Qed.

Lemma linA_evolve ev sched n : steps linA (evolve ev sched n).
Proof.
  apply (st_bind linA).
  - apply (st_bind linA); [apply linA_get|]. intros a. apply (st_bind linA); [apply linA_seed|]. intros _.
    apply (st_bind linA).
    { apply linA_lift, (st_mapM lin). intros s _. unfold create_subpopulation. destruct (sp_inds s); [apply (st_ret lin)|].
      apply (st_bind lin); [apply lin_liftR|]. intros c. apply (st_bind lin); [apply lin_create|intros; apply (st_ret lin)]. }
    intros pop. apply (st_bind linA); [apply linA_mod|]. intros _. apply (st_bind linA); [apply linA_eval|]. intros best.
    apply (st_bind linA); [apply linA_mod|]. intros _. apply (st_bind linA); [apply linA_publish|]. intros _. apply linA_mod.
  - intros _. apply (st_bind linA); [apply linA_terminate|]. intros stop. apply (st_bind linA).
    + destruct stop.
      * apply (st_bind linA); [apply linA_mod|]. intros _. apply linA_publish.
      * apply (st_bind linA); [apply linA_get|]. intros a. apply linA_loop, linA_iteration.
    + intros _. apply (st_bind linA); [apply linA_publish|]. intros _.
      apply (st_bind linA); [apply linA_mod|]. intros _. apply (st_bind linA); [apply linA_get|]. intros a.
      destruct (a_best_run a); [|apply (st_raise linA)].
      apply (st_bind linA); [apply linA_lift, g_load; exact _|intros; apply (st_lift linA)].
Qed.

Lemma evolve_lineage ev sched n a w : lineage_ok w -> lineage_ok (snd (snd (evolve ev sched n (a, w)))).
Proof. intros H. destruct (linA_evolve ev sched n (a, w)) as (_ & _ & L). auto. Qed.

(** ** Cloning *)

Lemma clone_copy o w i : at_ w o = Some i ->
  exists j w', clone o w = (Ok (length (w_heap w)), w') /\ w_heap w' = w_heap w ++ [j] /\ w_rng w' = w_rng w /\
    i_genome j = i_genome i /\ i_id j = w_next_id w /\ w_next_id w' = (w_next_id w + 1)%Z /\ i_cloned_from j = i_id i /\
    (ft_cache (i_fit i) = true -> i_fit j = i_fit i) /\
    (ft_cache (i_fit i) = false -> ft_evaluated (i_fit j) = false) /\
    (i_update_parents i = true -> i_parents j = []) /\
    (lineage_ok w -> ~ In (i_id j) (ids w)).
Proof.
  intros H. exists (cloned i (w_next_id w)), (push (bump w) (cloned i (w_next_id w))).
  split; [apply clone_at; exact H|]. split; [reflexivity|]. split; [reflexivity|]. split; [reflexivity|]. split; [reflexivity|].
  split; [reflexivity|]. split; [reflexivity|]. simpl. unfold fit_getstate.
  split; [intros ->; reflexivity|]. split; [intros ->; reflexivity|]. split; [intros ->; reflexivity|].
  intros L Hin. apply (lin_range _ L) in Hin. lia.
Qed.

Lemma clone_independent o w i c w' f : at_ w o = Some i -> clone o w = (Ok c, w') ->
  at_ (snd (modify c f w')) o = Some i /\ at_ (snd (modify o f w')) c = at_ w' c /\ at_ (snd (modify o f w')) o = Some (f i).
Proof.
  intros H C. rewrite (clone_at _ _ _ H) in C. injection C as <- <-.
  assert (Hlt := at_lt _ _ _ H).
  set (w1 := push (bump w) (cloned i (w_next_id w))).
  assert (A1 : at_ w1 o = Some i) by (unfold w1; rewrite at_push_old by exact Hlt; exact H).
  assert (A2 : at_ w1 (length (w_heap w)) = Some (cloned i (w_next_id w))) by (exact (at_push_new (bump w) _)).
  rewrite (modify_at _ _ _ _ A2), (modify_at _ _ _ _ A1). simpl.
  split; [rewrite at_put_other by lia; exact A1|]. split; [rewrite at_put_other by lia; reflexivity|]. eapply at_put_same; eauto.
Qed.
