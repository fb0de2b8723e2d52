(** Proofs that each individual of a run is new and evaluated once (C33, C59). *)
From Verif.Proofs Require Export BestP TraceP.
From Verif.Model Require Import Tree World Evolution.
Open Scope nat_scope.

Definition hlen (w w' : world) : Prop := length (w_heap w') = length (w_heap w).
Global Instance hlen_pre : PreOrder hlen.
Proof. split; [intros w; reflexivity|intros a b c H1 H2; unfold hlen in *; congruence]. Qed.
Lemma hlen_rng w g : hlen w (mkWorld (w_heap w) (w_next_id w) g). Proof. reflexivity. Qed.
Lemma hlen_put w o i j : True -> at_ w o = Some i -> kept w i j -> hlen w (put_at w o j).
Proof. intros _ _ _. apply put_at_len. Qed.
Lemma hlen_liftR {A} (m : R A) : steps hlen (liftR m).
Proof. intros w. unfold hlen. rewrite liftR_heap. reflexivity. Qed.
Lemma hlen_put_genome o g : steps hlen (put_genome o g).
Proof. apply (g_put_genome hlen (fun _ => True) hlen_put). exact I. Qed.

(** [m] allocates [n] objects in a row and returns them. *)
Definition makes (m : M (list oid)) (n : nat) : Prop := forall w l w', m w = (Ok l, w') ->
  l = seq (length (w_heap w)) n /\ length (w_heap w') = length (w_heap w) + n.

Lemma repeatM_makes (m : M oid) : (forall w o w', m w = (Ok o, w') -> o = length (w_heap w) /\ length (w_heap w') = S (length (w_heap w))) ->
  forall n, makes (repeatM n m) n.
Proof.
  intros Hm. induction n as [|n IH]; intros w l w' H; simpl in H; [mr H; simpl; split; [reflexivity|lia]|].
  mb H as o w1 E. mb H as os w2 E1. mr H. destruct (Hm _ _ _ E) as [-> L1]. destruct (IH _ _ _ E1) as [-> L2].
  rewrite L1 in *. split; [reflexivity|lia].
Qed.

Lemma trees_make m p n h : makes (create_trees m p n h) n.
Proof.
  intros w l w' H. unfold create_trees in H. mb H as inds w1 E. mb H as u w2 E1. mr H.
  apply repeatM_makes in E.
  - destruct E as [-> L]. split; [reflexivity|].
    assert (K : steps hlen (iterM (fun o => t <- load_tree o ;; l <- liftR (create_tree m p t) ;; put_genome o (GTree (with_nodes t l))) (seq (length (w_heap w)) n))).
    { apply (st_iterM hlen). intros x _. apply (st_bind hlen); [apply (g_load_tree hlen)|]. intros t.
      apply (st_bind hlen); [apply hlen_liftR|intros; apply hlen_put_genome]. }
    specialize (K w1). rewrite E1 in K. unfold hlen in K. simpl in K. congruence.
  - intros v o v' Hv. unfold new_tree_individual in Hv. mb Hv as id v1 E2. mb Hv as ts v2 E3. unfold lift in E3. injection E3 as _ <-.
    unfold fresh_id in E2. injection E2 as <- <-. unfold alloc in Hv. simpl in Hv. injection Hv as <- <-. simpl. rewrite app_length. simpl. split; [reflexivity|lia].
Qed.

Lemma vectors_make len b k fc upd n h : makes (create_vectors len b k fc upd n h) n.
Proof.
  intros w l w' H. unfold create_vectors in H. mb H as inds w1 E. mb H as u w2 E1. mr H.
  apply repeatM_makes in E.
  - destruct E as [-> L]. split; [reflexivity|].
    assert (K : steps hlen (iterM (fun o => v <- load_vec o ;; v' <- liftR (create_vector len v) ;; put_genome o (GVec v')) (seq (length (w_heap w)) n))).
    { apply (st_iterM hlen). intros x _. apply (st_bind hlen); [apply (g_load_vec hlen)|]. intros t.
      apply (st_bind hlen); [apply hlen_liftR|intros; apply hlen_put_genome]. }
    specialize (K w1). rewrite E1 in K. unfold hlen in K. simpl in K. congruence.
  - intros v o v' Hv. mb Hv as y v1 E2. unfold lift in E2. injection E2 as _ <-.
    unfold new_individual, bind, fresh_id, alloc in Hv. simpl in Hv. injection Hv as <- <-. simpl. rewrite app_length. simpl. split; [reflexivity|lia].
Qed.

Lemma create_makes c n h : makes (create_individuals c n h) n.
Proof.
  destruct c as [len b k fc upd|m p|mn mx p q]; cbn [create_individuals]; [apply vectors_make|apply trees_make|].
  intros w l w' H. unfold create_half in H. destruct (mx + 1 =? mn); [discriminate|]. destruct (mx + 1 <? mn).
  { destruct (n <? _); [discriminate|]. eapply trees_make; eauto. }
  set (g := n / (2 * (mx + 1 - mn))) in *. destruct (Nat.eqb_spec g 0) as [|G]; [discriminate|]. mb H as parts w1 E.
  assert (F : concat parts = seq (length (w_heap w)) (2 * (mx + 1 - mn) * g) /\ length (w_heap w1) = length (w_heap w) + 2 * (mx + 1 - mn) * g).
  { clear H. revert parts w w1 E. clearbody g. replace (2 * (mx + 1 - mn) * g) with (length (seq mn (mx + 1 - mn)) * (g + g)) by (rewrite seq_length; lia).
    generalize (seq mn (mx + 1 - mn)) as ds.
    induction ds as [|d ds IH]; intros parts w0 w1 E; simpl in E; [mr E; simpl; split; [reflexivity|lia]|].
    mb E as part w2 E1. mb E as rest w3 E2. mr E. mb E1 as l1 w4 Ea. mb E1 as l2 w5 Eb. mr E1.
    apply trees_make in Ea. apply trees_make in Eb. destruct Ea as [-> La]. destruct Eb as [-> Lb]. apply IH in E2. destruct E2 as [Ec Lc].
    simpl. rewrite Ec, La, Lc, Lb, La, <- seq_app. rewrite (seq_app (g + g)). split; [|lia]. f_equal. f_equal. lia. }
  destruct F as [Fc Fl].
  assert (Hg : 2 * (mx + 1 - mn) * g <= n) by (apply Nat.mul_div_le; unfold g in G; destruct (2 * (mx + 1 - mn)); [exfalso; apply G; reflexivity|discriminate]).
  rewrite Fc, seq_length in H. set (m := 2 * (mx + 1 - mn) * g) in *. destruct (Nat.eqb_spec (n - m) 0) as [Z|Z].
  - mr H. replace n with m by lia. split; [reflexivity|exact Fl].
  - mb H as rest w2 E1. mr H. apply trees_make in E1. destruct E1 as [-> L]. rewrite Fl in *.
    rewrite <- seq_app. replace (m + (n - m)) with n by lia. split; [reflexivity|lia].
Qed.

(** ** Evaluations of a run *)

Lemma kinds_present w w' l : kinds w w' -> present l w -> present l w'.
Proof. intros K P o Ho. destruct (P o Ho) as (i & Hi). destruct (K o i Hi) as (j & Hj & _). eauto. Qed.

Lemma kinds_run_worker o (r : res fval) : steps kinds (worker o r).
Proof.
  intros w. unfold worker. destruct r as [v|e]; [|reflexivity].
  pose proof (kinds_set_fitness o v w) as K. destruct (ind_set_fitness o v w) as [x w']. exact K.
Qed.

Lemma kinds_best_scan l : steps kinds (best_scan l).
Proof.
  destruct l as [|a l]; [apply (st_raise kinds)|]. apply (st_foldM kinds). intros b o _. apply (st_bind kinds).
  - apply (g_better kinds kinds_rng).
  - intros; apply (st_ret kinds).
Qed.

Lemma kinds_evaluate ev sched m alive l : steps kinds (evaluate_inds ev sched m alive l).
Proof.
  apply (st_bind kinds); [apply (st_mapM kinds); intros o _; apply (st_bind kinds); [apply kinds_load|intros; apply (st_ret kinds)]|]. intros gs.
  apply (st_bind kinds); [apply (st_lift kinds)|]. intros rs. destruct m.
  - apply (st_bind kinds); [|intros; apply kinds_best_scan]. revert rs. induction l as [|o l IH]; intros rs; simpl; [apply (st_ret kinds)|].
    destruct rs as [|r rs]; [apply (st_ret kinds)|]. apply (st_bind kinds); [apply (st_lift kinds)|]. intros v.
    apply (st_bind kinds); [apply kinds_set_fitness|]. intros; apply IH.
  - apply (st_bind kinds).
    { apply (st_mapM kinds). intros ir _. destruct (nth_error l (fst ir)); [|apply (st_ret kinds)].
      apply (st_bind kinds); [apply kinds_run_worker|intros; apply (st_ret kinds)]. }
    intros outs. apply (st_bind kinds); [apply (st_lift kinds)|]. intros us.
    apply (st_bind kinds); [apply (st_iterM kinds); intros; apply kinds_set_fitness|]. intros; apply kinds_best_scan.
Qed.

Lemma concat_snoc {A} (l : list (list A)) x : concat (l ++ [x]) = concat l ++ x.
Proof. rewrite concat_app. simpl. rewrite app_nil_r. reflexivity. Qed.

Lemma NoDup_app_intro {A} (l m : list A) : NoDup l -> NoDup m -> (forall x, In x l -> ~ In x m) -> NoDup (l ++ m).
Proof.
  induction 1 as [|x l Hx N IH]; intros Hm D; simpl; [exact Hm|]. constructor.
  - intros C. apply in_app_or in C. destruct C as [C|C]; [contradiction|]. apply (D x); [left; reflexivity|exact C].
  - apply IH; [exact Hm|]. intros y Hy. apply D. right. exact Hy.
Qed.

(** All evaluated individuals exist, none was evaluated twice, and the present population was evaluated last. *)
Record once (a : algo) (w : world) : Prop := {
  on_pop : exists s, a_pop a = [s] /\ exists pre, evals (a_trace a) = pre ++ [inds_of s];
  on_nodup : NoDup (concat (evals (a_trace a)));
  on_present : present (concat (evals (a_trace a))) w
}.

Lemma once_skip a a' w w' : a_pop a' = a_pop a -> evals (a_trace a') = evals (a_trace a) -> kinds w w' -> once a w -> once a' w'.
Proof. intros E1 E2 K [A B C]. split; rewrite ?E1, ?E2; auto. eapply kinds_present; eauto. Qed.

Lemma last_in {A} (pre : list (list A)) l x : In x l -> In x (concat (pre ++ [l])).
Proof. intros H. rewrite concat_snoc. apply in_or_app. right. exact H. Qed.

Lemma regen_kinds w w' : regen w w' -> kinds w w'.
Proof. intros R o i H. destruct (R o i H) as (n & Hn). eexists. split; [exact Hn|]. apply fit_kind_refl. Qed.

Lemma frame_kinds w w' : frame none w w' -> kinds w w'.
Proof. intros F. apply regen_kinds, regen_frame, F. Qed.

Lemma once_iteration ev sched a w a' w' : once a w -> generation_iteration ev sched (a, w) = (Ok tt, (a', w')) -> once a' w'.
Proof.
  intros [(s & Es & pre & Ep) N P] E. apply iteration_ok in E.
  destruct E as (pop & w1 & best & w2 & c & worst & E1 & E2 & E3 & _ & ->). rewrite Es in E1.
  assert (Ps : present (inds_of s) w) by (intros o Ho; apply P; rewrite Ep; apply last_in; exact Ho).
  assert (Fr : frame none w w1).
  { pose proof (breed_all_frame [s] w) as Fr. rewrite E1 in Fr. apply Fr. simpl. rewrite app_nil_r. exact Ps. }
  unfold breed in E1. simpl in E1. mb E1 as s' v E. mr E1.
  destruct (breed_parts s w s' w1 Ps E) as (sel & sels & el & ch & v1 & v2 & _ & Ce & _ & _ & Cc & _ & _ & Es' & Eo & _).
  simpl in E2.
  assert (K2 : kinds w1 w2) by (pose proof (kinds_evaluate ev sched (a_method a) (a_alive a) (inds_of s') w1) as K0; rewrite E2 in K0; exact K0).
  assert (K3 : kinds w2 w').
  { destruct (a_best_run a) as [r|]; [|destruct E3 as [_ ->]; reflexivity]. pose proof (g_better kinds kinds_rng best r w2) as K. rewrite E3 in K. exact K. }
  assert (K : kinds w1 w') by (transitivity w2; assumption).
  assert (Pn : present (inds_of s') w1).
  { pose proof (kinds_operators (sp_ops s) (inds_of s') v2) as K0. rewrite Eo in K0. simpl in K0. eapply kinds_present; [exact K0|].
    rewrite Es'. unfold inds_of, with_inds. cbn [sp_inds]. rewrite seq_app. intros o Ho. apply in_app_or in Ho.
    pose proof (copies_ext _ _ _ _ _ Cc) as X2. destruct Ho as [Ho|Ho].
    - apply (copies_fresh _ _ _ _ _ _ Ce) in Ho. destruct Ho as [_ Ho]. destruct (nth_error (w_heap v1) o) as [i|] eqn:Ei; [|apply nth_error_None in Ei; lia].
      exists i. eapply ext_at; eauto.
    - apply (copies_fresh _ _ _ _ _ _ Cc) in Ho. destruct Ho as [_ Ho]. destruct (nth_error (w_heap v2) o) as [i|] eqn:Ei; [|apply nth_error_None in Ei; lia].
      exists i. exact Ei. }
  assert (T : evals (a_trace (after_breeding [s'] best c worst a)) = evals (a_trace a) ++ [inds_of s']).
  { unfold after_breeding. destruct c; simpl; rewrite !evals_app, app_nil_r; simpl; rewrite app_nil_r; reflexivity. }
  split; rewrite ?T.
  - exists s'. split; [unfold after_breeding; destruct c; reflexivity|]. exists (evals (a_trace a)). reflexivity.
  - rewrite concat_snoc. apply NoDup_app_intro; [exact N|rewrite Es'; apply seq_NoDup|].
    intros o Ho C. rewrite Es' in C. unfold inds_of, with_inds in C. cbn [sp_inds] in C. apply in_seq in C.
    destruct (P o Ho) as (i & Hi). apply at_lt in Hi. lia.
  - rewrite concat_snoc. intros o Ho. apply in_app_or in Ho. destruct Ho as [Ho|Ho].
    + eapply kinds_present; [exact K| |exact Ho]. eapply kinds_present; [apply frame_kinds; exact Fr|exact P].
    + eapply kinds_present; [exact K|exact Pn|exact Ho].
Qed.

Lemma once_terminate a w st a' w' : once a w -> should_terminate (a, w) = (Ok st, (a', w')) -> once a' w'.
Proof.
  intros H E. apply terminate_ok in E. destruct E as (-> & best & ans & cs & _ & _ & -> & _).
  eapply once_skip; [| |reflexivity|exact H]; [reflexivity|]. simpl. rewrite evals_app. apply app_nil_r.
Qed.

Lemma once_publish a w nm : once a w -> once (fst (snd (publish nm (a, w)))) w.
Proof.
  intros H. rewrite publish_eq. eapply once_skip; [| |reflexivity|exact H]; [reflexivity|]. simpl. rewrite evals_app. apply app_nil_r.
Qed.

Lemma once_body ev sched a w g st a' w' : once a w -> body (generation_iteration ev sched) g (a, w) = (Ok st, (a', w')) -> once a' w'.
Proof.
  intros H E. apply body_ok in E. destruct E as (w1 & a2 & w2 & Rg & _ & E1 & E2).
  eapply once_terminate; [|exact E2]. eapply once_iteration; [|exact E1].
  eapply once_skip; [| |apply regen_kinds; exact Rg|exact H]; [reflexivity|]. simpl. rewrite evals_app. apply app_nil_r.
Qed.

Lemma once_loop ev sched todo : forall g a w a' w', once a w ->
  main_loop (generation_iteration ev sched) todo g (a, w) = (Ok tt, (a', w')) -> once a' w'.
Proof.
  induction todo as [|todo IH]; intros g a w a' w' H E; [simpl in E; unfold ret in E; injection E as <- <-; exact H|].
  rewrite main_loop_body in E. mb E as st s E1. destruct s as [a1 w1]. apply once_body in E1; [|exact H]. destruct st.
  - mb E as x s E2. unfold algo_mod in E2. simpl in E2. injection E2 as _ <-.
    assert (H2 : once (set_final (Some g) a1) w1) by (destruct E1; split; assumption).
    apply (once_publish _ _ "after_generation") in H2. rewrite publish_eq in E, H2. injection E as <- <-. exact H2.
  - mb E as x s E2. apply (once_publish _ _ "after_generation") in E1. rewrite publish_eq in E2. injection E2 as _ <-.
    eapply IH; [|exact E]. exact E1.
Qed.

Lemma create_present c n h w l w' : create_individuals c n h w = (Ok l, w') -> present l w' /\ NoDup l /\ length l = n.
Proof.
  intros H. apply create_makes in H. destruct H as [-> L]. split; [|split; [apply seq_NoDup|apply seq_length]].
  intros o Ho. apply in_seq in Ho. destruct (nth_error (w_heap w') o) as [i|] eqn:E; [exists i; exact E|apply nth_error_None in E; lia].
Qed.

Lemma once_init ev sched n a w a' w' : a_trace a = [] ->
  (forall s l, In s (a_pop a) -> sp_inds s = Some l -> NoDup l) ->
  initialize ev sched n (a, w) = (Ok tt, (a', w')) -> once a' w'.
Proof.
  intros Ht Hp E. apply init_ok in E. destruct E as (pop & w1 & best & E1 & E2 & ->).
  unfold evaluate_population in E2. destruct pop as [|s' [|? ?]]; [discriminate| |discriminate].
  assert (L : length [s'] = length (a_pop a)) by (eapply mapM_length; exact E1).
  destruct (a_pop a) as [|s [|? ?]]; [discriminate| |discriminate]. simpl in E1. mb E1 as x v E. mr E1.
  assert (K : kinds w1 w') by (pose proof (kinds_evaluate ev sched (a_method a) (a_alive a) (inds_of s') w1) as K0; rewrite E2 in K0; exact K0).
  assert (S' : NoDup (inds_of s') /\ present (inds_of s') w1).
  { unfold create_subpopulation in E. destruct (sp_inds s) as [l|] eqn:El.
    - unfold ret in E. injection E as <- Ew. unfold inds_of. rewrite El. split; [eapply Hp; [left; reflexivity|exact El]|].
      unfold evaluate_inds in E2. mb E2 as gs v2 E3. apply load_genomes_ok in E3. destruct E3 as (_ & Pr & _).
      unfold inds_of in Pr. rewrite El in Pr. exact Pr.
    - mb E as c w3 E4. mb E as l w4 E5. mr E. apply create_present in E5. unfold inds_of. simpl. tauto. }
  destruct S' as [S1 S2].
  match goal with |- once ?b _ => assert (T : evals (a_trace b) = [inds_of s']) end.
  { simpl. rewrite Ht, ?evals_app. simpl. rewrite app_nil_r. reflexivity. }
  split; rewrite ?T.
  - exists s'. split; [reflexivity|]. exists []. reflexivity.
  - simpl. rewrite app_nil_r. exact S1.
  - simpl. rewrite app_nil_r. eapply kinds_present; eauto.
Qed.

(** C33: nothing is evaluated twice. *)
Lemma evolve_once ev sched n a w a' w' : a_trace a = [] ->
  (forall s l, In s (a_pop a) -> sp_inds s = Some l -> NoDup l) -> evolve ev sched n (a, w) = (Ok tt, (a', w')) ->
  NoDup (concat (evals (a_trace a'))) /\ exists s pre, a_pop a' = [s] /\ evals (a_trace a') = pre ++ [inds_of s].
Proof.
  intros Ht Hp E. unfold evolve in E. apply evolve_ok in E. destruct E as (a1 & w1 & st & a2 & a3 & w3 & E1 & E2 & E3 & E4).
  apply once_init in E1; auto. apply once_terminate in E2; [|exact E1]. apply finish_ok in E4. destruct E4 as [-> ->].
  assert (H3 : once a3 w3).
  { destruct st.
    - destruct E3 as [-> ->]. assert (H2 : once (set_final (Some 0) a2) w1) by (destruct E2; split; assumption).
      apply (once_publish _ _ "after_generation") in H2. exact H2.
    - eapply once_loop; eauto. }
  apply (once_publish _ _ "evolution_finished") in H3. rewrite publish_eq in H3. destruct H3 as [(s & Es & pre & Ep) N _].
  split; [exact N|]. exists s, pre. auto.
Qed.
