(** Which world relations are respected by all operators and selections. *)
From Verif.Proofs Require Export WorldP.
From Verif.Model Require Export Operators Selection.
From Verif.Spec Require Export IndSpec FitnessSpec.

Lemma fit_kind_refl f : fit_kind f f.
Proof. repeat split. Qed.
Lemma fit_kind_trans f g k : fit_kind f g -> fit_kind g k -> fit_kind f k.
Proof.
  intros (A & B & C & D) (A' & B' & C' & D'). repeat split; try congruence. intros E. rewrite D', D; auto. congruence.
Qed.
Lemma fit_kind_reset f : fit_kind f (set_not_evaluated f).
Proof. unfold set_not_evaluated. repeat split; destruct (ft_class f) eqn:E; auto. Qed.
Lemma fit_kind_set f v : fit_kind f (snd (set_fitness f v)).
Proof.
  unfold set_fitness, fit_kind. destruct (ft_class f) eqn:E; simpl; rewrite ?E; try (repeat split; fail).
  destruct (ft_evaluated f); [repeat split; auto; discriminate|]. destruct (ft_hib f); [destruct v|]; simpl; repeat split; auto; discriminate.
Qed.
Lemma fit_kind_getstate f : fit_kind f (fit_getstate f).
Proof. unfold fit_getstate. destruct (ft_cache f) eqn:E; repeat split; auto. Qed.

(** What changes to one individual the library makes: its identity stays, parents are only added, from existing ids. *)
Definition kept (w : world) (i j : ind) : Prop :=
  i_id j = i_id i /\ i_cloned_from j = i_cloned_from i /\ i_update_parents j = i_update_parents i /\
  fit_kind (i_fit i) (i_fit j) /\
  exists ps, i_parents j = i_parents i ++ ps /\ forall p, In p ps -> In p (ids w).

Lemma kept_same w i j : i_id j = i_id i -> i_cloned_from j = i_cloned_from i ->
  i_update_parents j = i_update_parents i -> fit_kind (i_fit i) (i_fit j) -> i_parents j = i_parents i -> kept w i j.
Proof.
  intros A B C F D. repeat (split; [assumption|]). exists []. rewrite app_nil_r. split; [assumption|]. intros p [].
Qed.

(** The attempts of all built-in operators change individuals only by giving them a new genome. *)
Section Attempts.
  Variable Rw : world -> world -> Prop.
  Context {HR : PreOrder Rw}.
  Variable X : oid -> Prop.
  Hypothesis R_rng : forall w g, Rw w (mkWorld (w_heap w) (w_next_id w) g).
  Hypothesis R_clone : forall o, steps Rw (clone o).
  Hypothesis R_genome : forall o g, X o -> steps Rw (put_genome o g).

  Lemma a_load o : steps Rw (load o).
  Proof. intros w. rewrite load_state. reflexivity. Qed.

  Lemma a_liftR {A} (m : R A) : steps Rw (liftR m).
  Proof. intros w. unfold liftR. destruct (m (w_rng w)) as [r g]. apply R_rng. Qed.

  Lemma a_load_vec o : steps Rw (load_vec o).
  Proof.
    apply (st_bind Rw); [apply a_load|]. intros i. destruct (i_genome i); [apply (st_ret Rw)|apply (st_raise Rw)].
  Qed.
  Lemma a_load_tree o : steps Rw (load_tree o).
  Proof.
    apply (st_bind Rw); [apply a_load|]. intros i. destruct (i_genome i); [apply (st_raise Rw)|apply (st_ret Rw)].
  Qed.

  Ltac g :=
    repeat first
      [ match goal with |- steps _ (bind _ _) => apply (st_bind Rw); [|intros ?] end
      | apply (st_ret Rw) | apply (st_raise Rw) | apply (st_lift Rw)
      | apply a_load | apply a_liftR | apply R_clone | apply a_load_vec | apply a_load_tree
      | apply R_genome; solve [auto] | match goal with H : steps _ _ |- _ => exact H end
      | match goal with |- steps _ (match ?x with _ => _ end) => destruct x end ].

  Lemma a_vec_attempt m n inds : Forall X inds -> steps Rw (vec_attempt m n inds).
  Proof.
    induction 1 as [|o l Ho Hl HI]; cbn [vec_attempt]; g.
  Qed.

  Lemma a_kpoint k inds : Forall X inds -> steps Rw (kpoint_apply k inds).
  Proof.
    intros H. unfold kpoint_apply. destruct inds as [|a [|b l]]; [g|g|].
    apply Forall_inv in H as Ha. apply Forall_inv_tail in H. apply Forall_inv in H as Hb. g.
  Qed.

  Lemma a_pick nt o : steps Rw (pick_subtree nt o).
  Proof. unfold pick_subtree. g. Qed.

  Lemma a_swap ss oi : X (snd oi) -> steps Rw (swap_one ss oi).
  Proof. destruct oi as [i o]. simpl. intros Hx. g. Qed.

  Lemma a_xo n inds : Forall X inds -> steps Rw (xo_attempt n inds).
  Proof.
    intros Hx. rewrite Forall_forall in Hx. unfold xo_attempt. destruct (negb _); [apply (st_raise Rw)|].
    apply (st_bind Rw).
    - unfold pick_subtrees. destruct inds as [|a rest]; [apply (st_raise Rw)|].
      apply (st_bind Rw); [apply a_pick|]. intros [[|x l]|]; [apply (st_raise Rw)| |apply (st_ret Rw)].
      apply (st_bind Rw); [apply (st_mapM Rw); intros; apply a_pick|]. intros rs. apply (st_ret Rw).
    - intros [ss|]; [|apply (st_ret Rw)]. apply (st_bind Rw); [|intros; apply (st_ret Rw)].
      apply (st_iterM Rw). intros [i o] Ho. apply a_swap. simpl. apply Hx.
      apply in_rev in Ho. apply in_combine_r in Ho. assumption.
  Qed.

  Lemma a_mut mn mx inds : Forall X inds -> steps Rw (mut_attempt mn mx inds).
  Proof.
    intros Hx. rewrite Forall_forall in Hx. unfold mut_attempt.
    apply (st_bind Rw); [apply (st_mapM Rw); intros; apply a_pick|]. intros olds.
    destruct (all_somes olds) as [ss|]; [|apply (st_ret Rw)].
    apply (st_bind Rw); [|intros; apply (st_ret Rw)]. apply (st_iterM Rw). intros [o old] Ho.
    apply in_combine_l in Ho. unfold mut_one. g.
  Qed.

  Lemma a_erc mu sigma inds : Forall X inds -> steps Rw (erc_attempt mu sigma inds).
  Proof.
    intros Hx. rewrite Forall_forall in Hx. unfold erc_attempt.
    apply (st_bind Rw); [apply (st_mapM Rw); intros; g|]. intros ls.
    destruct (all_somes ls) as [ps|]; [|apply (st_ret Rw)].
    apply (st_bind Rw); [|intros; apply (st_ret Rw)]. apply (st_iterM Rw). intros [o p] Ho.
    apply in_combine_l in Ho. unfold erc_one. g.
  Qed.
End Attempts.

(** The same, and the fitness keeps its flags too. *)
Definition fit_same (f g : fitness) : Prop :=
  ft_class g = ft_class f /\ ft_cache g = ft_cache f /\ ft_relative g = ft_relative f /\ ft_hib g = ft_hib f.
Definition kept0 (w : world) (i j : ind) : Prop :=
  i_id j = i_id i /\ i_cloned_from j = i_cloned_from i /\ i_update_parents j = i_update_parents i /\
  fit_same (i_fit i) (i_fit j) /\
  exists ps, i_parents j = i_parents i ++ ps /\ forall p, In p ps -> In p (ids w).

Lemma fit_same_refl f : fit_same f f.
Proof. repeat split. Qed.
Lemma fit_same_reset f : fit_same f (set_not_evaluated f).
Proof. unfold set_not_evaluated. repeat split; destruct (ft_class f) eqn:E; auto. Qed.
Lemma fit_same_getstate f : fit_same f (fit_getstate f).
Proof. unfold fit_getstate. destruct (ft_cache f) eqn:E; repeat split; auto. Qed.

Lemma kept0_same w i j : i_id j = i_id i -> i_cloned_from j = i_cloned_from i ->
  i_update_parents j = i_update_parents i -> fit_same (i_fit i) (i_fit j) -> i_parents j = i_parents i -> kept0 w i j.
Proof.
  intros A B C F D. repeat (split; [assumption|]). exists []. rewrite app_nil_r. split; [assumption|]. intros p [].
Qed.
Lemma kept0_kept w i j : kept0 w i j -> kept w i j.
Proof. intros (A & B & C & (F1 & F2 & F3 & F4) & D). split; [exact A|]. split; [exact B|]. split; [exact C|]. split; [|exact D]. repeat split; auto. Qed.

(** Everything but storing a fitness value leaves class and flags of the fitness objects as they are. *)
Section Exact.
  Variable Rw : world -> world -> Prop.
  Context {HR : PreOrder Rw}.
  Variable X : oid -> Prop.
  Hypothesis R_rng : forall w g, Rw w (mkWorld (w_heap w) (w_next_id w) g).
  Hypothesis R_clone : forall o, steps Rw (clone o).
  Hypothesis R_put : forall w o i j, X o -> at_ w o = Some i -> kept0 w i j -> Rw w (put_at w o j).

  Lemma x_load o : steps Rw (load o).
  Proof. intros w. rewrite load_state. reflexivity. Qed.

  Lemma x_liftR {A} (m : R A) : steps Rw (liftR m).
  Proof. intros w. unfold liftR. destruct (m (w_rng w)) as [r g]. apply R_rng. Qed.

  Lemma x_modify o f : X o -> (forall w i, at_ w o = Some i -> kept0 w i (f i)) -> steps Rw (modify o f).
  Proof.
    intros Hx Hf w. destruct (at_ w o) as [i|] eqn:E.
    - rewrite (modify_at _ _ _ _ E). simpl. eapply R_put; eauto.
    - unfold modify, bind, load. unfold at_ in E. rewrite E. reflexivity.
  Qed.

  Lemma x_modify_plain o f : X o -> (forall i, i_id (f i) = i_id i /\ i_cloned_from (f i) = i_cloned_from i /\
    i_update_parents (f i) = i_update_parents i /\ fit_same (i_fit i) (i_fit (f i)) /\ i_parents (f i) = i_parents i) -> steps Rw (modify o f).
  Proof. intros Hx Hf. apply x_modify; [assumption|]. intros w i _. destruct (Hf i) as (? & ? & ? & ? & ?). apply kept0_same; assumption. Qed.

  Lemma x_put_genome o g : X o -> steps Rw (put_genome o g).
  Proof. intros Hx. apply x_modify_plain; [assumption|]. intros i. repeat split. Qed.

  Lemma x_reset o : X o -> steps Rw (set_fitness_not_evaluated o).
  Proof. intros Hx. apply x_modify_plain; [assumption|]. intros i. repeat (split; [reflexivity|]). split; [apply fit_same_reset|reflexivity]. Qed.

  Lemma x_set_gen o n : X o -> steps Rw (modify o (set_gen n)).
  Proof. intros Hx. apply x_modify_plain; [assumption|]. intros i. repeat split. Qed.

  Lemma x_load_vec o : steps Rw (load_vec o).
  Proof.
    apply (st_bind Rw); [apply x_load|]. intros i. destruct (i_genome i); [apply (st_ret Rw)|apply (st_raise Rw)].
  Qed.
  Lemma x_load_tree o : steps Rw (load_tree o).
  Proof.
    apply (st_bind Rw); [apply x_load|]. intros i. destruct (i_genome i); [apply (st_raise Rw)|apply (st_ret Rw)].
  Qed.

  Ltac g :=
    repeat first
      [ match goal with |- steps _ (bind _ _) => apply (st_bind Rw); [|intros ?] end
      | apply (st_ret Rw) | apply (st_raise Rw) | apply (st_lift Rw)
      | apply x_load | apply x_liftR | apply R_clone | apply x_load_vec | apply x_load_tree
      | apply x_put_genome; solve [auto] | apply x_reset; solve [auto] | match goal with H : steps _ _ |- _ => exact H end
      | match goal with |- steps _ (match ?x with _ => _ end) => destruct x end ].

  Lemma load_ids_state l w : snd (mapM (fun p => x <- load p ;; ret (i_id x)) l w) = w.
  Proof.
    symmetry. apply (st_mapM eq). intros p _. apply (st_bind eq); [|intros; apply (st_ret eq)].
    intros v. rewrite load_state. reflexivity.
  Qed.

  Lemma load_ids_in l : forall w xs w', mapM (fun p => x <- load p ;; ret (i_id x)) l w = (Ok xs, w') ->
    forall p, In p xs -> In p (ids w).
  Proof.
    induction l as [|o l IH]; intros w xs w' H p Hp; simpl in H.
    - mstep H. destruct Hp.
    - mb H as x w1 E. mb E as i w2 E1. apply load_ok in E1. destruct E1 as [-> E1]. mr E.
      mb H as ys w3 E. mr H. destruct Hp as [<-|Hp]; [|eapply IH; eauto].
      apply nth_error_In in E1. apply in_map. assumption.
  Qed.

  Lemma x_record name inputs o : X o -> steps Rw (record_applied name inputs o).
  Proof.
    intros Hx w. unfold record_applied. destruct (at_ w o) as [i|] eqn:E.
    - rewrite (bind_eq_ok _ _ _ _ _ (load_at _ _ _ E)).
      rewrite (bind_eq_ok _ _ _ _ _ (store_at o (add_applied name i) i w E)).
      set (w1 := put_at w o (add_applied name i)).
      assert (R1 : Rw w w1) by (eapply R_put; eauto; apply kept0_same; try reflexivity; apply fit_same_refl).
      destruct (i_update_parents i); [|exact R1].
      pose proof (load_ids_state inputs w1) as L.
      destruct (mapM (fun p => x <- load p ;; ret (i_id x)) inputs w1) as [[xs|e] w2] eqn:El; simpl in L; subst w2.
      + rewrite (bind_eq_ok _ _ _ _ _ El). transitivity w1; [exact R1|].
        assert (E1 : at_ w1 o = Some (add_applied name i)) by (eapply at_put_same; eauto).
        rewrite (modify_at _ _ _ _ E1). simpl. eapply R_put; eauto.
        repeat (split; [reflexivity|]). split; [apply fit_same_refl|]. exists xs. split; [reflexivity|]. eapply load_ids_in; eauto.
      + rewrite (bind_eq_raise _ _ _ _ _ El). exact R1.
    - unfold bind, load. unfold at_ in E. rewrite E. reflexivity.
  Qed.

  Lemma x_failable {A} (att : nat -> M (bool * A)) f : (forall i, steps Rw (att i)) -> steps Rw f ->
    forall n i, steps Rw (failable_from att f i n).
  Proof.
    intros Ha Hf n. induction n as [|n IH]; intros i; simpl; [exact Hf|].
    apply (st_bind Rw); [apply Ha|]. intros r. destruct (fst r); [apply (st_ret Rw)|apply IH].
  Qed.

  Lemma x_with_probability name p apply inds : Forall X inds -> steps Rw (apply inds) ->
    (forall w l w', apply inds w = (Ok (Some l), w') -> l = inds) ->
    steps Rw (with_probability name p apply inds).
  Proof.
    intros Hx Ha Hs. rewrite Forall_forall in Hx. unfold with_probability. apply (st_bind Rw); [apply x_liftR|]. intros u.
    destruct (nle u p); [|apply (st_ret Rw)].
    apply (st_bind Rw); [apply (st_iterM Rw); intros o Ho; apply x_reset; auto|]. intros _ w.
    unfold bind at 1. pose proof (Ha w) as HA. destruct (apply inds w) as [[[l|]|e] w1] eqn:E; simpl in HA; try exact HA.
    transitivity w1; [exact HA|]. apply Hs in E. subst l.
    apply (st_bind Rw); [|intros ?; apply (st_ret Rw)]. apply (st_iterM Rw). intros o Ho. apply x_record; auto.
  Qed.

  Lemma x_vec_attempt m n inds : Forall X inds -> steps Rw (vec_attempt m n inds).
  Proof. exact (a_vec_attempt Rw X R_rng R_clone x_put_genome m n inds). Qed.
  Lemma x_kpoint k inds : Forall X inds -> steps Rw (kpoint_apply k inds).
  Proof. exact (a_kpoint Rw X R_rng x_put_genome k inds). Qed.
  Lemma x_xo n inds : Forall X inds -> steps Rw (xo_attempt n inds).
  Proof. exact (a_xo Rw X R_rng x_put_genome n inds). Qed.
  Lemma x_mut mn mx inds : Forall X inds -> steps Rw (mut_attempt mn mx inds).
  Proof. exact (a_mut Rw X R_rng x_put_genome mn mx inds). Qed.
  Lemma x_erc mu sigma inds : Forall X inds -> steps Rw (erc_attempt mu sigma inds).
  Proof. exact (a_erc Rw X R_rng x_put_genome mu sigma inds). Qed.
End Exact.

(** All operators return the list they were given. *)
Lemma failable_same {S A} (att : SE S bool) (x : A) n : forall i s y s',
  failable_from (fun _ => ok <- att ;; ret (ok, x)) (ret x) i n s = (Ok y, s') -> y = x.
Proof.
  induction n as [|n IH]; intros i s y s' H; simpl in H; [mr H; reflexivity|].
  mb H as r s1 E. mb E as ok s2 E1. mr E. destruct ok; simpl in *; [mr H; reflexivity|eauto].
Qed.

Lemma failable_some (att : M bool) (x : list oid) (f : M (option (list oid))) n : forall i s y s',
  (forall s y s', f s = (Ok (Some y), s') -> y = x) ->
  failable_from (fun _ => ok <- att ;; ret (ok, Some x)) f i n s = (Ok (Some y), s') -> y = x.
Proof.
  induction n as [|n IH]; intros i s y s' Hf H; simpl in H; [eauto|].
  mb H as r s1 E. mb E as ok s2 E1. mr E. destruct ok; simpl in *; [mr H; reflexivity|eauto].
Qed.

Lemma with_probability_same name p apply inds w l w' :
  (forall w l w', apply inds w = (Ok (Some l), w') -> l = inds) ->
  with_probability name p apply inds w = (Ok l, w') -> l = inds.
Proof.
  intros Ha H. unfold with_probability in H. mb H as u w1 E. destruct (nle u p); [|mr H; reflexivity].
  mb H as x w2 E1. mb H as r w3 E2. destruct r as [k|]; [|discriminate]. mb H as y w4 E3. mr H. eauto.
Qed.

Lemma plain_same m n k inds w l w' : vec_apply_plain m n k inds w = (Ok (Some l), w') -> l = inds.
Proof. apply failable_some. intros s y s' H. discriminate H. Qed.

Lemma kpoint_same k inds w l w' : kpoint_apply k inds w = (Ok l, w') -> l = inds.
Proof.
  intros H. unfold kpoint_apply in H. destruct inds as [|a [|b r]]; [discriminate| |].
  - mb H as x w1 E. mb H as y w2 E2. discriminate.
  - mb H as x w1 E1. mb H as y w2 E2. mb H as z w3 E3. mb H as u w4 E4. mb H as v w5 E5. mb H as t w6 E6. mr H. reflexivity.
Qed.

Lemma op_apply_same op inds w l w' : op_apply op inds w = (Ok (Some l), w') -> l = inds.
Proof.
  unfold op_apply. intros H. destruct (op_kind op).
  - mb H as x w1 E. mr H. eapply kpoint_same; eauto.
  - unfold vec_apply in H. eapply failable_some in H; [exact H|].
    intros s y s' H0. destruct m; try discriminate H0; mb H0 as r w1 E; mr H0; eapply with_probability_same; eauto; apply plain_same.
  - eapply failable_same in H. congruence.
  - eapply failable_same in H. congruence.
  - eapply failable_same in H. congruence.
  - mr H. reflexivity.
Qed.

Lemma apply_operator_same op inds w l w' : apply_operator op inds w = (Ok l, w') -> l = inds.
Proof. apply with_probability_same. apply op_apply_same. Qed.

Section Exact2.
  Variable Rw : world -> world -> Prop.
  Context {HR : PreOrder Rw}.
  Variable X : oid -> Prop.
  Hypothesis R_rng : forall w g, Rw w (mkWorld (w_heap w) (w_next_id w) g).
  Hypothesis R_clone : forall o, steps Rw (clone o).
  Hypothesis R_put : forall w o i j, X o -> at_ w o = Some i -> kept0 w i j -> Rw w (put_at w o j).

  Lemma x_plain m n k inds : Forall X inds -> steps Rw (vec_apply_plain m n k inds).
  Proof.
    intros H. apply x_failable; auto; [|apply (st_ret Rw)]. intros i.
    apply (st_bind Rw); [eapply x_vec_attempt; eauto|intros; apply (st_ret Rw)].
  Qed.

  Lemma x_op_apply op inds : Forall X inds -> steps Rw (op_apply op inds).
  Proof.
    intros H. unfold op_apply.
    assert (Ff : forall att : M bool, steps Rw att -> steps Rw (failable_apply (op_attempts op)
      (fun _ => ok <- att ;; ret (ok, Some inds)) (ret (Some inds)))).
    { intros att Ha. apply x_failable; auto; [|apply (st_ret Rw)]. intros i.
      apply (st_bind Rw); [exact Ha|intros; apply (st_ret Rw)]. }
    destruct (op_kind op).
    - apply (st_bind Rw); [eapply x_kpoint; eauto|intros; apply (st_ret Rw)].
    - unfold vec_apply. apply x_failable; auto.
      + intros i. apply (st_bind Rw); [eapply x_vec_attempt; eauto|intros; apply (st_ret Rw)].
      + assert (Fb : forall m' n', steps Rw (r <- with_probability (vmut_name m') (op_prob op) (vec_apply_plain m' n' 5) inds ;; ret (Some r))).
        { intros m' n'. apply (st_bind Rw); [|intros; apply (st_ret Rw)].
          eapply x_with_probability; eauto; [apply x_plain; assumption|apply plain_same]. }
        destruct m; try apply (st_ret Rw); apply Fb.
    - apply Ff. eapply x_xo; eauto.
    - apply Ff. eapply x_mut; eauto.
    - apply Ff. eapply x_erc; eauto.
    - apply (st_ret Rw).
  Qed.

  Lemma x_apply op inds : Forall X inds -> steps Rw (apply_operator op inds).
  Proof. intros H. eapply x_with_probability; eauto; [apply x_op_apply; assumption|apply op_apply_same]. Qed.

  (** Selection: only clones are made, and changed right after. *)
  Hypothesis R_clone_selected : forall name o, steps Rw (clone_selected name o).

  Lemma x_augmented o : steps Rw (augmented o).
  Proof. apply (st_bind Rw); [apply x_load; auto|intros; apply (st_lift Rw)]. Qed.

  Lemma x_sorted rev l : steps Rw (sorted_by_fitness rev l).
  Proof.
    apply (st_bind Rw); [apply (st_mapM Rw); intros; apply x_augmented|]. intros ks.
    destruct (keys_comparable ks); [apply (st_ret Rw)|apply (st_raise Rw)].
  Qed.

  Lemma x_elitism n rev src dest : steps Rw (elitism_select n rev src dest).
  Proof.
    apply (st_bind Rw); [apply x_sorted|]. intros l.
    apply (st_bind Rw); [apply (st_mapM Rw); intros; apply R_clone_selected|intros; apply (st_ret Rw)].
  Qed.

  Lemma x_better a b : steps Rw (ind_better_than a b).
  Proof.
    apply (st_bind Rw); [apply x_load; auto|]. intros x. apply (st_bind Rw); [apply x_load; auto|]. intros y.
    apply x_liftR; auto.
  Qed.

  Lemma x_winner t : steps Rw (tournament_winner t).
  Proof.
    destruct t as [|w rest]; [apply (st_raise Rw)|]. apply (st_foldM Rw). intros b x _.
    apply (st_bind Rw); [apply x_better|intros; apply (st_ret Rw)].
  Qed.

  Lemma x_select s src dest : steps Rw (select s src dest).
  Proof.
    destruct s as [size rep a|higher a]; simpl.
    - unfold tournament_select. destruct (negb rep && _); [apply (st_raise Rw)|]. destruct (Nat.eqb a 0); [apply (st_raise Rw)|].
      apply (st_bind Rw); [apply (st_repeatM Rw); apply x_liftR; auto|]. intros ts.
      apply (st_bind Rw); [|intros; apply (st_ret Rw)]. apply (st_mapM Rw). intros t _.
      apply (st_bind Rw); [apply x_winner|intros; apply R_clone_selected].
    - unfold fp_select. apply (st_bind Rw); [apply (st_mapM Rw); intros; apply x_augmented|]. intros ks.
      apply (st_bind Rw); [apply (st_lift Rw)|]. intros xs. destruct (_ || _); [apply (st_raise Rw)|].
      apply (st_bind Rw); [apply (st_repeatM Rw); apply x_liftR; auto|]. intros ps.
      apply (st_bind Rw); [apply (st_lift Rw)|]. intros ch.
      apply (st_bind Rw); [apply (st_mapM Rw); intros; apply R_clone_selected|intros; apply (st_ret Rw)].
  Qed.
End Exact2.

(** ** The same for relations that also allow storing a fitness value *)
Section Generic.
  Variable Rw : world -> world -> Prop.
  Context {HR : PreOrder Rw}.
  Variable X : oid -> Prop.
  Hypothesis R_rng : forall w g, Rw w (mkWorld (w_heap w) (w_next_id w) g).
  Hypothesis R_clone : forall o, steps Rw (clone o).
  Hypothesis R_put : forall w o i j, X o -> at_ w o = Some i -> kept w i j -> Rw w (put_at w o j).

  Lemma R_put0 w o i j : X o -> at_ w o = Some i -> kept0 w i j -> Rw w (put_at w o j).
  Proof. intros Hx E K. eapply R_put; eauto. apply kept0_kept. exact K. Qed.

  Lemma g_load o : steps Rw (load o).
  Proof. eapply x_load; eauto using R_put0. Qed.
  Lemma g_liftR {A} (m : R A) : steps Rw (liftR m).
  Proof. eapply x_liftR; eauto using R_put0. Qed.
  Lemma g_modify o f : X o -> (forall w i, at_ w o = Some i -> kept w i (f i)) -> steps Rw (modify o f).
  Proof.
    intros Hx Hf w. destruct (at_ w o) as [i|] eqn:E.
    - rewrite (modify_at _ _ _ _ E). simpl. eapply R_put; eauto.
    - unfold modify, bind, load. unfold at_ in E. rewrite E. reflexivity.
  Qed.

  Lemma g_modify_plain o f : X o -> (forall i, i_id (f i) = i_id i /\ i_cloned_from (f i) = i_cloned_from i /\
    i_update_parents (f i) = i_update_parents i /\ fit_kind (i_fit i) (i_fit (f i)) /\ i_parents (f i) = i_parents i) -> steps Rw (modify o f).
  Proof. intros Hx Hf. apply g_modify; [assumption|]. intros w i _. destruct (Hf i) as (? & ? & ? & ? & ?). apply kept_same; assumption. Qed.

  Lemma g_put_genome o g : X o -> steps Rw (put_genome o g).
  Proof. eapply x_put_genome; eauto using R_put0. Qed.
  Lemma g_reset o : X o -> steps Rw (set_fitness_not_evaluated o).
  Proof. eapply x_reset; eauto using R_put0. Qed.
  Lemma g_set_gen o n : X o -> steps Rw (modify o (set_gen n)).
  Proof. eapply x_set_gen; eauto using R_put0. Qed.
  Lemma g_set_fitness o v : X o -> steps Rw (ind_set_fitness o v).
  Proof.
    intros Hx w. unfold ind_set_fitness. destruct (at_ w o) as [i|] eqn:E.
    - rewrite (bind_eq_ok _ _ _ _ _ (load_at _ _ _ E)).
      set (j := set_fit _ i). rewrite (bind_eq_ok _ _ _ _ _ (store_at o j i w E)). simpl.
      eapply R_put; eauto. apply kept_same; try reflexivity. apply fit_kind_set.
    - unfold bind, load. unfold at_ in E. rewrite E. reflexivity.
  Qed.

  Lemma g_load_vec o : steps Rw (load_vec o).
  Proof. eapply x_load_vec; eauto using R_put0. Qed.
  Lemma g_load_tree o : steps Rw (load_tree o).
  Proof. eapply x_load_tree; eauto using R_put0. Qed.
  Lemma g_record name inputs o : X o -> steps Rw (record_applied name inputs o).
  Proof. eapply x_record; eauto using R_put0. Qed.
  Lemma g_failable {A} (att : nat -> M (bool * A)) f : (forall i, steps Rw (att i)) -> steps Rw f ->
    forall n i, steps Rw (failable_from att f i n).
  Proof. eapply x_failable; eauto using R_put0. Qed.
  Lemma g_with_probability name p apply inds : Forall X inds -> steps Rw (apply inds) ->
    (forall w l w', apply inds w = (Ok (Some l), w') -> l = inds) ->
    steps Rw (with_probability name p apply inds).
  Proof. eapply x_with_probability; eauto using R_put0. Qed.
  Lemma g_vec_attempt m n inds : Forall X inds -> steps Rw (vec_attempt m n inds).
  Proof. eapply x_vec_attempt; eauto using R_put0. Qed.
  Lemma g_kpoint k inds : Forall X inds -> steps Rw (kpoint_apply k inds).
  Proof. eapply x_kpoint; eauto using R_put0. Qed.
  Lemma g_xo n inds : Forall X inds -> steps Rw (xo_attempt n inds).
  Proof. eapply x_xo; eauto using R_put0. Qed.
  Lemma g_mut mn mx inds : Forall X inds -> steps Rw (mut_attempt mn mx inds).
  Proof. eapply x_mut; eauto using R_put0. Qed.
  Lemma g_erc mu sigma inds : Forall X inds -> steps Rw (erc_attempt mu sigma inds).
  Proof. eapply x_erc; eauto using R_put0. Qed.
  Lemma g_plain m n k inds : Forall X inds -> steps Rw (vec_apply_plain m n k inds).
  Proof. eapply x_plain; eauto using R_put0. Qed.
  Lemma g_op_apply op inds : Forall X inds -> steps Rw (op_apply op inds).
  Proof. eapply x_op_apply; eauto using R_put0. Qed.
  Lemma g_apply op inds : Forall X inds -> steps Rw (apply_operator op inds).
  Proof. eapply x_apply; eauto using R_put0. Qed.
  Hypothesis R_clone_selected : forall name o, steps Rw (clone_selected name o).

  Lemma g_augmented o : steps Rw (augmented o).
  Proof. eapply x_augmented; eauto using R_put0. Qed.
  Lemma g_sorted rev l : steps Rw (sorted_by_fitness rev l).
  Proof. eapply x_sorted; eauto using R_put0. Qed.
  Lemma g_elitism n rev src dest : steps Rw (elitism_select n rev src dest).
  Proof. eapply x_elitism; eauto using R_put0. Qed.
  Lemma g_better a b : steps Rw (ind_better_than a b).
  Proof. eapply x_better; eauto using R_put0. Qed.
  Lemma g_winner t : steps Rw (tournament_winner t).
  Proof. eapply x_winner; eauto using R_put0. Qed.
  Lemma g_select s src dest : steps Rw (select s src dest).
  Proof. eapply x_select; eauto using R_put0. Qed.
End Generic.
