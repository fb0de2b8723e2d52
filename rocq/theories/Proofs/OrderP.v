(** * A run depends on the fitness function only through its order. *)
From Coq Require Import Lia QArith.
From Verif.Proofs Require Import Lib.
From Verif.Proofs Require BestP.
From Verif.Model Require Import Evolution Operators World Base.
From Verif.Spec Require Import EvoSpec OrderSpec.
Open Scope nat_scope.
Open Scope list_scope.

Local Arguments vec_attempt : simpl nomatch.

Section Order.
  Variable flip : bool.
  Variables ev1 ev2 : genome -> res fval.
  Hypothesis ranking : same_ranking flip ev1 ev2.

  (** Two values of one genome. *)
  Definition vrel (v v' : fval) : Prop :=
    match v, v' with
    | VNone, VNone => True
    | VNum x, VNum y => exists g, ev1 g = Ok (VNum x) /\ ev2 g = Ok (VNum y)
    | _, _ => False
    end.

  Definition frel (f g : fitness) : Prop :=
    ft_class g = ft_class f /\ unpenalised (ft_class f) /\ ft_evaluated g = ft_evaluated f /\
    (exists b, ft_hib f = HB b /\ ft_hib g = HB (xorb flip b)) /\
    ft_cache g = ft_cache f /\ ft_relative g = ft_relative f /\ vrel (ft_value f) (ft_value g).

  Definition irel (i j : ind) : Prop := i = set_fit (i_fit i) j /\ frel (i_fit i) (i_fit j).

  Definition wrel (w1 w2 : world) : Prop :=
    Forall2 irel (w_heap w1) (w_heap w2) /\ w_next_id w1 = w_next_id w2 /\ w_rng w1 = w_rng w2.

  (** ** Related computations *)

  Definition rel {S1 S2 X Y} (SR : S1 -> S2 -> Prop) (R : X -> Y -> Prop) (m1 : SE S1 X) (m2 : SE S2 Y) : Prop :=
    forall s1 s2, SR s1 s2 ->
    match m1 s1, m2 s2 with
    | (Ok x, s1'), (Ok y, s2') => R x y /\ SR s1' s2'
    | (Raise e, s1'), (Raise e', s2') => e = e' /\ SR s1' s2'
    | _, _ => False
    end.

  Lemma r_bind {S1 S2 X Y X' Y'} (SR : S1 -> S2 -> Prop) (R : X -> X' -> Prop) (R' : Y -> Y' -> Prop) m1 m2 (k1 : X -> SE S1 Y) (k2 : X' -> SE S2 Y') :
    rel SR R m1 m2 -> (forall x y, R x y -> rel SR R' (k1 x) (k2 y)) -> rel SR R' (bind m1 k1) (bind m2 k2).
  Proof.
    intros Hm Hk s1 s2 Hs. specialize (Hm s1 s2 Hs). unfold bind. destruct (m1 s1) as [[x|e] t1], (m2 s2) as [[y|e'] t2]; try contradiction; [|exact Hm].
    destruct Hm as [Hx Ht]. apply Hk; assumption.
  Qed.

  Lemma r_bind_eq {S1 S2 X Y Y'} (SR : S1 -> S2 -> Prop) (R' : Y -> Y' -> Prop) m1 m2 (k1 : X -> SE S1 Y) (k2 : X -> SE S2 Y') :
    rel SR eq m1 m2 -> (forall x, rel SR R' (k1 x) (k2 x)) -> rel SR R' (bind m1 k1) (bind m2 k2).
  Proof. intros Hm Hk. eapply r_bind; [exact Hm|]. intros x y <-. apply Hk. Qed.

  Lemma r_ret {S1 S2 X Y} (SR : S1 -> S2 -> Prop) (R : X -> Y -> Prop) x y : R x y -> rel SR R (ret x) (ret y).
  Proof. intros H s1 s2 Hs. cbn. auto. Qed.

  Lemma r_ret_eq {S1 S2 X} (SR : S1 -> S2 -> Prop) (x : X) : rel SR eq (ret x) (ret x).
  Proof. apply r_ret. reflexivity. Qed.

  Lemma r_raise {S1 S2 X Y} (SR : S1 -> S2 -> Prop) (R : X -> Y -> Prop) e : rel SR R (raise e) (raise e).
  Proof. intros s1 s2 Hs. cbn. auto. Qed.

  Lemma r_lift {S1 S2 X} (SR : S1 -> S2 -> Prop) (r : res X) : rel SR eq (lift r) (lift r).
  Proof. intros s1 s2 Hs. unfold lift. destruct r; auto. Qed.

  Lemma r_mapM {S1 S2 X X' Y Y'} (SR : S1 -> S2 -> Prop) (P : X -> X' -> Prop) (R : Y -> Y' -> Prop) f1 f2 l1 l2 :
    Forall2 P l1 l2 -> (forall x y, P x y -> rel SR R (f1 x) (f2 y)) -> rel SR (Forall2 R) (mapM f1 l1) (mapM f2 l2).
  Proof.
    intros F H. induction F; cbn; [apply r_ret; constructor|]. eapply r_bind; [apply H; assumption|]. intros a b Hab.
    eapply r_bind; [exact IHF|]. intros la lb Hl. apply r_ret. constructor; assumption.
  Qed.

  Lemma r_mapM_same {S1 S2 X Y Y'} (SR : S1 -> S2 -> Prop) (R : Y -> Y' -> Prop) (f1 : X -> SE S1 Y) f2 l :
    (forall x, rel SR R (f1 x) (f2 x)) -> rel SR (Forall2 R) (mapM f1 l) (mapM f2 l).
  Proof. intros H. apply (r_mapM SR eq R); [induction l; constructor; auto|]. intros x y <-. apply H. Qed.

  Lemma Forall2_eq {X} (l1 l2 : list X) : Forall2 eq l1 l2 -> l1 = l2.
  Proof. intros F. induction F; congruence. Qed.

  Lemma r_weaken {S1 S2 X Y} (SR : S1 -> S2 -> Prop) (R R' : X -> Y -> Prop) m1 m2 : (forall x y, R x y -> R' x y) -> rel SR R m1 m2 -> rel SR R' m1 m2.
  Proof.
    intros H Hm s1 s2 Hs. specialize (Hm s1 s2 Hs). destruct (m1 s1) as [[x|e] t1], (m2 s2) as [[y|e'] t2]; auto.
    destruct Hm. auto.
  Qed.

  Lemma r_mapM_eq {S1 S2 X Y} (SR : S1 -> S2 -> Prop) (f1 : X -> SE S1 Y) f2 l :
    (forall x, rel SR eq (f1 x) (f2 x)) -> rel SR eq (mapM f1 l) (mapM f2 l).
  Proof. intros H. eapply r_weaken; [apply Forall2_eq|]. apply r_mapM_same. exact H. Qed.

  Lemma r_iterM {S1 S2 X} (SR : S1 -> S2 -> Prop) (f1 : X -> SE S1 unit) f2 l : (forall x, rel SR eq (f1 x) (f2 x)) -> rel SR eq (iterM f1 l) (iterM f2 l).
  Proof. intros H. induction l; cbn; [apply r_ret_eq|]. apply r_bind_eq; auto. Qed.

  Lemma r_foldM {S1 S2 X Y} (SR : S1 -> S2 -> Prop) (f1 : Y -> X -> SE S1 Y) f2 l : (forall a x, rel SR eq (f1 a x) (f2 a x)) ->
    forall a, rel SR eq (foldM f1 l a) (foldM f2 l a).
  Proof. intros H. induction l; intros a0; cbn; [apply r_ret_eq|]. apply r_bind_eq; auto. Qed.

  Lemma r_repeatM {S1 S2 X} (SR : S1 -> S2 -> Prop) n (m1 : SE S1 X) m2 : rel SR eq m1 m2 -> rel SR eq (repeatM n m1) (repeatM n m2).
  Proof. intros H. induction n; cbn; [apply r_ret_eq|]. apply r_bind_eq; auto. intros x. apply r_bind_eq; auto. intros l. apply r_ret_eq. Qed.

  Lemma r_failable {S1 S2 X} (SR : S1 -> S2 -> Prop) (f1 : nat -> SE S1 (bool * X)) f2 o1 o2 : (forall i, rel SR eq (f1 i) (f2 i)) -> rel SR eq o1 o2 ->
    forall n i, rel SR eq (failable_from f1 o1 i n) (failable_from f2 o2 i n).
  Proof. intros Hf Ho n. induction n; intros i; cbn; [exact Ho|]. apply r_bind_eq; auto. intros [[|] x]; cbn; [apply r_ret_eq|apply IHn]. Qed.

  (** ** On individuals *)

  Local Notation Mrel := (rel wrel).
  Local Notation self m := (rel wrel eq m m).

  Lemma r_liftR {X} (m : R X) : self (liftR m).
  Proof.
    intros w1 w2 (H1 & H2 & H3). unfold liftR. rewrite H3. destruct (m (w_rng w2)) as [[x|e] g]; (split; [reflexivity|split; auto]).
  Qed.

  Lemma Forall2_nth_both {X Y} (P : X -> Y -> Prop) l1 l2 o : Forall2 P l1 l2 ->
    match nth_error l1 o, nth_error l2 o with Some a, Some b => P a b | None, None => True | _, _ => False end.
  Proof. intros F. revert o. induction F; intros [|o]; cbn; auto; apply IHF. Qed.

  Lemma r_load o : Mrel irel (load o) (load o).
  Proof.
    intros w1 w2 H. unfold load. pose proof (Forall2_nth_both _ _ _ o (proj1 H)) as Ho.
    destruct (nth_error (w_heap w1) o), (nth_error (w_heap w2) o); try contradiction; auto.
  Qed.

  Lemma Forall2_set {X Y} (P : X -> Y -> Prop) l1 l2 o a b : Forall2 P l1 l2 -> P a b -> Forall2 P (list_set l1 o a) (list_set l2 o b).
  Proof. intros F H. revert o. induction F; intros [|o]; cbn; constructor; auto. Qed.

  Lemma r_store o i j : irel i j -> Mrel eq (store o i) (store o j).
  Proof.
    intros H w1 w2 (H1 & H2 & H3). unfold store. rewrite (Forall2_len _ _ _ H1). destruct (o <? length (w_heap w2)); [|cbn; repeat split; auto].
    split; [reflexivity|]. split; [|auto]. apply Forall2_set; assumption.
  Qed.

  Lemma r_alloc i j : irel i j -> Mrel eq (alloc i) (alloc j).
  Proof.
    intros H w1 w2 (H1 & H2 & H3). unfold alloc. rewrite (Forall2_len _ _ _ H1). split; [reflexivity|]. split; [|auto].
    cbn. apply Forall2_app; [exact H1|]. constructor; auto.
  Qed.

  Lemma r_fresh : self fresh_id.
  Proof. intros w1 w2 (H1 & H2 & H3). unfold fresh_id. rewrite H2. split; [reflexivity|]. split; [exact H1|]. cbn. auto. Qed.

  Lemma r_modify o f1 f2 : (forall i j, irel i j -> irel (f1 i) (f2 j)) -> Mrel eq (modify o f1) (modify o f2).
  Proof. intros H. eapply r_bind; [apply r_load|]. intros i j Hij. apply r_store. auto. Qed.

  Lemma irel_fields i j : irel i j -> i_id i = i_id j /\ i_gen i = i_gen j /\ i_cloned_from i = i_cloned_from j /\
    i_selected_by i = i_selected_by j /\ i_applied i = i_applied j /\ i_update_parents i = i_update_parents j /\
    i_parents i = i_parents j /\ i_genome i = i_genome j.
  Proof. intros [E _]. rewrite E. cbn. auto 10. Qed.

  Lemma irel_intro i j : frel (i_fit i) (i_fit j) -> i_id i = i_id j -> i_gen i = i_gen j -> i_cloned_from i = i_cloned_from j ->
    i_selected_by i = i_selected_by j -> i_applied i = i_applied j -> i_update_parents i = i_update_parents j ->
    i_parents i = i_parents j -> i_genome i = i_genome j -> irel i j.
  Proof. intros F. intros. split; [|exact F]. destruct i, j; cbn in *. unfold set_fit. cbn. congruence. Qed.

  Ltac irels := intros; match goal with H : irel ?i ?j |- _ => pose proof (irel_fields i j H) as (? & ? & ? & ? & ? & ? & ? & ?); destruct H as [_ ?];
    apply irel_intro; cbn; try congruence; auto end.

  Lemma frel_value f g v v' e : frel f g -> vrel v v' -> frel (with_value f v e) (with_value g v' e).
  Proof. intros (A1 & A2 & A3 & A4 & A5 & A6 & A7) Hv. unfold frel, with_value. cbn. auto 10. Qed.

  Lemma frel_class f g : frel f g -> ft_class f <> KNSGA2.
  Proof. intros (_ & A & _) E. rewrite E in A. exact A. Qed.

  Lemma frel_reset f g : frel f g -> frel (set_not_evaluated f) (set_not_evaluated g).
  Proof.
    intros F. pose proof (frel_class _ _ F) as K. unfold set_not_evaluated. rewrite (proj1 F).
    destruct (ft_class f); try congruence; apply frel_value; auto; exact I.
  Qed.

  Lemma frel_copy f g : frel f g -> frel (fit_getstate f) (fit_getstate g).
  Proof.
    intros F. unfold fit_getstate. pose proof F as (_ & _ & _ & _ & E & _). rewrite E. destruct (ft_cache f); [exact F|].
    apply frel_value; auto. exact I.
  Qed.

  Lemma s_reset o : self (set_fitness_not_evaluated o).
  Proof. apply r_modify. irels. apply frel_reset. assumption. Qed.

  Lemma s_clone o : self (clone o).
  Proof.
    eapply r_bind; [apply r_load|]. intros i j H. apply r_bind_eq; [apply r_fresh|]. intros id. apply r_alloc.
    revert H. irels; [apply frel_copy; assumption|].
    repeat match goal with E : i_update_parents _ = _ |- _ => rewrite E; clear E | E : i_parents _ = _ |- _ => rewrite E; clear E end. reflexivity.
  Qed.

  Lemma s_put o g : self (put_genome o g).
  Proof. apply r_modify. irels. Qed.

  Lemma s_load_vec o : self (load_vec o).
  Proof.
    eapply r_bind; [apply r_load|]. intros i j H. apply irel_fields in H as (_ & _ & _ & _ & _ & _ & _ & ->).
    destruct (i_genome j); [apply r_ret_eq|apply r_raise].
  Qed.

  Lemma s_load_tree o : self (load_tree o).
  Proof.
    eapply r_bind; [apply r_load|]. intros i j H. apply irel_fields in H as (_ & _ & _ & _ & _ & _ & _ & ->).
    destruct (i_genome j); [apply r_raise|apply r_ret_eq].
  Qed.

  Ltac sm := repeat lazymatch goal with
    | |- rel _ _ (liftR _) _ => apply r_liftR
    | |- rel _ _ (lift _) _ => apply r_lift
    | |- rel _ _ (ret _) _ => apply r_ret_eq
    | |- rel _ _ (raise _) _ => apply r_raise
    | |- rel _ _ (clone _) _ => apply s_clone
    | |- rel _ _ (put_genome _ _) _ => apply s_put
    | |- rel _ _ (load_vec _) _ => apply s_load_vec
    | |- rel _ _ (load_tree _) _ => apply s_load_tree
    | |- rel _ _ (set_fitness_not_evaluated _) _ => apply s_reset
    | |- rel _ _ fresh_id _ => apply r_fresh
    | |- rel _ _ (mapM _ _) _ => apply r_mapM_eq; intros ?
    | |- rel _ _ (iterM _ _) _ => apply r_iterM; intros ?
    | |- rel _ _ (foldM _ _ _) _ => apply r_foldM; intros ? ?
    | |- rel _ _ (repeatM _ _) _ => apply r_repeatM
    | |- rel _ _ (bind _ _) _ => apply r_bind_eq; [|intros ?]
    end.

  Lemma s_vec_attempt m n : forall l, self (vec_attempt m n l).
  Proof. induction l as [|o l IH]; cbn [vec_attempt]; sm. match goal with |- rel _ _ (if ?b then _ else _) _ => destruct b end; sm. exact IH. Qed.

  Lemma s_kpoint k l : self (kpoint_apply k l).
  Proof. unfold kpoint_apply. destruct l as [|a [|b l]]; sm. Qed.

  Lemma s_record name l o : self (record_applied name l o).
  Proof.
    eapply r_bind; [apply r_load|]. intros i j H. pose proof (irel_fields i j H) as (_ & _ & _ & _ & _ & Hu & _).
    apply r_bind_eq; [apply r_store; revert H; irels|]. intros _. rewrite Hu. destruct (i_update_parents j); [|apply r_ret_eq].
    apply r_bind_eq.
    - apply r_mapM_eq. intros p. eapply r_bind; [apply r_load|]. intros x y Hxy. apply r_ret. apply (irel_fields x y Hxy).
    - intros ids. apply r_modify. irels.
  Qed.

  Lemma s_with_probability name p apply l : (forall l, self (apply l)) -> self (with_probability name p apply l).
  Proof.
    intros Ha. unfold with_probability. sm. match goal with |- rel _ _ (if ?b then _ else _) _ => destruct b end; sm.
    { apply Ha. }
    match goal with |- rel _ _ (match ?y with _ => _ end) _ => destruct y end; sm. apply s_record.
  Qed.

  Lemma s_pick nt o : self (pick_subtree nt o).
  Proof. unfold pick_subtree. sm. Qed.

  Lemma s_xo n l : self (xo_attempt n l).
  Proof.
    unfold xo_attempt. destruct (negb _); [apply r_raise|]. apply r_bind_eq.
    - unfold pick_subtrees. destruct l as [|a l]; [apply r_raise|]. apply r_bind_eq; [apply s_pick|]. intros [[|m s]|]; sm. apply s_pick.
    - intros [ss|]; [|apply r_ret_eq]. unfold swap_subtrees. apply r_bind_eq; [|intros _; apply r_ret_eq]. apply r_iterM. intros [i o]. unfold swap_one. sm.
  Qed.

  Lemma s_mut mn mx l : self (mut_attempt mn mx l).
  Proof.
    unfold mut_attempt. apply r_bind_eq; [sm; apply s_pick|]. intros olds. destruct (all_somes olds) as [ss|]; [|apply r_ret_eq].
    apply r_bind_eq; [|intros _; apply r_ret_eq]. apply r_iterM. intros [o [|m s]]; unfold mut_one; sm.
  Qed.

  Lemma s_erc mu sigma l : self (erc_attempt mu sigma l).
  Proof.
    unfold erc_attempt. apply r_bind_eq; [sm|]. intros olds. destruct (all_somes olds) as [ss|]; [|apply r_ret_eq].
    apply r_bind_eq; [|intros _; apply r_ret_eq]. apply r_iterM. intros [o m]. unfold erc_one. sm. destruct (nth_error _ _); sm.
  Qed.

  Lemma s_apply op l : self (apply_operator op l).
  Proof.
    apply s_with_probability. clear l. intros l. unfold op_apply, failable_apply.
    assert (P : forall m n k l, self (vec_apply_plain m n k l)).
    { intros m n k l0. unfold vec_apply_plain, failable_apply. apply r_failable; [|apply r_ret_eq]. intros _. sm. apply s_vec_attempt. }
    destruct (op_kind op).
    - sm. apply s_kpoint.
    - unfold vec_apply, failable_apply. apply r_failable; [intros _; sm; apply s_vec_attempt|]. destruct m; sm; apply s_with_probability; auto.
    - apply r_failable; [|apply r_ret_eq]. intros _. sm. apply s_xo.
    - apply r_failable; [|apply r_ret_eq]. intros _. sm. apply s_mut.
    - apply r_failable; [|apply r_ret_eq]. intros _. sm. apply s_erc.
    - apply r_ret_eq.
  Qed.

  (** ** Comparisons *)

  Lemma better_same f g fs f' g' fs' n m : frel f f' -> frel g g' -> fs = n -> fs' = m ->
    simple_better_than f n g m = simple_better_than f' n g' m.
  Proof.
    intros (A1 & A2 & A3 & (b & Ab & Ab') & _ & A6 & A7) (B1 & B2 & B3 & _ & _ & B6 & B7) _ _.
    unfold simple_better_than, check_comparable, is_fitness_evaluated. rewrite B1, A3, A6, B3, B6.
    destruct (negb (is_simple_class (ft_class g))); [reflexivity|].
    destruct (negb (if ft_relative f then true else ft_evaluated f) || negb (if ft_relative g then true else ft_evaluated g)); [reflexivity|].
    cbn [rbind].
    assert (AU : forall f f' n, ft_class f' = ft_class f -> unpenalised (ft_class f) -> ft_evaluated f' = ft_evaluated f ->
      get_augmented_fitness f n = get_pure_fitness f /\ get_augmented_fitness f' n = (if ft_evaluated f then Ok (ft_value f') else Raise ValueError)).
    { intros h h' k E U Ev. unfold get_augmented_fitness, get_pure_fitness. rewrite Ev, E.
      destruct (ft_evaluated h); cbn; [|auto]. destruct (ft_class h); cbn in U; [auto|rewrite U; auto|contradiction]. }
    destruct (AU f f' n A1 A2 A3) as [-> ->]. destruct (AU g g' m B1 B2 B3) as [-> ->].
    unfold get_pure_fitness. destruct (ft_evaluated f); [|reflexivity]. cbn [rbind].
    destruct (ft_evaluated g); [|reflexivity]. cbn [rbind]. rewrite Ab, Ab'. cbn [hib_truthy].
    destruct (ft_value f) as [|x| |], (ft_value f') as [|x'| |]; try contradiction; destruct (ft_value g) as [|y| |], (ft_value g') as [|y'| |]; try contradiction;
      try (destruct b, flip; reflexivity).
    destruct A7 as (gx & E1 & E2). destruct B7 as (gy & E3 & E4). cbn.
    pose proof (proj2 ranking gx gy x y x' y' E1 E3 E2 E4) as H1. pose proof (proj2 ranking gy gx y x y' x' E3 E1 E4 E2) as H2.
    destruct b, flip; cbn; congruence.
  Qed.

  Lemma s_better a b : self (ind_better_than a b).
  Proof.
    eapply r_bind; [apply r_load|]. intros i i' Hi. eapply r_bind; [apply r_load|]. intros j j' Hj.
    pose proof (irel_fields _ _ Hi) as (_ & _ & _ & _ & _ & _ & _ & Gi). pose proof (irel_fields _ _ Hj) as (_ & _ & _ & _ & _ & _ & _ & Gj).
    destruct Hi as [_ Fi]. destruct Hj as [_ Fj]. unfold isize. rewrite Gi, Gj.
    assert (E : better_than (i_fit i) (genome_size (i_genome i')) (i_fit j) (genome_size (i_genome j')) =
                better_than (i_fit i') (genome_size (i_genome i')) (i_fit j') (genome_size (i_genome j'))).
    { unfold better_than. pose proof (frel_class _ _ Fi) as K. rewrite (proj1 Fi). destruct (ft_class (i_fit i)); try congruence; f_equal; eapply better_same; eauto. }
    rewrite E. apply r_liftR.
  Qed.

  Lemma r_augmented o : Mrel vrel (augmented o) (augmented o).
  Proof.
    eapply r_bind; [apply r_load|]. intros i i' Hi. destruct Hi as [E Fi]. unfold ind_augmented, get_augmented_fitness, get_pure_fitness.
    destruct Fi as (A1 & A2 & A3 & _ & _ & _ & A7). rewrite A1, A3.
    intros w1 w2 Hw. unfold lift. destruct (ft_evaluated (i_fit i)); cbn [rbind]; [|auto].
    destruct (ft_class (i_fit i)); cbn in A2; [auto|rewrite A2; auto|contradiction].
  Qed.

  Lemma key_same rev a b a' b' : vrel (fst a) (fst a') -> vrel (fst b) (fst b') -> key_before rev a b = key_before (xorb flip rev) a' b'.
  Proof.
    destruct a as [[|x| |] o], a' as [[|x'| |] o']; cbn; try contradiction; destruct b as [[|y| |] p], b' as [[|y'| |] p']; cbn; try contradiction; intros A7 B7;
      try reflexivity.
    destruct A7 as (gx & E1 & E2). destruct B7 as (gy & E3 & E4). unfold key_before. cbn.
    pose proof (proj2 ranking gx gy x y x' y' E1 E3 E2 E4) as H1. pose proof (proj2 ranking gy gx y x y' x' E3 E1 E4 E2) as H2.
    destruct rev, flip; cbn; congruence.
  Qed.

  Lemma insert_same {K} (b1 b2 : K -> K -> bool) (P : K -> K -> Prop) x x' l l' :
    (forall a b a' b', P a a' -> P b b' -> b1 a b = b2 a' b') -> P x x' -> Forall2 P l l' ->
    Forall2 P (insert_stable b1 x l) (insert_stable b2 x' l').
  Proof.
    intros HB Hx F. induction F as [|y y' l l' Hy F IH]; cbn; [constructor; auto|]. rewrite (HB _ _ _ _ Hy Hx).
    destruct (b2 y' x'); repeat constructor; auto.
  Qed.

  Lemma sort_same {K} (b1 b2 : K -> K -> bool) (P : K -> K -> Prop) l l' :
    (forall a b a' b', P a a' -> P b b' -> b1 a b = b2 a' b') -> Forall2 P l l' -> Forall2 P (sort_stable b1 l) (sort_stable b2 l').
  Proof. intros HB F. induction F; cbn; [constructor|]. apply insert_same; auto. Qed.

  Lemma comparable_same ks ks' : Forall2 vrel ks ks' -> keys_comparable ks = keys_comparable ks'.
  Proof.
    assert (SS : forall a a' b b', vrel a a' -> vrel b b' -> same_sort a b = same_sort a' b').
    { intros [|x| |] [|x'| |] [|y| |] [|y'| |]; cbn; try contradiction; reflexivity. }
    intros F. destruct F as [|k k' l l' Hk F]; [reflexivity|]. destruct F as [|k2 k2' m m' Hk2 F]; [reflexivity|].
    unfold keys_comparable. cbn [forallb]. rewrite (SS k k' k2 k2'); auto. f_equal. induction F; cbn; [reflexivity|]. rewrite (SS k k' x y); auto. f_equal. assumption.
  Qed.

  Lemma s_sorted rev l : Mrel eq (sorted_by_fitness rev l) (sorted_by_fitness (xorb flip rev) l).
  Proof.
    unfold sorted_by_fitness. eapply r_bind; [apply r_mapM_same; intros x; apply r_augmented|]. intros ks ks' F.
    rewrite (comparable_same _ _ F). destruct (keys_comparable ks'); [|apply r_raise]. apply r_ret.
    assert (FC : Forall2 (fun a b => vrel (fst a) (fst b) /\ snd a = snd b) (combine ks l) (combine ks' l)).
    { clear rev. revert l. induction F; intros [|o os]; cbn; constructor; auto. }
    apply (sort_same (key_before rev) (key_before (xorb flip rev))) in FC.
    - induction FC as [|a b la lb [_ E] FC IH]; cbn; [reflexivity|]. f_equal; assumption.
    - intros a b a' b' [H1 _] [H2 _]. apply key_same; assumption.
  Qed.

  Lemma s_clone_selected name o : self (clone_selected name o).
  Proof. unfold clone_selected. sm. apply r_modify. irels. Qed.

  Lemma s_elitism n rev src dest : Mrel eq (elitism_select n rev src dest) (elitism_select n (xorb flip rev) src dest).
  Proof. unfold elitism_select. apply r_bind_eq; [apply s_sorted|]. intros l. sm. apply s_clone_selected. Qed.

  Lemma s_scan l a : self (foldM (fun best p => b <- ind_better_than p best ;; ret (if b then p else best)) l a).
  Proof. apply r_foldM. intros b x. apply r_bind_eq; [apply s_better|]. intros c. apply r_ret_eq. Qed.

  Lemma s_tournament size rep ar src dest : self (tournament_select size rep ar src dest).
  Proof.
    unfold tournament_select. destruct (negb rep && _); [apply r_raise|]. destruct (ar =? 0); [apply r_raise|]. sm.
    - unfold tournament_winner. destruct x0; [apply r_raise|]. apply s_scan.
    - apply s_clone_selected.
  Qed.

  (** ** Creation *)

  Definition hrel (h h' : hibv) : Prop := exists b, h = HB b /\ h' = HB (xorb flip b).

  Lemma frel_new c h h' : unpenalised c -> hrel h h' -> frel (new_fitness c h) (new_fitness c h').
  Proof. intros U H. repeat split; auto. Qed.

  Lemma s_create_vectors len b k fc upd n h h' : unpenalised fc -> hrel h h' -> Mrel eq (create_vectors len b k fc upd n h) (create_vectors len b k fc upd n h').
  Proof.
    intros U H. unfold create_vectors. apply r_bind_eq; [|intros l; sm]. apply r_repeatM. apply r_bind_eq; [apply r_lift|]. intros v.
    unfold new_individual. apply r_bind_eq; [apply r_fresh|]. intros id. apply r_alloc. apply irel_intro; auto. apply frel_new; assumption.
  Qed.

  Lemma s_create_trees m p n h h' : neq_num (g_bloat p) (Fin 0) = true -> hrel h h' -> Mrel eq (create_trees m p n h) (create_trees m p n h').
  Proof.
    intros U H. unfold create_trees. apply r_bind_eq; [|intros l; sm]. apply r_repeatM.
    unfold new_tree_individual. apply r_bind_eq; [apply r_fresh|]. intros id. apply r_bind_eq; [apply r_lift|]. intros ts.
    apply r_alloc. apply irel_intro; auto. apply frel_new; assumption.
  Qed.

  Lemma s_create c n h h' : plain_creator c -> hrel h h' -> Mrel eq (create_individuals c n h) (create_individuals c n h').
  Proof.
    intros U H. destruct c as [len b k fc upd|m p|mn mx gr fu]; cbn [create_individuals].
    - apply s_create_vectors; assumption.
    - apply s_create_trees; assumption.
    - destruct U as [U1 U2]. unfold create_half. destruct (mx + 1 =? mn); [apply r_raise|]. destruct (mx + 1 <? mn).
      { destruct (n <? _); [apply r_raise|]. apply s_create_trees; assumption. }
      destruct (_ =? 0); [apply r_raise|]. apply r_bind_eq.
      { apply r_mapM_eq. intros d. apply r_bind_eq; [apply s_create_trees; assumption|]. intros la. apply r_bind_eq; [apply s_create_trees; assumption|].
        intros lb. apply r_ret_eq. }
      intros parts. destruct (_ =? 0); [apply r_ret_eq|]. apply r_bind_eq; [apply s_create_trees; assumption|]. intros r. apply r_ret_eq.
  Qed.

  (** ** Subpopulations *)

  Definition subrel (s t : subpop) : Prop :=
    t = mkSub (sp_creators s) (sp_pcr s) (sp_ops s) (sp_sels s) (sp_size s) (sp_hib t) (sp_n_elite s) (sp_inds s) /\
    hrel (sp_hib s) (sp_hib t) /\ Forall plain_creator (sp_creators s) /\ match sp_sels s with SelFP _ _ :: _ => False | _ => True end.

  Lemma subrel_inds s t l : subrel s t -> subrel (with_inds s l) (with_inds t l).
  Proof. intros (E & A). split; [|exact A]. rewrite E. reflexivity. Qed.

  Lemma subrel_of s t : subrel s t -> inds_of t = inds_of s.
  Proof. intros (E & _). rewrite E. reflexivity. Qed.

  Lemma r_liftR_in {X Y} (m : R X) (k1 k2 : X -> M Y) (P : X -> Prop) (Q : Y -> Y -> Prop) :
    (forall g x g', m g = (Ok x, g') -> P x) -> (forall x, P x -> Mrel Q (k1 x) (k2 x)) -> Mrel Q (bind (liftR m) k1) (bind (liftR m) k2).
  Proof.
    intros HP H w1 w2 Hw. pose proof Hw as (H1 & H2 & H3). unfold bind, liftR. rewrite H3.
    destruct (m (w_rng w2)) as [[x|e] g] eqn:E; [|repeat split; auto]. apply H; [eapply HP; exact E|]. repeat split; auto.
  Qed.

  Lemma s_create_sub s t : subrel s t -> Mrel subrel (create_subpopulation s) (create_subpopulation t).
  Proof.
    intros H. pose proof H as (E & Hh & Hc & _). unfold create_subpopulation. rewrite E. cbn [sp_inds sp_creators sp_pcr sp_size sp_hib]. rewrite <- E.
    destruct (sp_inds s); [apply r_ret; exact H|]. apply (r_liftR_in _ _ _ plain_creator).
    - intros g x g' Ex. rewrite Forall_forall in Hc. apply Hc.
      eapply BestP.choices_weighted_In. exact Ex.
    - intros c Hp. apply r_bind with (R := eq); [apply s_create; assumption|]. intros l l' <-. apply r_ret. apply subrel_inds. exact H.
  Qed.

  Lemma s_chunks op ar : forall fuel l, self (apply_chunks fuel (apply_operator op) ar l).
  Proof.
    induction fuel; intros l; cbn [apply_chunks]; [apply r_ret_eq|]. destruct l; [apply r_ret_eq|]. apply r_bind_eq; [apply s_apply|]. intros x.
    apply r_bind_eq; [apply IHfuel|]. intros y. apply r_ret_eq.
  Qed.

  Lemma s_breed_sub s t : subrel s t -> Mrel subrel (breed_subpop s) (breed_subpop t).
  Proof.
    intros H. pose proof H as (E & (b & Hb & Hb') & Hc & Hs). unfold breed_subpop. rewrite (subrel_of _ _ H).
    replace (sp_size t) with (sp_size s) by (rewrite E; reflexivity). replace (sp_sels t) with (sp_sels s) by (rewrite E; reflexivity).
    replace (sp_ops t) with (sp_ops s) by (rewrite E; reflexivity). replace (sp_n_elite t) with (sp_n_elite s) by (rewrite E; reflexivity).
    rewrite Hb, Hb'. apply r_bind_eq; [apply r_lift|]. intros _. apply r_bind_eq.
    - destruct (0 <? sp_n_elite s); [|apply r_ret_eq]. cbn [rev_flag]. apply (r_bind _ (fun x y => y = xorb flip x)).
      + apply r_ret. reflexivity.
      + intros x y ->. apply s_elitism.
    - intros el. destruct (sp_sels s) as [|[size rep ar|hi ar] sels]; [apply r_raise| |contradiction]. cbn [select].
      apply r_bind_eq; [apply s_tournament|]. intros sel. apply r_bind_eq.
      + unfold apply_operators. apply r_foldM. intros cur op. destruct (_ =? 0); [apply r_raise|]. apply s_chunks.
      + intros nx. apply r_ret. apply subrel_inds. exact H.
  Qed.

  Lemma s_worst s t : subrel s t -> Mrel eq (get_worst_individual s) (get_worst_individual t).
  Proof.
    intros H. unfold get_worst_individual. rewrite (subrel_of _ _ H). destruct H as (_ & (b & -> & ->) & _). cbn [hib_truthy].
    replace (negb (xorb flip b)) with (xorb flip (negb b)) by (destruct flip, b; reflexivity). apply r_bind_eq; [apply s_sorted|]. intros l. apply r_lift.
  Qed.

  (** ** Evaluation *)

  Variable sched : nat -> list nat.

  Definition rrel (r r' : res fval) : Prop :=
    match r, r' with
    | Ok v, Ok v' => vrel v v' /\ v <> VNone
    | Raise e, Raise e' => e = e'
    | _, _ => False
    end.

  Lemma rrel_ev g : rrel (ev1 g) (ev2 g).
  Proof.
    destruct (proj1 ranking g) as [(x & y & E1 & E2 & _)|(e & E1 & E2)]; rewrite E1, E2; cbn; [|reflexivity].
    split; [exists g; auto|discriminate].
  Qed.

  Lemma completed_same gs : Forall2 (fun p q => fst p = fst q /\ rrel (snd p) (snd q)) (completed ev1 sched gs) (completed ev2 sched gs).
  Proof.
    unfold completed. generalize (sched (length gs)). intros l. induction l as [|i l IH]; cbn; [constructor|].
    apply Forall2_app; [|exact IH]. destruct (nth_error gs i); [|constructor]. constructor; [|constructor]. split; [reflexivity|]. apply rrel_ev.
  Qed.

  Lemma result_same i l l' : Forall2 (fun p q => fst p = fst q /\ rrel (snd p) (snd q)) l l' -> rrel (result_of i l) (result_of i l').
  Proof.
    intros F. induction F as [|[j r] [j' r'] l l' [Hj Hr] F IH]; cbn in *; [reflexivity|]. subst j'. destruct (Nat.eqb i j); assumption.
  Qed.

  Lemma s_set_fitness o v v' : vrel v v' -> Mrel eq (ind_set_fitness o v) (ind_set_fitness o v').
  Proof.
    intros Hv. eapply r_bind; [apply r_load|]. intros i j H. pose proof (frel_class _ _ (proj2 H)) as K. unfold set_fitness.
    rewrite (proj1 (proj2 H)). destruct (ft_class (i_fit i)); try congruence; cbn [fst snd];
      (apply r_bind_eq; [apply r_store; revert H; irels; apply frel_value; assumption|intros _; apply r_lift]).
  Qed.

  Lemma s_assign : forall l rs rs', Forall2 rrel rs rs' -> Mrel eq (assign_results l rs) (assign_results l rs').
  Proof.
    induction l as [|o l IH]; intros rs rs' F; [cbn; apply r_ret_eq|]. destruct F as [|r r' rs rs' Hr F]; [cbn; apply r_ret_eq|]. cbn [assign_results].
    apply (r_bind _ vrel).
    - destruct r as [v|e], r' as [v'|e']; cbn in Hr; try contradiction; [apply r_ret; apply Hr|subst e'; apply r_raise].
    - intros v v' Hv. apply r_bind_eq; [apply s_set_fitness; exact Hv|]. intros _. apply IH. exact F.
  Qed.

  Lemma s_best_scan l : self (best_scan l).
  Proof. destruct l; [apply r_raise|]. apply s_scan. Qed.

  Lemma s_evaluate alive l : Mrel eq (evaluate_inds ev1 sched ByMap alive l) (evaluate_inds ev2 sched ByMap alive l).
  Proof.
    unfold evaluate_inds. apply r_bind_eq.
    - apply r_mapM_eq. intros o. eapply r_bind; [apply r_load|]. intros i j H. apply r_ret. apply (irel_fields _ _ H).
    - intros gs. apply (r_bind _ (Forall2 rrel)).
      + unfold executor_map. destruct gs as [|g gs]; [apply r_ret; constructor|]. destruct alive; [|apply r_raise]. apply r_ret.
        generalize (seq 0 (length (g :: gs))). intros is. induction is as [|i is IH]; cbn [map]; constructor; auto.
        apply result_same. apply completed_same.
      + intros rs rs' F. apply r_bind_eq; [apply s_assign; exact F|]. intros _. apply s_best_scan.
  Qed.

  Lemma s_evaluate_population alive p q : Forall2 subrel p q -> Mrel eq (evaluate_population ev1 sched ByMap alive p) (evaluate_population ev2 sched ByMap alive q).
  Proof.
    intros F. destruct F as [|s t p q Hs F]; [apply r_raise|]. destruct F; [|apply r_raise]. cbn. rewrite (subrel_of _ _ Hs). apply s_evaluate.
  Qed.

  (** ** The algorithm *)

  Definition user_checks (l : list checker) : Prop := Forall (fun c => match c with CkUser f _ => value_blind f | _ => False end) l.

  Record arel (a b : algo) : Prop := mkArel {
    ar_pop : Forall2 subrel (a_pop a) (a_pop b);
    ar_max : a_max_gen a = a_max_gen b;
    ar_checkers : a_checkers a = a_checkers b;
    ar_user : user_checks (a_checkers a);
    ar_seed : a_random_seed a = a_random_seed b;
    ar_gseed : a_gen_seed a = a_gen_seed b;
    ar_map : a_method a = ByMap;
    ar_method : a_method a = a_method b;
    ar_alive : a_alive a = a_alive b;
    ar_run : a_best_run a = a_best_run b;
    ar_gen : a_best_gen a = a_best_gen b;
    ar_worst : a_worst_gen a = a_worst_gen b;
    ar_num : a_gen_num a = a_gen_num b;
    ar_final : a_final a = a_final b;
    ar_stats : a_stats a = a_stats b;
    ar_trace : Forall2 event_alike (a_trace a) (a_trace b)
  }.

  Definition srel (s t : algo * world) : Prop := arel (fst s) (fst t) /\ wrel (snd s) (snd t).
  Local Notation Arel := (rel srel).

  Lemma a_lift {X Y} (Q : X -> Y -> Prop) m1 m2 : Mrel Q m1 m2 -> Arel Q (liftM m1) (liftM m2).
  Proof.
    intros H [a w] [b v] [Ha Hw]. cbn in Ha, Hw. specialize (H w v Hw). unfold liftM. cbn.
    destruct (m1 w) as [[x|e] w'], (m2 v) as [[y|e'] v']; try contradiction; destruct H; (split; [assumption|split; assumption]).
  Qed.

  Lemma a_get {Y Y'} (Q : Y -> Y' -> Prop) k1 k2 : (forall a b, arel a b -> Arel Q (k1 a) (k2 b)) -> Arel Q (bind algo_get k1) (bind algo_get k2).
  Proof. intros H. apply (r_bind _ arel); [|exact H]. intros s t Hst. cbn. split; [apply Hst|exact Hst]. Qed.

  Lemma a_mod f1 f2 : (forall a b, arel a b -> arel (f1 a) (f2 b)) -> Arel eq (algo_mod f1) (algo_mod f2).
  Proof. intros H s t Hst. cbn. split; [reflexivity|]. split; [apply H; apply Hst|apply Hst]. Qed.

  Lemma event_same e : event_alike e e.
  Proof. destruct e; cbn; auto. repeat split. destruct seen; cbn; auto. split; [|reflexivity]. destruct i; reflexivity. Qed.

  Lemma ar_add e e' a b : event_alike e e' -> arel a b -> arel (add_trace e a) (add_trace e' b).
  Proof. intros He []. constructor; cbn; auto. apply Forall2_app; auto. Qed.

  Ltac ars := intros ? ? []; constructor; cbn; auto; try congruence.

  Lemma a_trace_ev e : Arel eq (algo_mod (add_trace e)) (algo_mod (add_trace e)).
  Proof. apply a_mod. intros. apply ar_add; [apply event_same|assumption]. Qed.

  Lemma irel_alike i j : irel i j -> alike i j.
  Proof. intros [E (_ & _ & H & _)]. split; [exact E|symmetry; exact H]. Qed.

  Lemma a_publish name : Arel eq (publish name) (publish name).
  Proof.
    intros [a w] [b v] [Ha Hw]. cbn in Ha, Hw. unfold publish. cbn. split; [reflexivity|]. split; [|exact Hw]. apply ar_add; [|exact Ha].
    destruct Ha. cbn. rewrite ar_run0, ar_num0. repeat split. destruct (a_best_run b) as [o|]; cbn; [|exact I].
    pose proof (Forall2_nth_both _ _ _ o (proj1 Hw)) as Ho. destruct (nth_error (w_heap w) o), (nth_error (w_heap v) o); try contradiction; cbn; auto.
    apply irel_alike. exact Ho.
  Qed.

  Lemma a_seed s : Arel eq (seed_generators s) (seed_generators s).
  Proof. apply r_bind_eq; [apply a_lift, r_liftR|]. intros _. apply a_trace_ev. Qed.

  Lemma inds_same p q : Forall2 subrel p q -> flat_map inds_of q = flat_map inds_of p.
  Proof. intros F. induction F; cbn; [reflexivity|]. rewrite (subrel_of x y); auto. congruence. Qed.

  Lemma a_act : Arel eq (act_evaluator ev1 sched) (act_evaluator ev2 sched).
  Proof.
    apply a_get. intros a b H. apply r_bind_eq.
    - apply a_lift. rewrite <- (ar_method _ _ H), (ar_map _ _ H), (ar_alive _ _ H). apply s_evaluate_population. apply (ar_pop _ _ H).
    - intros o. rewrite (inds_same _ _ (ar_pop _ _ H)). apply r_bind_eq; [apply a_trace_ev|]. intros _. apply r_ret_eq.
  Qed.

  Lemma a_set_pop p q : Forall2 subrel p q -> Arel eq (algo_mod (set_pop p)) (algo_mod (set_pop q)).
  Proof. intros F. apply a_mod. ars. Qed.

  Lemma a_initialize n : Arel eq (initialize ev1 sched n) (initialize ev2 sched n).
  Proof.
    apply a_get. intros a b H. rewrite (ar_seed _ _ H). apply r_bind_eq; [apply a_seed|]. intros _.
    apply (r_bind _ (Forall2 subrel)).
    { apply a_lift. eapply r_mapM; [apply (ar_pop _ _ H)|]. apply s_create_sub. }
    intros p q F. apply r_bind_eq; [apply a_set_pop; exact F|]. intros _. apply r_bind_eq; [apply a_act|]. intros best.
    apply r_bind_eq; [apply a_mod; ars|]. intros _. apply r_bind_eq; [apply a_publish|]. intros _. apply a_mod. ars.
  Qed.

  Lemma subs_alike p q : Forall2 subrel p q -> Forall2 sub_alike p q.
  Proof. intros F. induction F as [|s t p q [E _] F IH]; constructor; auto. Qed.

  Lemma heaps_alike w v : wrel w v -> Forall2 alike (w_heap w) (w_heap v).
  Proof. intros [F _]. induction F; constructor; auto using irel_alike. Qed.

  Lemma s_checkers p q best gen l : Forall2 sub_alike p q -> user_checks l ->
    Mrel (fun x y => x = y /\ user_checks (snd x)) (run_checkers p best gen l) (run_checkers q best gen l).
  Proof.
    intros Hp U. unfold run_checkers. apply (r_bind _ (fun x y => x = y /\ user_checks (map snd x))).
    - induction l as [|c l IH]; cbn [mapM]; [apply r_ret; split; [reflexivity|constructor]|]. inversion U as [|c' l' Uc Ul]; subst.
      destruct c as [| |f m]; try contradiction. apply (r_bind _ (fun x y => x = y /\ exists m', snd x = CkUser f m')).
      + intros w v Hw. cbn [run_checker]. unfold bind, get, lift, ret. rewrite (Uc m p q (w_heap w) (w_heap v) best gen Hp (heaps_alike _ _ Hw)).
        destruct (f m q (w_heap v) best gen) as [[b m']|e]; cbn; eauto.
      + intros x y [<- (m' & Ex)]. eapply r_bind; [apply IH; exact Ul|]. intros rs rs' [<- Hrs]. apply r_ret. split; [reflexivity|]. cbn.
        constructor; [rewrite Ex; exact Uc|exact Hrs].
    - intros x y [<- Hx]. apply r_ret. cbn. auto.
  Qed.

  Lemma a_terminate : Arel eq (should_terminate) (should_terminate).
  Proof.
    apply a_get. intros a b H. rewrite <- (ar_run _ _ H). destruct (a_best_run a) as [best|]; [|apply r_raise].
    rewrite <- (ar_num _ _ H), <- (ar_checkers _ _ H). eapply r_bind; [apply a_lift; apply s_checkers; [apply subs_alike, (ar_pop _ _ H)|apply (ar_user _ _ H)]|].
    intros r r' [<- U]. apply r_bind_eq; [apply a_mod; ars|]. intros _. apply r_bind_eq; [apply a_trace_ev|]. intros _. apply r_ret_eq.
  Qed.

  Lemma a_update_gen g : Arel eq (update_gen g) (update_gen g).
  Proof.
    apply a_get. intros a b H. rewrite (inds_same _ _ (ar_pop _ _ H)). apply a_lift. apply r_iterM. intros o. apply r_modify. irels.
  Qed.

  Lemma a_iteration : Arel eq (generation_iteration ev1 sched) (generation_iteration ev2 sched).
  Proof.
    apply a_get. intros a b H. apply (r_bind _ (Forall2 subrel)).
    { apply a_lift. eapply r_mapM; [apply (ar_pop _ _ H)|]. apply s_breed_sub. }
    intros p q F. apply r_bind_eq; [apply a_set_pop; exact F|]. intros _. apply r_bind_eq; [apply a_trace_ev|]. intros _.
    apply r_bind_eq; [apply a_act|]. intros best. apply r_bind_eq; [apply a_mod; ars|]. intros _. apply a_get. intros a' b' H'.
    rewrite <- (ar_run _ _ H'). apply r_bind_eq.
    { destruct (a_best_run a'); [apply a_lift; apply s_better|apply r_ret_eq]. }
    intros c. apply r_bind_eq; [destruct c; [apply a_mod; ars|apply r_ret_eq]|]. intros _.
    destruct (ar_pop _ _ H') as [|s t p' q' Hs _]; [apply r_raise|]. apply r_bind_eq; [apply a_lift; apply s_worst; exact Hs|].
    intros w. apply a_mod. ars.
  Qed.

  Lemma a_main : forall todo gen, Arel eq (main_loop (generation_iteration ev1 sched) todo gen) (main_loop (generation_iteration ev2 sched) todo gen).
  Proof.
    induction todo as [|todo IH]; intros gen; cbn [main_loop]; [apply r_ret_eq|].
    apply r_bind_eq; [apply a_mod; ars|]. intros _. apply r_bind_eq; [apply a_update_gen|]. intros _. apply a_get. intros a b H.
    rewrite <- (ar_gseed _ _ H). apply r_bind_eq; [apply a_seed|]. intros _. apply r_bind_eq; [apply a_mod; ars|]. intros _.
    apply r_bind_eq; [apply a_iteration|]. intros _. apply r_bind_eq; [apply a_terminate|]. intros [|].
    - apply r_bind_eq; [apply a_mod; ars|]. intros _. apply a_publish.
    - apply r_bind_eq; [apply a_publish|]. intros _. apply IH.
  Qed.

  Lemma a_evolve n : Arel eq (evolve ev1 sched n) (evolve ev2 sched n).
  Proof.
    apply r_bind_eq; [apply a_initialize|]. intros _. apply r_bind_eq; [apply a_terminate|]. intros stop. apply r_bind_eq.
    { destruct stop; [apply r_bind_eq; [apply a_mod; ars|]; intros _; apply a_publish|]. apply a_get. intros a b H. rewrite (ar_max _ _ H). apply a_main. }
    intros _. apply r_bind_eq; [apply a_publish|]. intros _. apply r_bind_eq; [apply a_mod; ars|]. intros _. apply a_get. intros a b H.
    rewrite (ar_run _ _ H). destruct (a_best_run b); [|apply r_raise]. eapply r_bind; [apply a_lift; apply r_load|].
    intros i j Hij. unfold show. replace (i_genome j) with (i_genome i) by apply (irel_fields _ _ Hij). apply r_lift.
  Qed.
End Order.

(** The statement. *)
Theorem order_only flip ev1 ev2 sched n a w : same_ranking flip ev1 ev2 -> by_comparison a -> Forall no_value (w_heap w) ->
  run_alike (evolve ev1 sched n (a, w)) (evolve ev2 sched n (turn_algo flip a, turn_world flip w)).
Proof.
  intros HR (HM & HS & HC) HV.
  assert (H : srel flip ev1 ev2 (a, w) (turn_algo flip a, turn_world flip w)).
  { split; cbn.
    - destruct a; constructor; cbn in *; auto.
      + clear - HS. induction a_pop as [|s l IH]; cbn; constructor.
        * destruct (HS s (or_introl eq_refl)) as ((b & Hb) & Hc & Hs). split; [reflexivity|]. cbn. split; [|auto]. exists b. rewrite Hb. auto.
        * apply IH. intros t Ht. apply HS. right. exact Ht.
      + clear. induction a_trace; constructor; auto using event_same.
    - split; [|auto]. cbn. induction HV as [|i l (U & V & b & Hb) HV IH]; cbn; constructor; [|exact IH].
      apply irel_intro; try reflexivity. cbn. repeat split; cbn; auto; [|rewrite V; exact I]. exists b. rewrite Hb. auto. }
  pose proof (a_evolve flip ev1 ev2 HR sched n _ _ H) as HE.
  destruct (evolve ev1 sched n (a, w)) as [r1 [a1 w1]], (evolve ev2 sched n (turn_algo flip a, turn_world flip w)) as [r2 [a2 w2]].
  assert (HQ : r1 = r2 /\ srel flip ev1 ev2 (a1, w1) (a2, w2)).
  { destruct r1 as [[]|e1], r2 as [[]|e2]; try contradiction; destruct HE as [E HE]; subst; auto. }
  destruct HQ as [-> [HA (H1 & H2 & H3)]]. cbn in HA, H1, H2, H3. destruct HA. unfold run_alike. repeat split; auto.
  - clear - H1. induction H1; constructor; auto. eapply irel_alike. eassumption.
  - clear - ar_pop0. induction ar_pop0 as [|s t p q Hs F IH]; cbn; [reflexivity|]. f_equal; [|exact IH]. rewrite (proj1 Hs). reflexivity.
Qed.

(** Negated values. *)
Lemma nlt_neg x y : is_nan x = false -> is_nan y = false -> nlt (nneg x) (nneg y) = nlt y x.
Proof.
  destruct x as [p| | |], y as [q| | |]; intros; try discriminate; try reflexivity. cbn. unfold Qlt_b. f_equal.
  apply Bool.eq_iff_eq_true. rewrite !Qle_bool_iff. split; intros H1.
  - apply Qopp_le_compat in H1. rewrite !Qopp_involutive in H1. exact H1.
  - apply Qopp_le_compat. exact H1.
Qed.

Lemma negated_ranking ev : gives_numbers ev -> same_ranking true ev (negated ev).
Proof.
  intros HG. unfold negated. split.
  - intros g. destruct (ev g) as [v|e] eqn:E; [left|right; eauto]. destruct (HG _ _ E) as (x & -> & Hx). exists x, (nneg x).
    repeat split; destruct x; try discriminate; intros [=].
  - intros g h x x' y y' E1 E2 E3 E4. rewrite E1 in E3. rewrite E2 in E4. injection E3 as <-. injection E4 as <-.
    destruct (HG _ _ E1) as (? & [= <-] & H1). destruct (HG _ _ E2) as (? & [= <-] & H2). apply nlt_neg; assumption.
Qed.

Theorem negated_run ev sched n a w : gives_numbers ev -> by_comparison a -> Forall no_value (w_heap w) ->
  run_alike (evolve ev sched n (a, w)) (evolve (negated ev) sched n (turn_algo true a, turn_world true w)).
Proof. intros HG. apply order_only. apply negated_ranking. exact HG. Qed.
