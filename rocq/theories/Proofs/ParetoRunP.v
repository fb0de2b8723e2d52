(** Proofs about the Pareto front that is reported (C69). *)
From Coq Require Import Lia Permutation QArith.
From Verif.Proofs Require Export MooRunP.
From Verif.Model Require Import Num Fitness Tree World Nsga2.
Open Scope nat_scope.
Open Scope list_scope.

Lemma rank_number_one k : neq_num (rank_number (S k)) (Fin 1) = true <-> k = 0.
Proof.
  unfold rank_number, neq_num. rewrite Qeq_bool_iff. unfold Qeq. simpl. split; intros H; [lia|subst k; reflexivity].
Qed.

Lemma survivors_pareto w h v l size d w' : survivors w h v l size d w' -> forall x,
  (In x (pareto_front (w_heap w') d) <-> In x d /\ forall y, In y l -> ~ beats h v y x) /\
  (In x (pareto_front (w_heap w') d) <-> In x d /\ forall y, In y d -> ~ beats h v y x).
Proof.
  intros [L N O (m & Hr & _ & _ & Hall & Hin & _ & _)] x.
  assert (D : incl d l) by (intros y Hy; destruct (Hin y Hy) as (k & _ & [Hk _]); eapply left_in; eauto).
  assert (F : In x (pareto_front (w_heap w') d) <-> In x d /\ front h v l 0 x).
  { unfold pareto_front. rewrite filter_In. split; intros [Hx H]; (split; [exact Hx|]).
    - destruct (Hin x Hx) as (k & Hk & Fk). destruct (Hr k x Hk Fk) as (i & Hi & Er). unfold heap_field in H. unfold at_ in Hi.
      rewrite Hi, Er in H. apply rank_number_one in H. subst k. exact Fk.
    - destruct (Hin x Hx) as (k & Hk & Fk). assert (k = 0) by (eapply front_unique; eauto). subst k.
      destruct (Hr 0 x Hk Fk) as (i & Hi & Er). unfold heap_field. unfold at_ in Hi. rewrite Hi, Er. apply rank_number_one. reflexivity. }
  split; (split; [intros H; apply F in H; destruct H as [Hx [_ H]]; split; [exact Hx|intros y Hy; apply H; simpl; auto]|]).
  - intros [Hx H]. apply F. split; [exact Hx|]. split; [simpl; auto|exact H].
  - intros [Hx H]. apply F. split; [exact Hx|]. destruct (beaten_by_first h v l x (D x Hx)) as (y & Hy & [->|B]); [exact Hy|].
    exfalso. apply (H y); [|exact B]. destruct (Hin x Hx) as (k & Hk & Fk).
    assert (0 < k) by (eapply beats_rank; [exact B|exact Hy|exact Fk]). apply (Hall 0); [lia|exact Hy].
Qed.

Lemma select_pareto setorder w h v l n : measured w h v l -> NoDup l -> any_order setorder ->
  (if n =? 0 then length l / 2 else n) <= length l ->
  exists d w', nsga2_select setorder l n w = (Ok d, w') /\ forall x,
    (In x (pareto_front (w_heap w') d) <-> In x d /\ forall y, In y l -> ~ beats h v y x) /\
    (In x (pareto_front (w_heap w') d) <-> In x d /\ forall y, In y d -> ~ beats h v y x).
Proof.
  intros Hm Hn Ha Hs. destruct (nsga2_select_ok setorder w h v l n Hm Hn Ha Hs) as (d & w' & E & S). exists d, w'. split; [exact E|].
  intros x. eapply survivors_pareto; eauto.
Qed.

Section Pareto.
Variable ev : genome -> res fval.
Variable h : list bool.
Hypothesis EV : gives_objectives ev (length h).
Variable sched : nat -> list nat.
Hypothesis FAIR : fair sched.
Variable so : nat -> list nat -> list nat.
Hypothesis ANY : any_order so.

(** The values of the fitness function are those that are compared. *)
Lemma assessed_values w w' o i : assessed ev h w w' o -> at_ w o = Some i -> ev (i_genome i) = Ok (VList (values h (value_in w') o)).
Proof.
  intros (i' & j & qs & Hi & Hj & Gj & Ev & Lq & Ob) Hi'. assert (i' = i) by congruence. subst i'. rewrite Ev. do 2 f_equal.
  symmetry. unfold values. rewrite <- Lq. apply map_nth_values. intros k q Hk. f_equal. unfold value_in.
  rewrite Hj, (ob_value _ _ _ Ob), nth_error_map, Hk. reflexivity.
Qed.

Lemma generation_pareto a w u a' w' s : a_pop a = [s] -> a_method a = ByMap -> (forall o, In o (inds_of s) -> moo_at w h o) ->
  nsga2_generation ev sched so true (a, w) = (Ok u, (a', w')) ->
  exists s', a_pop a' = [s'] /\
    (forall x, In x (pareto_front (w_heap w') (inds_of s')) <-> In x (inds_of s') /\ forall y, In y (inds_of s') -> ~ outdoes ev h w' y w' x) /\
    (forall x y, In x (pareto_front (w_heap w') (inds_of s')) -> In y (inds_of s) -> ~ outdoes ev h w y w' x) /\
    (inds_of s <> [] -> pareto_front (w_heap w') (inds_of s') <> []).
Proof.
  intros Ep Hmt Hm H. destruct (generation_parts ev h EV sched FAIR so ANY a w u a' w' s Ep Hmt Hm H) as (s1 & w1 & w4 & d & [_ Ep' As Sv Inc Cl]).
  exists (with_inds s1 d). split; [exact Ep'|]. rewrite with_inds_of.
  pose proof (survivors_pareto _ _ _ _ _ _ _ Sv) as Pa.
  assert (Va : forall x i, In x (inds_of s1) -> at_ w' x = Some i -> ev (i_genome i) = Ok (VList (values h (value_in w4) x))).
  { intros x i Hx Hi. destruct (As x Hx) as (i1 & j & qs & Hi1 & Hj & Gj & R).
    destruct (sv_only _ _ _ _ _ _ _ Sv) as (_ & _ & _ & So). destruct (So x j Hj) as (c & r & Hj' & _). rewrite Hi in Hj'. injection Hj' as ->.
    cbn [i_genome set_fit]. rewrite Gj. apply (assessed_values w1); [|exact Hi1]. exists i1, j, qs. auto. }
  assert (At : forall x, In x (inds_of s1) -> exists i, at_ w' x = Some i).
  { intros x Hx. destruct (As x Hx) as (i1 & j & qs & Hi1 & Hj & R). destruct (sv_only _ _ _ _ _ _ _ Sv) as (_ & _ & _ & So).
    destruct (So x j Hj) as (c & r & Hj' & _). eauto. }
  assert (Be : forall x y, In x (inds_of s1) -> In y (inds_of s1) -> (outdoes ev h w' y w' x <-> beats h (value_in w4) y x)).
  { intros x y Hx Hy. split.
    - intros (i & j & va & vb & Hi & Hj & Ei & Ej & P). rewrite (Va y i Hy Hi) in Ei. rewrite (Va x j Hx Hj) in Ej.
      injection Ei as <-. injection Ej as <-. exact P.
    - intros P. destruct (At y Hy) as (i & Hi). destruct (At x Hx) as (j & Hj). exists i, j. do 2 eexists.
      split; [exact Hi|]. split; [exact Hj|]. split; [exact (Va y i Hy Hi)|]. split; [exact (Va x j Hx Hj)|exact P]. }
  split; [|split].
  - intros x. destruct (Pa x) as [_ P]. rewrite P. split; intros [Hx Q]; (split; [exact Hx|]); intros y Hy B; apply (Q y Hy); apply Be; auto.
  - intros x y Hx Hy (i & j & va & vb & Hi & Hj & Ei & Ej & P).
    destruct (Pa x) as [Q _]. apply Q in Hx. destruct Hx as [Hx Nb]. destruct (Cl y Hy) as (c & i0 & j0 & Hc & Hi0 & Hj0 & Eg).
    apply (Nb c Hc). assert (i0 = i) by congruence. subst i0. rewrite (Va x j (Inc x Hx) Hj) in Ej. injection Ej as <-.
    pose proof (assessed_values w1 w4 c j0 (As c Hc) Hj0) as E. rewrite Eg, Ei in E. injection E as ->. exact P.
  - intros Ne En. assert (exists x, In x d) as (x & Hx).
    { pose proof (sv_length _ _ _ _ _ _ _ Sv) as L. destruct d as [|x d']; [destruct (inds_of s); [congruence|discriminate]|exists x; simpl; auto]. }
    destruct (beaten_by_first h (value_in w4) (inds_of s1) x (Inc x Hx)) as (y & Fy & C).
    assert (Hy : In y d).
    { destruct C as [->|B]; [exact Hx|]. destruct Sv as [_ _ _ (m & _ & _ & _ & Hall & Hin & _ & _)]. destruct (Hin x Hx) as (k & Hk & Fk).
      assert (0 < k) by (eapply beats_rank; [exact B|exact Fy|exact Fk]). apply (Hall 0); [lia|exact Fy]. }
    destruct Fy as [_ Fy].
    destruct (Pa y) as [Q _]. assert (X : In y (pareto_front (w_heap w') d)) by (apply Q; split; [exact Hy|intros z Hz; apply Fy; simpl; auto]).
    rewrite En in X. destruct X.
Qed.
End Pareto.
