(** Proofs about the application of one genetic operator (C44). *)
From Coq Require Import Lqa.
From Verif.Proofs Require Export PubP VecFinalP BreedP.
From Verif.Spec Require Export PubSpec.
From Verif.Model Require Import Tree World Operators.
Open Scope nat_scope.
Open Scope list_scope.

Lemma chance w : exists q g, random_unit (w_rng w) = (Ok (Fin q), g) /\ (0 <= q)%Q /\ (q < 1)%Q.
Proof. apply random_unit_spec. Qed.

Lemma skipped op inds w u g : random_unit (w_rng w) = (Ok u, g) -> nle u (op_prob op) = false ->
  apply_operator op inds w = (Ok inds, mkWorld (w_heap w) (w_next_id w) g).
Proof.
  intros E N. unfold apply_operator, with_probability. rewrite (bind_eq_ok _ _ _ _ _ (liftR_eq _ _ _ _ E)). rewrite N. reflexivity.
Qed.

(** What an operator does to the attributes of an individual, apart from resetting the fitness. *)
Record meta (names : list string) (ids : list Z) (i j : ind) : Prop := {
  mt_fitness : ft_evaluated (i_fit i) = false -> ft_evaluated (i_fit j) = false;
  mt_applied : i_applied j = i_applied i ++ names;
  mt_parents : i_parents j = i_parents i ++ (if i_update_parents i then concat (map (fun _ => ids) names) else []);
  mt_same : i_id j = i_id i /\ i_gen j = i_gen i /\ i_cloned_from j = i_cloned_from i /\
            i_selected_by j = i_selected_by i /\ i_update_parents j = i_update_parents i
}.

Lemma meta_same ids i j : (ft_evaluated (i_fit i) = false -> ft_evaluated (i_fit j) = false) ->
  i_applied j = i_applied i -> i_parents j = i_parents i ->
  i_id j = i_id i /\ i_gen j = i_gen i /\ i_cloned_from j = i_cloned_from i /\
  i_selected_by j = i_selected_by i /\ i_update_parents j = i_update_parents i -> meta [] ids i j.
Proof.
  intros A B C D. constructor; auto.
  - rewrite app_nil_r. exact B.
  - rewrite C. destruct (i_update_parents i); simpl; rewrite app_nil_r; reflexivity.
Qed.

Lemma meta_refl ids i : meta [] ids i i.
Proof. apply meta_same; auto. Qed.

Lemma meta_trans n1 n2 ids i j k : meta n1 ids i j -> meta n2 ids j k -> meta (n1 ++ n2) ids i k.
Proof.
  intros [A B C (D1 & D2 & D3 & D4 & D5)] [A' B' C' (E1 & E2 & E3 & E4 & E5)]. constructor; auto.
  - rewrite B', B, app_assoc. reflexivity.
  - rewrite C', C, D5. destruct (i_update_parents i); simpl; rewrite ?app_nil_r; [|reflexivity].
    rewrite map_app, concat_app, app_assoc. reflexivity.
  - repeat split; congruence.
Qed.

Definition quietly (w w' : world) : Prop :=
  forall o i, at_ w o = Some i -> exists j, at_ w' o = Some j /\ meta [] [] i j.
Lemma meta_ids ids ids' i j : meta [] ids i j -> meta [] ids' i j.
Proof. intros [A B C D]. constructor; auto. Qed.
Global Instance quietly_pre : PreOrder quietly.
Proof.
  split.
  - intros w o i H. exists i. split; [exact H|apply meta_refl].
  - intros a b c H1 H2 o i H. destruct (H1 o i H) as (j & Hj & M). destruct (H2 o j Hj) as (k & Hk & N).
    exists k. split; [exact Hk|]. exact (meta_trans [] [] [] i j k M N).
Qed.

Lemma q_ext w w' : ext w w' -> quietly w w'.
Proof. intros E o i H. exists i. split; [eapply ext_at; eauto|apply meta_refl]. Qed.
Lemma q_rng w g : quietly w (mkWorld (w_heap w) (w_next_id w) g).
Proof. apply q_ext. apply ext_same. reflexivity. Qed.
Lemma q_clone o : steps quietly (clone o).
Proof.
  intros w. destruct (at_ w o) as [i|] eqn:E.
  - rewrite (clone_at _ _ _ E). simpl. apply q_ext. eexists. reflexivity.
  - unfold clone, bind, load. unfold at_ in E. rewrite E. reflexivity.
Qed.
Lemma q_put w o i j : at_ w o = Some i -> meta [] [] i j -> quietly w (put_at w o j).
Proof.
  intros H Hm p k Hk. destruct (Nat.eq_dec o p) as [<-|Hn].
  - exists j. split; [eapply at_put_same; eauto|]. congruence.
  - exists k. rewrite at_put_other by exact Hn. split; [exact Hk|apply meta_refl].
Qed.
Lemma q_modify o f : (forall i, meta [] [] i (f i)) -> steps quietly (modify o f).
Proof.
  intros Hf w. destruct (at_ w o) as [i|] eqn:E.
  - rewrite (modify_at _ _ _ _ E). simpl. eapply q_put; eauto.
  - unfold modify, bind, load. unfold at_ in E. rewrite E. reflexivity.
Qed.
Lemma q_genome o g : True -> steps quietly (put_genome o g).
Proof. intros _. apply q_modify. intros i. apply meta_same; auto. Qed.

Lemma reset_unevaluated f : ft_evaluated (set_not_evaluated f) = false.
Proof. unfold set_not_evaluated. destruct (ft_class f); reflexivity. Qed.

Lemma resets_quiet inds : forall w w', iterM set_fitness_not_evaluated inds w = (Ok tt, w') ->
  quietly w w' /\ forall o, In o inds -> exists j, at_ w' o = Some j /\ ft_evaluated (i_fit j) = false.
Proof.
  induction inds as [|o inds IH]; intros w w' H; simpl in H.
  - mr H. split; [reflexivity|intros o []].
  - mb H as x w1 E. destruct (IH _ _ H) as [Q U]. unfold set_fitness_not_evaluated in E.
    destruct (at_ w o) as [i|] eqn:Ei.
    2:{ unfold modify, bind, load in E. unfold at_ in Ei. rewrite Ei in E. discriminate. }
    rewrite (modify_at _ _ _ _ Ei) in E. injection E as <- <-.
    assert (Q1 : quietly w (put_at w o (set_fit (set_not_evaluated (i_fit i)) i))).
    { eapply q_put; [exact Ei|]. apply meta_same; auto. intros _. simpl. apply reset_unevaluated. }
    split; [etransitivity; eauto|]. intros p [<-|Hp]; [|auto].
    destruct (Q o (set_fit (set_not_evaluated (i_fit i)) i)) as (j & Hj & Mj); [eapply at_put_same; eauto|].
    exists j. split; [exact Hj|]. apply (mt_fitness _ _ _ _ Mj). apply reset_unevaluated.
Qed.

Lemma ids_quiet w w' inds l : (forall o i, In o inds -> at_ w o = Some i -> exists j, at_ w' o = Some j /\ i_id j = i_id i) ->
  have_ids w inds l -> have_ids w' inds l.
Proof.
  intros Q H. induction H as [|o id inds l (i & Hi & E) H IH]; constructor.
  - destruct (Q o i) as (j & Hj & Ej); [simpl; auto|exact Hi|]. exists j. split; [exact Hj|congruence].
  - apply IH. intros p k Hp. apply Q. simpl. auto.
Qed.

Lemma load_ids_are inds : forall l w, have_ids w inds l -> mapM (fun p => x <- load p ;; ret (i_id x)) inds w = (Ok l, w).
Proof.
  induction inds as [|o inds IH]; intros l w H; inversion H as [|? ? ? ? (i & Hi & E) H1]; subst; [reflexivity|].
  simpl. rewrite (bind_eq_ok _ _ _ (i_id i) w). 2:{ unfold bind. rewrite (load_at _ _ _ Hi). reflexivity. }
  rewrite (bind_eq_ok _ _ _ _ _ (IH _ _ H1)). reflexivity.
Qed.

Lemma list_set_twice {A} (l : list A) : forall n x y, list_set (list_set l n x) n y = list_set l n y.
Proof. induction l as [|a l IH]; intros [|n] x y; simpl; congruence. Qed.

Lemma record_one name inputs ids o w i : have_ids w inputs ids -> at_ w o = Some i ->
  exists j, record_applied name inputs o w = (Ok tt, put_at w o j) /\ meta [name] ids i j.
Proof.
  intros Hids Hi. unfold record_applied. rewrite (bind_eq_ok _ _ _ _ _ (load_at _ _ _ Hi)).
  rewrite (bind_eq_ok _ _ _ _ _ (store_at _ _ _ _ Hi)).
  destruct (i_update_parents i) eqn:Eu.
  - rewrite (bind_eq_ok _ _ _ ids (put_at w o (add_applied name i))).
    + erewrite modify_at by (eapply at_put_same; eauto).
      exists (add_parents ids (add_applied name i)). split.
      * f_equal. unfold put_at. simpl. rewrite list_set_twice. reflexivity.
      * constructor; auto. rewrite Eu. simpl. rewrite app_nil_r. reflexivity.
    + apply load_ids_are. eapply ids_quiet; [|exact Hids]. intros p k _ Hk. destruct (Nat.eq_dec o p) as [<-|Hn].
      * eexists. split; [eapply at_put_same; eauto|]. simpl. congruence.
      * exists k. rewrite at_put_other by exact Hn. auto.
  - exists (add_applied name i). split; [reflexivity|]. constructor; auto. rewrite Eu, app_nil_r. reflexivity.
Qed.

Lemma records_meta name inputs ids l : NoDup l -> forall w w', have_ids w inputs ids ->
  iterM (record_applied name inputs) l w = (Ok tt, w') ->
  forall o i, at_ w o = Some i -> exists j, at_ w' o = Some j /\
    (In o l -> meta [name] ids i j) /\ (~ In o l -> j = i).
Proof.
  induction 1 as [|x l Hx Hl IH]; intros w w' Hids H o i Hi; simpl in H.
  - mr H. exists i. split; [exact Hi|]. split; [intros []|reflexivity].
  - mb H as u w1 E. destruct (at_ w x) as [k|] eqn:Ek.
    2:{ unfold record_applied, bind, load in E. unfold at_ in Ek. rewrite Ek in E. discriminate. }
    destruct (record_one name inputs ids x w k Hids Ek) as (j & E' & Mj). rewrite E' in E. injection E as <- <-.
    assert (Hids' : have_ids (put_at w x j) inputs ids).
    { eapply ids_quiet; [|exact Hids]. intros p q _ Hq. destruct (Nat.eq_dec x p) as [<-|Hn].
      - exists j. split; [eapply at_put_same; eauto|]. destruct (mt_same _ _ _ _ Mj) as [D _]. congruence.
      - exists q. rewrite at_put_other by exact Hn. auto. }
    destruct (Nat.eq_dec x o) as [<-|Hn].
    + replace k with i in * by congruence.
      destruct (IH _ _ Hids' H x j) as (r & Hr & _ & Hr2); [eapply at_put_same; eauto|]. rewrite (Hr2 Hx) in Hr.
      exists j. split; [exact Hr|]. split; [auto|]. intros N. exfalso. apply N. simpl. auto.
    + destruct (IH _ _ Hids' H o i) as (r & Hr & Hr1 & Hr2); [rewrite at_put_other by exact Hn; exact Hi|].
      exists r. split; [exact Hr|]. split.
      * intros [F|F]; [congruence|auto].
      * intros N. apply Hr2. intros F. apply N. simpl. auto.
Qed.

(** The general wrapper: whatever [apply] records, the wrapper resets the fitness before and records one more name after. *)
Lemma wp_meta name p apply inds ids (names : list string -> Prop) w r w' u g :
  NoDup inds -> have_ids w inds ids ->
  (forall w l w', apply inds w = (Ok (Some l), w') -> l = inds) ->
  (forall w w', have_ids w inds ids -> apply inds w = (Ok (Some inds), w') -> exists ns, names ns /\
     forall o i, In o inds -> at_ w o = Some i -> exists j, at_ w' o = Some j /\ meta ns ids i j) ->
  random_unit (w_rng w) = (Ok u, g) -> nle u p = true -> with_probability name p apply inds w = (Ok r, w') ->
  r = inds /\ exists ns, names ns /\
  forall o i, In o inds -> at_ w o = Some i -> exists j, at_ w' o = Some j /\ went_through (ns ++ [name]) ids i j.
Proof.
  intros Hn Hids Hs Ha Eu Np H. unfold with_probability in H. rewrite (bind_eq_ok _ _ _ _ _ (liftR_eq _ _ _ _ Eu)), Np in H.
  set (w0 := mkWorld (w_heap w) (w_next_id w) g) in *.
  mb H as t w1 E1. destruct t. mb H as l w2 E2. destruct l as [l|]; [|discriminate].
  assert (l = inds) by (eapply Hs; eauto). subst l. mb H as t w3 E3. destruct t. unfold ret in H. injection H as <- <-. split; [reflexivity|].
  destruct (resets_quiet _ _ _ E1) as [Q1 U1].
  assert (Hids1 : have_ids w1 inds ids).
  { eapply ids_quiet; [|exact Hids]. intros p0 i _ Hi. destruct (Q1 p0 i Hi) as (j & Hj & Mj). exists j.
    split; [exact Hj|]. apply (mt_same _ _ _ _ Mj). }
  destruct (Ha _ _ Hids1 E2) as (ns & Hns & Hm). exists ns. split; [exact Hns|].
  assert (Hids2 : have_ids w2 inds ids).
  { eapply ids_quiet; [|exact Hids1]. intros p0 i Hp Hi. destruct (Hm p0 i Hp Hi) as (j & Hj & Mj). exists j.
    split; [exact Hj|]. apply (mt_same _ _ _ _ Mj). }
  intros o i Ho Hi. destruct (Q1 o i Hi) as (i1 & Hi1 & M1). destruct (Hm o i1 Ho Hi1) as (i2 & Hi2 & M2).
  destruct (records_meta _ _ _ _ Hn _ _ Hids2 E3 o i2 Hi2) as (j & Hj & Hj1 & _). exists j. split; [exact Hj|].
  specialize (Hj1 Ho). apply (meta_ids _ ids) in M1. destruct (U1 o Ho) as (k & Hk & Uk). replace k with i1 in * by congruence.
  pose proof (meta_trans _ _ _ _ _ _ M1 (meta_trans _ _ _ _ _ _ M2 Hj1)) as [A B C D].
  constructor; auto. apply (mt_fitness _ _ _ _ Hj1), (mt_fitness _ _ _ _ M2). exact Uk.
Qed.

(** Attempts only change genomes. *)
Lemma all_t (l : list oid) : Forall (fun _ => True) l.
Proof. apply Forall_forall. auto. Qed.

Lemma q_vec_attempt m n inds : steps quietly (vec_attempt m n inds).
Proof. apply (a_vec_attempt quietly (fun _ => True) q_rng q_clone q_genome), all_t. Qed.

Lemma quiet_meta w w' inds ids : quietly w w' ->
  forall o i, In o inds -> at_ w o = Some i -> exists j, at_ w' o = Some j /\ meta [] ids i j.
Proof. intros Q o i _ Hi. destruct (Q o i Hi) as (j & Hj & M). exists j. split; [exact Hj|]. eapply meta_ids; eauto. Qed.

Lemma steps_ok {A} (m : M A) w x w' : steps quietly m -> m w = (Ok x, w') -> quietly w w'.
Proof. intros H E. specialize (H w). rewrite E in H. exact H. Qed.

Lemma q_failable {A} (att : M bool) (x : A) f n : steps quietly att -> steps quietly f ->
  steps quietly (failable_apply n (fun _ => ok <- att ;; ret (ok, x)) f).
Proof.
  intros Ha Hf. unfold failable_apply. generalize 0. induction n as [|n IH]; intros i; simpl; [exact Hf|].
  apply (st_bind quietly); [apply (st_bind quietly); [exact Ha|intros; apply (st_ret quietly)]|].
  intros r. destruct (fst r); [apply (st_ret quietly)|apply IH].
Qed.

Lemma q_plain m n k inds : steps quietly (vec_apply_plain m n k inds).
Proof. apply q_failable; [apply q_vec_attempt|apply (st_ret quietly)]. Qed.

Lemma kept_names w w' inds ids (P : list string -> Prop) : P [] -> quietly w w' -> exists ns, P ns /\
  forall o i, In o inds -> at_ w o = Some i -> exists j, at_ w' o = Some j /\ meta ns ids i j.
Proof. intros H Q. exists []. split; [exact H|]. apply quiet_meta. exact Q. Qed.

Lemma wt_meta names ids i j : went_through names ids i j -> meta names ids i j.
Proof. intros [A B C D]. constructor; auto. Qed.

(** The retries of a vector mutation, then its fallback. *)
Lemma vec_retries m n inds (f : M (option (list oid))) k : forall i w l w',
  failable_from (fun _ => ok <- vec_attempt m n inds ;; ret (ok, Some inds)) f i k w = (Ok (Some l), w') ->
  quietly w w' \/ exists w1, quietly w w1 /\ f w1 = (Ok (Some l), w').
Proof.
  induction k as [|k IH]; intros i w l w' H; simpl in H.
  - right. exists w. split; [reflexivity|exact H].
  - mb H as r w1 E. mb E as ok w2 E1. mr E. apply (steps_ok _ _ _ _ (q_vec_attempt m n inds)) in E1.
    destruct ok; simpl in H.
    + mr H. left. exact E1.
    + destruct (IH _ _ _ _ H) as [Q|(w3 & Q & F)]; [left|right; exists w3; split; [|exact F]]; etransitivity; eauto.
Qed.

Lemma fallback_names name p k m' n' inds ids w l w' : NoDup inds -> have_ids w inds ids -> name = vmut_name m' ->
  (r <- with_probability name p (vec_apply_plain m' n' k) inds ;; ret (Some r)) w = (Ok (Some l), w') ->
  exists ns, (ns = [] \/ ns = [name]) /\
  forall o i, In o inds -> at_ w o = Some i -> exists j, at_ w' o = Some j /\ meta ns ids i j.
Proof.
  intros Hn Hids _ H. mb H as r w1 E. unfold ret in H. injection H as -> <-. destruct (chance w) as (q & g & Eu & _).
  destruct (nle (Fin q) p) eqn:Np.
  - destruct (wp_meta name p (vec_apply_plain m' n' k) inds ids (fun ns => ns = []) w l w1 (Fin q) g) as (_ & ns & -> & F); auto.
    + intros v x v'. apply plain_same.
    + intros v v' Hv Ev. apply kept_names; [reflexivity|]. eapply steps_ok; [apply q_plain|exact Ev].
    + exists [name]. split; [auto|]. intros o i Ho Hi. destruct (F o i Ho Hi) as (j & Hj & Wj). exists j. split; [exact Hj|].
      apply wt_meta. exact Wj.
  - unfold with_probability in E. rewrite (bind_eq_ok _ _ _ _ _ (liftR_eq _ _ _ _ Eu)), Np in E. unfold ret in E. injection E as <- <-.
    exists []. split; [auto|]. apply quiet_meta. apply q_rng.
Qed.

Lemma op_apply_names op inds ids w w' : NoDup inds -> have_ids w inds ids -> op_apply op inds w = (Ok (Some inds), w') ->
  exists ns, recorded_names (op_kind op) (ns ++ [okind_name (op_kind op)]) /\
  forall o i, In o inds -> at_ w o = Some i -> exists j, at_ w' o = Some j /\ meta ns ids i j.
Proof.
  intros Hn Hids H. unfold op_apply in H.
  assert (S : forall k, recorded_names k ([] ++ [okind_name k])) by (intros; constructor).
  destruct (op_kind op) as [k|m n| |mn mx|mu sigma|] eqn:Ek.
  - mb H as l w1 E. mr H. apply kept_names; [apply S|]. eapply steps_ok; [|exact E].
    apply (a_kpoint quietly (fun _ => True) q_rng q_genome), all_t.
  - unfold vec_apply in H. destruct (vec_retries _ _ _ _ _ _ _ _ _ H) as [Q|(w1 & Q & F)]; [apply kept_names; [apply S|exact Q]|].
    assert (Hids1 : have_ids w1 inds ids).
    { eapply ids_quiet; [|exact Hids]. intros p i _ Hi. destruct (Q p i Hi) as (j & Hj & Mj). exists j.
      split; [exact Hj|]. apply (mt_same _ _ _ _ Mj). }
    assert (G : forall ns, (forall o i, In o inds -> at_ w1 o = Some i -> exists j, at_ w' o = Some j /\ meta ns ids i j) ->
                 forall o i, In o inds -> at_ w o = Some i -> exists j, at_ w' o = Some j /\ meta ns ids i j).
    { intros ns F1 o i Ho Hi. destruct (Q o i Hi) as (j & Hj & Mj). destruct (F1 o j Ho Hj) as (k & Hk & Mk).
      exists k. split; [exact Hk|]. apply (meta_ids _ ids) in Mj. exact (meta_trans [] ns ids i j k Mj Mk). }
    destruct m; try discriminate F; (eapply fallback_names in F; [|exact Hn|exact Hids1|reflexivity]);
      destruct F as (ns & [->| ->] & F); eexists; (split; [|apply G; exact F]); constructor.
  - apply kept_names; [apply S|]. eapply steps_ok; [|exact H]. apply q_failable; [|apply (st_ret quietly)].
    apply (a_xo quietly (fun _ => True) q_rng q_genome), all_t.
  - apply kept_names; [apply S|]. eapply steps_ok; [|exact H]. apply q_failable; [|apply (st_ret quietly)].
    apply (a_mut quietly (fun _ => True) q_rng q_genome), all_t.
  - apply kept_names; [apply S|]. eapply steps_ok; [|exact H]. apply q_failable; [|apply (st_ret quietly)].
    apply (a_erc quietly (fun _ => True) q_rng q_genome), all_t.
  - mr H. apply kept_names; [apply S|reflexivity].
Qed.

Lemma applied op inds ids w u g r w' : NoDup inds -> have_ids w inds ids ->
  random_unit (w_rng w) = (Ok u, g) -> nle u (op_prob op) = true -> apply_operator op inds w = (Ok r, w') ->
  r = inds /\ frame (fun o => In o inds) w w' /\ exists names, recorded_names (op_kind op) names /\
  forall o i, In o inds -> at_ w o = Some i -> exists j, at_ w' o = Some j /\ went_through names ids i j.
Proof.
  intros Hn Hids Eu Np H.
  assert (F : frame (fun o => In o inds) w w').
  { assert (S : steps (frame (fun o => In o inds)) (apply_operator op inds)) by (apply fr_apply; apply Forall_forall; auto).
    specialize (S w). rewrite H in S. exact S. }
  destruct (wp_meta (okind_name (op_kind op)) (op_prob op) (op_apply op) inds ids
              (fun ns => recorded_names (op_kind op) (ns ++ [okind_name (op_kind op)])) w r w' u g) as (-> & ns & Hr & G); auto.
  - intros v l v'. apply op_apply_same.
  - intros v v' Hv Ev. eapply op_apply_names; eauto.
  - split; [reflexivity|]. split; [exact F|]. eauto.
Qed.

Lemma chance_one p u g w : random_unit (w_rng w) = (Ok (Fin u), g) -> (1 <= p)%Q -> nle (Fin u) (Fin p) = true.
Proof.
  intros E H. destruct (chance w) as (q & g' & E' & _ & L). rewrite E in E'. injection E' as -> _.
  apply nle_fin. lra.
Qed.

Lemma chance_negative p u g w : random_unit (w_rng w) = (Ok (Fin u), g) -> (p < 0)%Q -> nle (Fin u) (Fin p) = false.
Proof.
  intros E H. destruct (chance w) as (q & g' & E' & L & _). rewrite E in E'. injection E' as -> _.
  destruct (nle (Fin q) (Fin p)) eqn:B; [|reflexivity]. apply nle_fin in B. lra.
Qed.

Lemma chance_zero u g w : random_unit (w_rng w) = (Ok (Fin u), g) -> (nle (Fin u) (Fin 0) = true <-> u == 0)%Q.
Proof.
  intros E. destruct (chance w) as (q & g' & E' & L & _). rewrite E in E'. injection E' as -> _.
  rewrite nle_fin. split; intros; lra.
Qed.
