(** * The roots of typed trees. *)
From Coq Require Import Lia.
From Verif.Proofs Require Import Lib TreeP RunP TraceP EvoFinalP TreeOpP BreedP CompleteP ProgramP.
From Verif.Model Require Import Tree World Operators Evolution Base.
From Verif.Spec Require Import WorldSpec TreeSpec ShowSpec EvoSpec CompleteSpec RootSpec.
Open Scope nat_scope.
Open Scope list_scope.

Lemma same_refl n : same_symbol n n.
Proof. left. reflexivity. Qed.
Lemma same_trans a b c : same_symbol a b -> same_symbol b c -> same_symbol a c.
Proof.
  intros [->|(b0 & x & tg & b1 & x1 & tg1 & ty & -> & ->)] H; [exact H|]. right.
  destruct H as [->|(b2 & x2 & tg2 & b3 & x3 & tg3 & ty2 & E & ->)].
  - repeat eexists.
  - injection E as <- <- <- <-. repeat eexists.
Qed.
Lemma same_typed a b : same_symbol a b -> has_type a -> has_type b.
Proof. intros [->|(b0 & x & tg & b1 & x1 & tg1 & ty & -> & ->)] H; exact H. Qed.

Lemma rooted_gkeep w w' o n : gkeep w w' -> rooted w o n -> rooted w' o n.
Proof. intros K (i & t & l & A & E & N). destruct (K o i A) as (j & B & F). exists j, t, l. rewrite F. auto. Qed.

Lemma rooted_tree w o n t : rooted w o n -> tree_at w o t -> exists l, t_nodes t = n :: l.
Proof. intros (i & t' & l & A & E & N) (j & B & F). assert (t' = t) by congruence. subst. eauto. Qed.

Lemma load_tree_ok o w t w' : load_tree o w = (Ok t, w') -> tree_at w o t /\ w' = w.
Proof.
  unfold load_tree, bind, load. fold (at_ w o). destruct (at_ w o) as [i|] eqn:E; [|discriminate].
  destruct (i_genome i) as [|t'] eqn:G; [discriminate|]. unfold ret. intros H. injection H as <- <-. split; [exists i; auto|reflexivity].
Qed.

Section One.
  Variables (o : oid) (n : node).
  Hypothesis Hn : has_type n.

  (** [o] keeps the root [n]. *)
  Definition keeps (w w' : world) : Prop := rooted w o n -> rooted w' o n.
  Local Instance keeps_pre : PreOrder keeps.
  Proof. split; unfold keeps; [intros w|intros a b c]; auto. Qed.

  Lemma keeps_gkeep w w' : gkeep w w' -> keeps w w'.
  Proof. intros K. exact (rooted_gkeep _ _ _ _ K). Qed.

  (** The chosen subtree does not begin with the root. *)
  Definition avoids (p : oid) (s : list node) : Prop := p = o -> forall x l, s = x :: l -> x <> n.

  Lemma random_avoids t l nt s g g' : t_nodes t = n :: l -> random_subtree t nt g = (Ok (Some s), g') -> forall x r, s = x :: r -> x <> n.
  Proof.
    intros E H x r -> ->. unfold random_subtree in H. rewrite E in H.
    destruct (filter (subtree_candidate n nt) (n :: l)) as [|c cs] eqn:F; [discriminate|].
    mb H as y g1 E1. mb H as s0 g2 E2. unfold lift in E2. injection E2 as E2 _. mr H.
    assert (C : subtree_candidate n nt y = true).
    { assert (In y (c :: cs)) as Iy by (eapply choice_In; exact E1). rewrite <- F in Iy. apply filter_In in Iy. tauto. }
    destruct Hn as (a & Ha).
    assert (Ny : y <> n).
    { intros ->. unfold subtree_candidate in C. rewrite Ha in C. assert (node_eqb n n = true) as R by (apply node_eqb_iff; reflexivity).
      rewrite R in C. cbn in C. rewrite !andb_false_r in C. discriminate. }
    unfold get_subtree_by_root in E2. rewrite E in E2. destruct (find_index (fun z => node_eqb z y) (n :: l)) as [i|] eqn:Fi; [|discriminate].
    assert (Iy : In y (n :: l)).
    { assert (In y (filter (subtree_candidate n nt) (n :: l))) as Iy by (rewrite F; eapply choice_In; exact E1). apply filter_In in Iy. tauto. }
    destruct (find_index_first y _ Iy) as (i' & Fi' & Ni & _). rewrite Fi' in Fi. injection Fi as ->.
    destruct i as [|i]; [cbn in Ni; congruence|].
    destruct (find_subtree_end _ _ _ _) as [rr|] eqn:Fe in E2; [|discriminate]. cbn [rbind] in E2. injection E2 as E2.
    pose proof (nth_error_lt _ _ _ Ni) as Hi.
    apply (f_equal (fun z => nth_error z 0)) in E2. unfold py_slice in E2. change (Z.pos (Pos.of_succ_nat i)) with (Z.of_nat (S i)) in E2. rewrite VectorP.py_clip_nat in E2.
    rewrite nth_error_firstn, nth_error_skipn in E2.
    replace (Nat.min (length (n :: l)) (S i) + 0) with (S i) in E2 by lia.
    destruct (0 <? _); [|discriminate]. rewrite Ni in E2. cbn in E2. congruence.
  Qed.

  Lemma pick_avoids nt p w s w' : rooted w o n -> pick_subtree nt p w = (Ok (Some s), w') -> avoids p s.
  Proof.
    intros R H ->. unfold pick_subtree in H. mb H as t w1 E. apply load_tree_ok in E. destruct E as [T ->].
    destruct (rooted_tree _ _ _ _ R T) as (l & N). apply liftR_ok in H. destruct H as (g & H & _). eapply random_avoids; eauto.
  Qed.

  Lemma pick_gkeep nt p : steps gkeep (pick_subtree nt p).
  Proof.
    unfold pick_subtree. apply (st_bind gkeep).
    - unfold load_tree. apply (st_bind gkeep); [apply gk_load|]. intros i. destruct (i_genome i); [apply (st_raise gkeep)|apply (st_ret gkeep)].
    - intros t. apply gk_liftR.
  Qed.

  Lemma picks_avoid nt l : forall w rs ss w', rooted w o n -> mapM (pick_subtree nt) l w = (Ok rs, w') -> all_somes rs = Some ss ->
    forall i p s, nth_error l i = Some p -> nth_error ss i = Some s -> avoids p s.
  Proof.
    induction l as [|q l IH]; intros w rs ss w' R H A i p s Hp Hs; [destruct i; discriminate|].
    cbn [mapM] in H. mb H as r w1 E1. mb H as rs' w2 E2. mr H. cbn [all_somes] in A.
    destruct r as [s1|]; [|discriminate]. destruct (all_somes rs') as [ss'|] eqn:A'; [|discriminate]. injection A as <-.
    destruct i as [|i]; cbn in Hp, Hs.
    - injection Hp as <-. injection Hs as <-. eapply pick_avoids; eauto.
    - eapply IH; [|exact E2|exact A'|exact Hp|exact Hs].
      pose proof (pick_gkeep nt q w) as K. rewrite E1 in K. exact (rooted_gkeep _ _ _ _ K R).
  Qed.

  (** Replacing a subtree that is not the whole tree keeps the root. *)
  Lemma replace_root t l old new t' : t_nodes t = n :: l -> (forall x r, old = x :: r -> x <> n) -> replace_subtree t old new = Ok t' ->
    exists l', t_nodes t' = n :: l'.
  Proof.
    intros E A H. unfold replace_subtree in H. destruct old as [|x r]; [discriminate|]. rewrite E in H.
    destruct (find_index (fun z => node_eqb z x) (n :: l)) as [i|] eqn:F; [|discriminate]. injection H as <-.
    destruct i as [|i].
    - exfalso. cbn in F. destruct (node_eqb n x) eqn:Q; [|destruct (find_index _ l); discriminate].
      apply node_eqb_iff in Q. exact (A x r eq_refl (eq_sym Q)).
    - cbn. eauto.
  Qed.

  Lemma put_root p t : (p = o -> exists l, t_nodes t = n :: l) -> steps keeps (put_genome p (GTree t)).
  Proof.
    intros H w R. unfold put_genome. destruct (at_ w p) as [i|] eqn:E.
    - rewrite (modify_at _ _ _ _ E). cbn [snd]. destruct (Nat.eq_dec p o) as [->|D].
      + destruct (H eq_refl) as (l & N). exists (set_genome (GTree t) i), t, l. rewrite (at_put_same _ _ _ _ E). auto.
      + destruct R as (j & t' & l & B & F & N). exists j, t', l. rewrite at_put_other by exact D. auto.
    - unfold modify, bind, load. unfold at_ in E. rewrite E. exact R.
  Qed.

  Lemma load_tree_state p w : snd (load_tree p w) = w.
  Proof.
    unfold load_tree, bind, load. destruct (nth_error (w_heap w) p) as [i|]; [|reflexivity]. destruct (i_genome i); reflexivity.
  Qed.

  Lemma swap_keeps ss i p : (forall s, nth_error ss i = Some s -> avoids p s) -> steps keeps (swap_one ss (i, p)).
  Proof.
    intros A w R. unfold swap_one. unfold bind at 1. unfold lift. destruct (py_get ss (Z.of_nat i)) as [old|e] eqn:Eo; [|exact R].
    unfold bind at 1. destruct (py_get ss (Z.of_nat i - 1)) as [new|e]; [|exact R].
    unfold bind at 1. destruct (load_tree p w) as [[t|e] w1] eqn:Et.
    - apply load_tree_ok in Et. destruct Et as [T ->]. unfold bind. destruct (replace_subtree t old new) as [t'|e] eqn:Er; [|exact R].
      apply put_root; [|exact R]. intros ->. destruct (rooted_tree _ _ _ _ R T) as (l & N). eapply replace_root; [exact N| |exact Er].
      apply (A old); [|reflexivity]. clear -Eo. unfold py_get, py_norm in Eo.
      destruct (Z.ltb_spec (Z.of_nat i) 0); [lia|]. destruct (Z.of_nat i <? Z.of_nat (length ss))%Z; [|discriminate].
      rewrite Nat2Z.id in Eo. destruct (nth_error ss i); [congruence|discriminate].
    - pose proof (load_tree_state p w) as K. rewrite Et in K. cbn in *. subst. exact R.
  Qed.

  Lemma keeps_xo ar inds : steps keeps (xo_attempt ar inds).
  Proof.
    intros w R. unfold xo_attempt. destruct (negb _); [exact R|]. unfold bind at 1.
    assert (K : gkeep w (snd (pick_subtrees inds w))).
    { unfold pick_subtrees. destruct inds as [|a rest]; [apply (st_raise gkeep)|].
      apply (st_bind gkeep); [apply pick_gkeep|]. intros [[|x l]|]; [apply (st_raise gkeep)| |apply (st_ret gkeep)].
      apply (st_bind gkeep); [apply (st_mapM gkeep); intros; apply pick_gkeep|]. intros rs. apply (st_ret gkeep). }
    destruct (pick_subtrees inds w) as [[ss|e] w1] eqn:E; cbn [snd] in K; [|exact (rooted_gkeep _ _ _ _ K R)].
    pose proof (rooted_gkeep _ _ _ _ K R) as R1. destruct ss as [ss|]; [|exact R1].
    assert (A : forall i p s, nth_error inds i = Some p -> nth_error ss i = Some s -> avoids p s).
    { clear K R1. intros i p s Hp Hs. unfold pick_subtrees in E. destruct inds as [|a rest]; [discriminate|]. mb E as s0 w2 E1.
      destruct s0 as [[|x l]|]; [discriminate| |discriminate]. mb E as rs w3 E2. mr E.
      destruct (all_somes rs) as [ss'|] eqn:As; [|discriminate].
      match goal with H : Some _ = Some ss |- _ => injection H as <- end.
      destruct i as [|i]; cbn in Hp, Hs.
      - injection Hp as <-. injection Hs as <-. exact (pick_avoids _ _ _ _ _ R E1).
      - eapply picks_avoid; [|exact E2|exact As|exact Hp|exact Hs].
        pose proof (pick_gkeep None a w) as K. rewrite E1 in K. exact (rooted_gkeep _ _ _ _ K R). }
    refine (st_bind keeps _ _ _ (fun _ => st_ret keeps _) w1 R1). unfold swap_subtrees. apply (st_iterM keeps).
    intros [i p] Hi. apply swap_keeps. intros s Hs. apply in_rev in Hi. apply in_combine_nth in Hi. destruct Hi as (j & Hj & Hp).
    apply nth_seq0 in Hj. destruct Hj as [-> _]. eauto.
  Qed.

  Lemma mut_one_keeps mn mx p old : avoids p old -> steps keeps (mut_one mn mx (p, old)).
  Proof.
    intros A w R. unfold mut_one. unfold bind at 1. destruct (load_tree p w) as [[t|e] w1] eqn:Et.
    - apply load_tree_ok in Et. destruct Et as [T ->]. destruct old as [|x r]; [exact R|].
      unfold bind at 1. pose proof (gk_liftR (grow_tree (grow_fuel mn mx 0) t mn mx (Fin (1 # 2)) 0 (node_type x)) w) as K.
      destruct (liftR _ w) as [[new|e] w2] eqn:El; cbn [snd] in K; [|exact (rooted_gkeep _ _ _ _ K R)].
      pose proof (rooted_gkeep _ _ _ _ K R) as R2. unfold bind, lift. destruct (replace_subtree t (x :: r) new) as [t'|e] eqn:Er; [|exact R2].
      apply put_root; [|exact R2]. intros ->. destruct (rooted_tree _ _ _ _ R T) as (l & N). eapply replace_root; [exact N| |exact Er].
      exact (A eq_refl).
    - pose proof (load_tree_state p w) as K. rewrite Et in K. cbn in *. subst. exact R.
  Qed.

  Lemma keeps_mut mn mx inds : steps keeps (mut_attempt mn mx inds).
  Proof.
    intros w R. unfold mut_attempt. unfold bind at 1. pose proof (st_mapM gkeep (pick_subtree None) inds (fun p _ => pick_gkeep None p) w) as K.
    destruct (mapM (pick_subtree None) inds w) as [[rs|e] w1] eqn:E; cbn [snd] in K; [|exact (rooted_gkeep _ _ _ _ K R)].
    pose proof (rooted_gkeep _ _ _ _ K R) as R1. destruct (all_somes rs) as [ss|] eqn:As; [|exact R1].
    refine (st_bind keeps _ _ _ (fun _ => st_ret keeps _) w1 R1). apply (st_iterM keeps). intros [p old] Hi.
    apply mut_one_keeps. apply in_combine_nth in Hi. destruct Hi as (j & Hp & Hs). exact (picks_avoid None inds w rs ss w1 R E As j p old Hp Hs).
  Qed.
End One.

(** ** Noise on numbers *)

(** A typed root stays the same symbol. *)
Definition stays (w w' : world) : Prop := forall o n, rooted w o n -> has_type n -> exists n', rooted w' o n' /\ same_symbol n n'.
Global Instance stays_pre : PreOrder stays.
Proof.
  split.
  - intros w o n R _. exists n. split; [exact R|apply same_refl].
  - intros a b c H K o n R T. destruct (H o n R T) as (n1 & R1 & S1). destruct (K o n1 R1 (same_typed _ _ S1 T)) as (n2 & R2 & S2).
    exists n2. split; [exact R2|eapply same_trans; eauto].
Qed.
Lemma stays_gkeep w w' : gkeep w w' -> stays w w'.
Proof. intros K o n R _. exists n. split; [exact (rooted_gkeep _ _ _ _ K R)|apply same_refl]. Qed.

Lemma noise_symbol g tag n : same_symbol n (add_noise g tag n).
Proof. destruct n as [f|[s|b x tg] ty]; try apply same_refl. right. cbn. repeat eexists. Qed.

Lemma stays_erc_one mu sigma oi : steps stays (erc_one mu sigma oi).
Proof.
  destruct oi as [p k]. intros w. unfold erc_one. unfold bind at 1. destruct (load_tree p w) as [[t|e] w1] eqn:Et.
  - apply load_tree_ok in Et. destruct Et as [T ->]. unfold bind at 1. pose proof (gk_liftR (gauss mu sigma) w) as K1.
    destruct (liftR (gauss mu sigma) w) as [[g|e] w1]; cbn [snd] in K1; [|apply stays_gkeep; exact K1].
    unfold bind at 1. pose proof (gk_liftR next_draw w1) as K2.
    destruct (liftR next_draw w1) as [[d|e] w2]; cbn [snd] in K2; [|apply stays_gkeep; transitivity w1; assumption].
    assert (K : gkeep w w2) by (transitivity w1; assumption).
    destruct (nth_error (t_nodes t) k) as [n|] eqn:Ek; [|apply stays_gkeep; exact K].
    transitivity w2; [apply stays_gkeep; exact K|]. pose proof (tree_keep _ _ _ _ K T) as (i & A & E).
    unfold put_genome. rewrite (modify_at _ _ _ _ A). cbn [snd]. intros o r R Hr. destruct (Nat.eq_dec p o) as [->|D].
    + destruct (rooted_tree _ _ _ _ R (ex_intro _ i (conj A E))) as (l & N).
      set (t' := with_nodes t (list_set (t_nodes t) k (add_noise g (d_n d) n))).
      rewrite N in Ek. exists (match k with 0 => add_noise g (d_n d) n | _ => r end). split.
      * exists (set_genome (GTree t') i), t'. rewrite (at_put_same _ _ _ _ A). unfold t'. rewrite N. destruct k; cbn; eauto.
      * destruct k; [|apply same_refl]. cbn in Ek. injection Ek as <-. apply noise_symbol.
    + exists r. split; [|apply same_refl]. destruct R as (j & t' & l & B & F & N). exists j, t', l. rewrite at_put_other by exact D. auto.
  - pose proof (load_tree_state p w) as K. rewrite Et in K. cbn in *. subst. reflexivity.
Qed.

Lemma stays_erc mu sigma inds : steps stays (erc_attempt mu sigma inds).
Proof.
  unfold erc_attempt. apply (st_bind stays).
  - apply (st_mapM stays). intros p _. apply (st_bind stays).
    + intros w. rewrite load_tree_state. reflexivity.
    + intros t w. apply stays_gkeep, gk_liftR.
  - intros ls. destruct (all_somes ls) as [ps|]; [|apply (st_ret stays)]. apply (st_bind stays); [|intros; apply (st_ret stays)].
    apply (st_iterM stays). intros oi _. apply stays_erc_one.
Qed.

Lemma stays_failable att (inds : list oid) k : (steps stays att) -> forall i,
  steps stays (failable_from (fun _ => ok <- att ;; ret (ok, Some inds)) (ret (Some inds)) i k).
Proof.
  intros H. induction k as [|k IH]; intros i; cbn [failable_from]; [apply (st_ret stays)|].
  apply (st_bind stays); [apply (st_bind stays); [exact H|intros; apply (st_ret stays)]|]. intros r. destruct (fst r); [apply (st_ret stays)|apply IH].
Qed.

Lemma stays_keeps {A} (m : M A) : (forall o n, has_type n -> steps (keeps o n) m) -> steps stays m.
Proof. intros H w o n R T. exists n. split; [exact (H o n T w R)|apply same_refl]. Qed.

Lemma stays_apply op inds : tree_operator op -> steps stays (apply_operator op inds).
Proof.
  intros Ht. unfold apply_operator. apply (with_probability_steps stays); [exact stays_gkeep|]. unfold op_apply. unfold tree_operator in Ht.
  destruct (op_kind op) as [k|m k| |mn mx|mu sigma|]; try contradiction.
  - apply stays_failable. apply stays_keeps. intros; apply keeps_xo; assumption.
  - apply stays_failable. apply stays_keeps. intros; apply keeps_mut; assumption.
  - apply stays_failable. apply stays_erc.
  - apply (st_ret stays).
Qed.

Lemma root_stays op inds w r w' o n : tree_operator op -> apply_operator op inds w = (r, w') -> rooted w o n -> has_type n ->
  exists n', rooted w' o n' /\ same_symbol n n'.
Proof. intros Ht E R T. pose proof (stays_apply op inds Ht w o n R T) as H. rewrite E in H. exact H. Qed.

(** ** Evaluation keeps genomes *)

Lemma gk_better a b : steps gkeep (ind_better_than a b).
Proof. apply (st_bind gkeep); [apply gk_load|]. intros x. apply (st_bind gkeep); [apply gk_load|]. intros y. apply gk_liftR. Qed.

Lemma gk_set_fitness o v : steps gkeep (ind_set_fitness o v).
Proof.
  intros w. unfold ind_set_fitness. destruct (at_ w o) as [i|] eqn:E.
  - rewrite (bind_eq_ok _ _ _ _ _ (load_at _ _ _ E)).
    set (j := set_fit _ i). rewrite (bind_eq_ok _ _ _ _ _ (store_at o j i w E)). cbn [snd lift]. eapply gk_put; [exact E|reflexivity].
  - unfold bind, load. unfold at_ in E. rewrite E. reflexivity.
Qed.

Lemma gk_evaluate ev sched m alive l : steps gkeep (evaluate_inds ev sched m alive l).
Proof.
  unfold evaluate_inds. apply (st_bind gkeep).
  - apply (st_mapM gkeep). intros o _. apply (st_bind gkeep); [apply gk_load|intros; apply (st_ret gkeep)].
  - intros gs. apply (st_bind gkeep); [apply (st_lift gkeep)|]. intros rs.
    assert (B : steps gkeep (best_scan l)).
    { destruct l as [|a l']; [apply (st_raise gkeep)|]. apply (st_foldM gkeep). intros b x _.
      apply (st_bind gkeep); [apply gk_better|intros; apply (st_ret gkeep)]. }
    destruct m.
    + apply (st_bind gkeep); [|intros; exact B]. clear B. revert rs. induction l as [|o l IH]; intros [|r rs]; simpl; try apply (st_ret gkeep).
      apply (st_bind gkeep); [apply (st_lift gkeep)|]. intros v. apply (st_bind gkeep); [apply gk_set_fitness|]. intros _. apply IH.
    + apply (st_bind gkeep).
      * apply (st_mapM gkeep). intros [i r] _. simpl. destruct (nth_error l i) as [o|]; [|apply (st_ret gkeep)].
        apply (st_bind gkeep); [|intros; apply (st_ret gkeep)].
        unfold worker. destruct r as [v|e]; [|apply (st_ret gkeep)]. intros w. pose proof (gk_set_fitness o v w) as H. destruct (ind_set_fitness o v w); exact H.
      * intros outs. apply (st_bind gkeep); [apply (st_lift gkeep)|]. intros _.
        apply (st_bind gkeep); [apply (st_iterM gkeep); intros; apply gk_set_fitness|]. intros _. exact B.
Qed.

Lemma gk_eval_pop ev sched m alive pop : steps gkeep (evaluate_population ev sched m alive pop).
Proof. unfold evaluate_population. destruct pop as [|s [|? ?]]; try apply (st_raise gkeep). apply gk_evaluate. Qed.

Lemma gkeep_frame w w' : frame none w w' -> gkeep w w'.
Proof. intros F o i A. exists i. split; [exact (frame_at _ _ _ _ F A)|reflexivity]. Qed.

(** ** Runs that keep a class of genomes *)

Definition keeps_class (G : genome -> Prop) (op : oper) : Prop :=
  forall inds l w, genomes_in G l w -> genomes_in G l (snd (apply_operator op inds w)).

Section Class.
  Variable G : genome -> Prop.

  Definition within (l : list oid) (w w' : world) : Prop := genomes_in G l w -> genomes_in G l w'.
  Local Instance within_pre l : PreOrder (within l).
  Proof. split; unfold within; [intros w|intros a b c]; auto. Qed.

  Lemma within_operators ops l : Forall (keeps_class G) ops -> forall b, steps (within l) (apply_operators ops b).
  Proof.
    intros F b. apply (st_foldM (within l)). intros b' op Ho. destruct (op_arity op =? 0); [apply (st_raise (within l))|].
    rewrite Forall_forall in F. specialize (F op Ho). generalize (length b') at 1. intros fuel. revert b'.
    induction fuel as [|fuel IH]; intros b'; cbn [apply_chunks]; [apply (st_ret (within l))|].
    destruct b' as [|x b']; [apply (st_ret (within l))|]. apply (st_bind (within l)); [intros w Hw; exact (F _ l w Hw)|]. intros r.
    apply (st_bind (within l)); [apply IH|]. intros; apply (st_ret (within l)).
  Qed.

  Lemma breed_class s w s' w' : Forall (keeps_class G) (sp_ops s) -> genomes_in G (inds_of s) w -> breed_subpop s w = (Ok s', w') ->
    frame none w w' /\ genomes_in G (inds_of s') w' /\ sp_ops s' = sp_ops s.
  Proof.
    intros F Hg E. pose proof (genomes_present _ _ _ Hg) as Hp. pose proof (breed_frame s w Hp) as Fr. rewrite E in Fr. split; [exact Fr|].
    destruct (breed_parts s w s' w' Hp E) as (sel & sels & el & ch & w1 & w2 & _ & Ce & Le & Ie & Cc & Ic & _ & -> & Ea & _).
    split; [|reflexivity]. pose proof (within_operators (sp_ops s) (inds_of (with_inds s (seq (length (w_heap w)) (elite_count s + length ch)))) F
      (inds_of (with_inds s (seq (length (w_heap w)) (elite_count s + length ch)))) w2) as W. rewrite Ea in W. apply W.
    cbn [inds_of with_inds sp_inds]. rewrite seq_app. apply genomes_app.
    - eapply genomes_frame; [apply frame_ext; eapply copies_ext; exact Cc|intros o _ []|]. eapply copies_genomes; [exact Ce|].
      eapply genomes_incl; [exact Ie|exact Hg].
    - eapply copies_genomes; [exact Cc|]. eapply genomes_incl; [exact Ic|].
      eapply genomes_frame; [apply frame_ext; eapply copies_ext; exact Ce|intros o _ []|exact Hg].
  Qed.

  Lemma breeds_class pop : forall w pop' w', Forall (fun s => Forall (keeps_class G) (sp_ops s)) pop -> genomes_in G (flat_map inds_of pop) w ->
    breed pop w = (Ok pop', w') ->
    frame none w w' /\ genomes_in G (flat_map inds_of pop') w' /\ Forall (fun s => Forall (keeps_class G) (sp_ops s)) pop'.
  Proof.
    unfold breed. induction pop as [|s pop IH]; intros w pop' w' F Hg E; cbn [mapM] in E.
    - mr E. split; [apply frame_ext; exists []; rewrite app_nil_r; reflexivity|]. split; [exact Hg|constructor].
    - mb E as s' w1 E1. mb E as pop1 w2 E2. mr E. inversion F as [|? ? Fs Fp]; subst. cbn [flat_map] in *.
      destruct (breed_class s w s' w1 Fs) as (F1 & G1 & O1); [eapply genomes_incl; [|exact Hg]; intros x Hx; apply in_app_iff; auto|exact E1|].
      destruct (IH w1 pop1 w' Fp) as (F2 & G2 & O2); [|exact E2|].
      { eapply genomes_frame; [exact F1|intros o _ []|]. eapply genomes_incl; [|exact Hg]. intros x Hx. apply in_app_iff. auto. }
      split; [etransitivity; eauto|]. split.
      + apply genomes_app; [|exact G2]. eapply genomes_frame; [exact F2|intros o _ []|exact G1].
      + constructor; [rewrite O1; exact Fs|exact O2].
  Qed.

  Variables (ev : genome -> res fval) (sched : nat -> list nat).

  Record kept_in (a : algo) (w : world) : Prop := {
    ki_pop : genomes_in G (flat_map inds_of (a_pop a)) w;
    ki_ops : Forall (fun s => Forall (keeps_class G) (sp_ops s)) (a_pop a);
    ki_evals : forall l, In l (evals (a_trace a)) -> genomes_in G l w
  }.

  Lemma kept_skip a a' w w' : a_pop a' = a_pop a -> evals (a_trace a') = evals (a_trace a) -> gkeep w w' -> kept_in a w -> kept_in a' w'.
  Proof.
    intros E1 E2 K [P O V]. constructor; rewrite ?E1, ?E2; auto; [exact (genomes_gkeep _ _ _ _ K P)|].
    intros l Hl. exact (genomes_gkeep _ _ _ _ K (V l Hl)).
  Qed.

  Lemma kept_iteration a w u a' w' : kept_in a w -> generation_iteration ev sched (a, w) = (Ok u, (a', w')) -> kept_in a' w' /\ gkeep w w'.
  Proof.
    intros [P O V] H. apply iteration_ok in H. destruct H as (pop & w1 & best & w2 & b & worst & Eb & Ee & Er & _ & ->).
    destruct (breeds_class (a_pop a) w pop w1 O P Eb) as (F1 & G1 & O1).
    pose proof (gk_eval_pop ev sched (a_method a) (a_alive a) pop w1) as K2. rewrite Ee in K2. cbn [snd] in K2.
    assert (K3 : gkeep w2 w').
    { destruct (a_best_run a) as [r|]; [|destruct Er as [_ ->]; reflexivity]. pose proof (gk_better best r w2) as K. rewrite Er in K. exact K. }
    pose proof (gkeep_frame _ _ F1) as K1. assert (K : gkeep w1 w') by (etransitivity; eauto).
    split; [|etransitivity; eauto].
    assert (Ev : evals (a_trace (after_breeding pop best b worst a)) = evals (a_trace a) ++ [flat_map inds_of pop]).
    { destruct b; cbn; rewrite !evals_app; cbn; rewrite ?app_nil_r; reflexivity. }
    assert (Ep : a_pop (after_breeding pop best b worst a) = pop) by (destruct b; reflexivity).
    constructor; rewrite ?Ep, ?Ev; auto; [exact (genomes_gkeep _ _ _ _ K G1)|].
    intros l Hl. apply in_app_iff in Hl as [Hl|[<-|[]]]; [|exact (genomes_gkeep _ _ _ _ K G1)].
    exact (genomes_gkeep _ _ _ _ K (genomes_gkeep _ _ _ _ K1 (V l Hl))).
  Qed.

  Lemma kept_terminate a w st a' w' : kept_in a w -> should_terminate (a, w) = (Ok st, (a', w')) -> kept_in a' w' /\ w' = w.
  Proof.
    intros K H. apply terminate_ok in H. destruct H as (-> & best & ans & cs & _ & _ & -> & _). split; [|reflexivity].
    eapply kept_skip; [..|exact K]; [reflexivity| |reflexivity]. cbn. rewrite evals_app. cbn. apply app_nil_r.
  Qed.

  Lemma kept_loop todo : forall g a w a' w', kept_in a w -> main_loop (generation_iteration ev sched) todo g (a, w) = (Ok tt, (a', w')) ->
    kept_in a' w' /\ gkeep w w'.
  Proof.
    induction todo as [|todo IH]; intros g a w a' w' K E; [cbn in E; injection E as <- <-; split; [exact K|reflexivity]|].
    rewrite main_loop_body in E. mb E as st x E1. destruct x as [a1 w1]. apply body_ok in E1. destruct E1 as (v1 & a2 & w2 & R1 & _ & E1 & E2).
    assert (K1 : gkeep w v1) by (eapply regen_gkeep; exact R1).
    apply kept_iteration in E1; [|eapply kept_skip; [..|exact K]; [reflexivity| |exact K1]; cbn; rewrite evals_app; cbn; apply app_nil_r].
    destruct E1 as [K2 L2]. apply kept_terminate in E2; [|exact K2]. destruct E2 as [K3 ->].
    destruct st.
    - mb E as x1 x E3. unfold algo_mod in E3. cbn in E3. injection E3 as _ <-. rewrite publish_eq in E. injection E as <- <-.
      split; [|etransitivity; eauto]. eapply kept_skip; [..|exact K3]; [reflexivity| |reflexivity]. cbn. rewrite evals_app. cbn. apply app_nil_r.
    - mb E as x1 x E3. rewrite publish_eq in E3. injection E3 as _ <-. apply IH in E.
      + destruct E as [K4 L4]. split; [exact K4|]. etransitivity; [exact K1|]. etransitivity; [exact L2|exact L4].
      + eapply kept_skip; [..|exact K3]; [reflexivity| |reflexivity]. cbn. rewrite evals_app. cbn. apply app_nil_r.
  Qed.
End Class.

Lemma mapM_loads {X} (f : ind -> X) l : forall w gs w', mapM (fun o => i <- load o ;; ret (f i)) l w = (Ok gs, w') -> present l w /\ w' = w.
Proof.
  induction l as [|o l IH]; intros w gs w' H; cbn [mapM] in H; [mr H; split; [intros o []|reflexivity]|].
  mb H as g w1 E1. mb H as gs' w2 E2. mr H. mb E1 as i w3 E3. pose proof (load_state o w) as S. rewrite E3 in S. cbn in S. mr E1. subst.
  apply IH in E2. destruct E2 as [P ->]. split; [|reflexivity]. intros p [<-|Hp]; [|exact (P p Hp)].
  unfold load in E3. unfold at_. destruct (nth_error _ o) as [j|] eqn:Ej in E3; [eauto|discriminate].
Qed.

Lemma init_present ev sched n a w a1 w1 : initialize ev sched n (a, w) = (Ok tt, (a1, w1)) -> present (flat_map inds_of (a_pop a1)) w1.
Proof.
  intros H. apply init_ok in H. destruct H as (pop & v & best & _ & Ee & ->). cbn.
  pose proof (gk_eval_pop ev sched (a_method a) (a_alive a) pop v) as K. rewrite Ee in K. cbn [snd] in K.
  unfold evaluate_population in Ee. destruct pop as [|s [|? ?]]; try discriminate. cbn [flat_map]. rewrite app_nil_r.
  unfold evaluate_inds in Ee. mb Ee as gs w2 E1. apply mapM_loads in E1. destruct E1 as [P _].
  intros o Ho. destruct (P o Ho) as (i & A). destruct (K o i A) as (j & B & _). eauto.
Qed.

Lemma keeps_any op : keeps_class (fun _ => True) op.
Proof.
  intros inds l w H o Ho. destruct (H o Ho) as (i & A & _). pose proof (fr_apply (fun _ => True) op inds) as F.
  assert (All : Forall (fun _ : oid => True) inds) by (apply Forall_forall; auto). specialize (F All w). destruct F as [L _].
  apply at_lt in A. destruct (at_ (snd (apply_operator op inds w)) o) as [j|] eqn:E; [eauto|].
  exfalso. unfold at_ in E. apply nth_error_None in E. unfold oid in *. lia.
Qed.

Lemma run_class ev sched n a w a' w' : a_trace a = [] -> evolve ev sched n (a, w) = (Ok tt, (a', w')) ->
  exists l0 ls w1, evals (a_trace a') = l0 :: ls /\ present l0 w1 /\ gkeep w1 w' /\
    forall G, Forall (fun s => Forall (keeps_class G) (sp_ops s)) (a_pop a) -> genomes_in G l0 w1 -> forall l, In l ls -> genomes_in G l w'.
Proof.
  intros Ht H. unfold evolve in H. apply evolve_ok in H. destruct H as (a1 & w1 & st & a2 & a3 & w3 & E1 & E2 & E3 & E4).
  apply finish_ok in E4. destruct E4 as [-> ->].
  assert (Op : forall G, Forall (fun s => Forall (keeps_class G) (sp_ops s)) (a_pop a) -> Forall (fun s => Forall (keeps_class G) (sp_ops s)) (a_pop a1)).
  { intros G F. apply init_ok in E1. destruct E1 as (pop & v1 & best & Ec & _ & ->). cbn. clear -F Ec. revert F Ec.
    generalize (snd (liftR (set_seed (a_random_seed a)) w)). revert pop v1.
    induction (a_pop a) as [|s p IH]; intros pop v1 v0 F Ec; cbn [mapM] in Ec; [mr Ec; constructor|].
    mb Ec as s1 v2 Es. mb Ec as p1 v3 Ep. mr Ec. inversion F; subst. constructor; [|eapply IH; eauto].
    unfold create_subpopulation in Es. destruct (sp_inds s); [mr Es; assumption|]. mb Es as c v4 X1. mb Es as l v5 X2. mr Es. assumption. }
  assert (Ev : evals (a_trace a1) = [flat_map inds_of (a_pop a1)]).
  { apply init_ok in E1. destruct E1 as (pop & v1 & best & Ec & _ & ->). cbn. rewrite Ht. reflexivity. }
  assert (Go : forall G, kept_in G a1 w1 -> kept_in G a3 w3 /\ gkeep w1 w3).
  { intros G K. apply kept_terminate with (G := G) in E2; [|exact K]. destruct E2 as [K2 _]. destruct st.
    - destruct E3 as [-> ->]. split; [|reflexivity]. eapply kept_skip; [..|exact K2]; [reflexivity| |reflexivity]. cbn. rewrite evals_app. cbn. apply app_nil_r.
    - eapply kept_loop; [exact K2|exact E3]. }
  assert (Tr : exists ls, evals (a_trace a3) = flat_map inds_of (a_pop a1) :: ls).
  { apply terminate_ok in E2. destruct E2 as (_ & best & ans & cs & _ & _ & E2 & _). subst a2. destruct st.
    - destruct E3 as [-> _]. cbn. rewrite !evals_app. rewrite Ev. cbn. eauto.
    - apply (loop_trace _ (simple_quiet ev sched)) in E3. destruct E3 as (k & tr & _ & E3 & _). rewrite E3. cbn. rewrite !evals_app, Ev. cbn. eauto. }
  destruct Tr as (ls & Tr). pose proof (init_present _ _ _ _ _ _ _ E1) as P.
  exists (flat_map inds_of (a_pop a1)), ls, w1. split; [cbn; rewrite evals_app, Tr; cbn; rewrite app_nil_r; reflexivity|]. split; [exact P|].
  assert (Start : forall G, Forall (fun s => Forall (keeps_class G) (sp_ops s)) (a_pop a) -> genomes_in G (flat_map inds_of (a_pop a1)) w1 -> kept_in G a1 w1).
  { intros G F Hg. constructor; [exact Hg|exact (Op G F)|]. rewrite Ev. intros l [<-|[]]. exact Hg. }
  split.
  - apply (Go (fun _ => True)). apply Start.
    + apply Forall_forall. intros s _. apply Forall_forall. intros op _. apply keeps_any.
    + intros o Ho. destruct (P o Ho) as (i & A). eauto.
  - intros G F Hg l Hl. apply (ki_evals G a3 w3 (proj1 (Go G (Start G F Hg)))). rewrite Tr. right. exact Hl.
Qed.

Lemma run_roots ev sched n a w a' w' l0 ls : a_trace a = [] -> (forall s op, In s (a_pop a) -> In op (sp_ops s) -> tree_operator op) ->
  evolve ev sched n (a, w) = (Ok tt, (a', w')) -> evals (a_trace a') = l0 :: ls ->
  (forall o, In o l0 -> exists n, rooted w' o n /\ has_type n) ->
  forall l o, In l ls -> In o l -> exists n o0 n0, rooted w' o n /\ In o0 l0 /\ rooted w' o0 n0 /\ same_symbol n0 n.
Proof.
  intros Ht Ho H El Hr l o Hl Hi. destruct (run_class ev sched n a w a' w' Ht H) as (m0 & ms & w1 & E & P & K & C).
  rewrite El in E. injection E as <- <-.
  set (G := fun g => exists t n r, g = GTree t /\ t_nodes t = n :: r /\ has_type n /\ exists o0 n0, In o0 l0 /\ rooted w1 o0 n0 /\ same_symbol n0 n).
  assert (R1 : forall p, In p l0 -> exists n, rooted w1 p n /\ has_type n).
  { intros p Hp. destruct (Hr p Hp) as (r & (i & t & rest & A & F & N) & T). destruct (P p Hp) as (j & B). destruct (K p j B) as (j' & A' & F').
    rewrite A in A'. injection A' as <-. exists r. split; [|exact T]. exists j, t, rest. rewrite <- F'. auto. }
  destruct (C G) with (l := l) (o := o) as (i & A & t & r & rest & F & N & T & o0 & n0 & I0 & R0 & S0); auto.
  - apply Forall_forall. intros s Hs. apply Forall_forall. intros op Hop inds m v Hm p Hp.
    destruct (Hm p Hp) as (i & A & t & r & rest & F & N & T & o0 & n0 & I0 & R0 & S0).
    destruct (stays_apply op inds (Ho s op Hs Hop) v p r) as (r' & (j & t' & rest' & B & F' & N') & S); [exists i, t, rest; auto|exact T|].
    exists j. split; [exact B|]. exists t', r', rest'. split; [exact F'|]. split; [exact N'|]. split; [exact (same_typed _ _ S T)|].
    exists o0, n0. split; [exact I0|]. split; [exact R0|]. eapply same_trans; eauto.
  - intros p Hp. destruct (R1 p Hp) as (r & R & T). pose proof R as (i & t & rest & A & F & N). exists i. split; [exact A|].
    exists t, r, rest. split; [exact F|]. split; [exact N|]. split; [exact T|]. exists p, r. split; [exact Hp|]. split; [exact R|apply same_refl].
  - exists r, o0, n0. split; [exists i, t, rest; auto|]. split; [exact I0|]. split; [exact (rooted_gkeep _ _ _ _ K R0)|exact S0].
Qed.

(** A configured run on typed trees. *)
Lemma typed_run_roots t0 Q ev sched h s n a w : gives_numbers ev -> total_on (trees_of t0 Q) ev -> fair sched -> a_trace a = [] ->
  configured h a w s -> supplied t0 (t_root_type t0) -> typed_terminals t0 (t_root_type t0) -> Forall tree_operator (sp_ops s) ->
  node_kind t0 (sp_ops s) Q ->
  match sp_inds s with Some l => genomes_in (trees_of t0 Q) l w | None => Forall (tree_creator t0 (sp_size s)) (sp_creators s) end ->
  printable_terminals t0 -> t_root_type t0 <> None ->
  exists a' w' l0 ls, evolve ev sched n (a, w) = (Ok tt, (a', w')) /\ evals (a_trace a') = l0 :: ls /\ length l0 = sp_size s /\
    forall l o, In l ls -> In o l -> exists n o0 n0, rooted w' o n /\ In o0 l0 /\ rooted w' o0 n0 /\ same_symbol n0 n.
Proof.
  intros Hn Ht Hf Htr C Hs Htt Ho K Hi P T.
  destruct (program_run_completes t0 Q ev sched h s n a w Hn Ht Hf Htr C Hs Htt Ho K Hi P) as (a' & w' & E & G).
  destruct (run_class ev sched n a w a' w' Htr E) as (l0 & ls & w1 & El & _ & _ & _).
  exists a', w', l0, ls. split; [exact E|]. split; [exact El|]. split; [apply (G l0); rewrite El; left; reflexivity|].
  apply (run_roots ev sched n a w a' w' l0 ls Htr); [|exact E|exact El|].
  - rewrite (cf_pop _ _ _ _ C). intros s' op [<-|[]] Hop. rewrite Forall_forall in Ho. exact (Ho op Hop).
  - intros o Hin. destruct (G l0) as [_ Gl]; [rewrite El; left; reflexivity|]. destruct (Gl o Hin) as (i & A & (t & rt & Eg & Sp & Ov & Sa & Fl & Wt & D) & _).
    destruct rt as [r ks]. exists r. split; [exists i, t, (concat (map flatten ks)); split; [exact A|]; split; [exact Eg|]; rewrite <- Fl; cbn; rewrite ?flat_map_concat_map; reflexivity|].
    unfold has_type. rewrite node_type_delivers.
    + cbn in D. rewrite D. destruct (t_root_type t0) as [x|]; [eauto|congruence].
    + intros f ->. apply (proj1 Hs). destruct Sp as (Ef & _). rewrite <- Ef. apply Ov. rewrite <- Fl. left. reflexivity.
Qed.

Lemma run_root_functions ev sched n a w a' w' l0 ls f : a_trace a = [] -> (forall s op, In s (a_pop a) -> In op (sp_ops s) -> tree_operator op) ->
  evolve ev sched n (a, w) = (Ok tt, (a', w')) -> evals (a_trace a') = l0 :: ls ->
  (forall o, In o l0 -> exists n, rooted w' o n /\ has_type n) -> (forall o, In o l0 -> ~ rooted w' o (FNode f)) ->
  forall l o, In l ls -> In o l -> ~ rooted w' o (FNode f).
Proof.
  intros Ht Ho H El Hr Hf l o Hl Hi R. destruct (run_roots ev sched n a w a' w' l0 ls Ht Ho H El Hr l o Hl Hi) as (m & o0 & n0 & R1 & I0 & R0 & S).
  destruct R as (i & t & r & A & E & N). destruct R1 as (i1 & t1 & r1 & A1 & E1 & N1). assert (m = FNode f) by congruence. subst m.
  destruct S as [<-|(b & x & tg & b' & x' & tg' & ty & _ & [=])]. exact (Hf o0 I0 R0).
Qed.
