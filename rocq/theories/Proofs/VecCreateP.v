(** Vector creators, and vector mutations that cannot succeed. *)
From Verif.Proofs Require Export VecOpP.
From Verif.Model Require Export Creators.
From Verif.Spec Require Import VectorSpec.
From Coq Require Import Lqa.

(** ** Loops that rewrite one object per step *)

Lemma iterM_each (f : oid -> M unit) (Pre Post : ind -> Prop) : (forall i, Post i -> Pre i) ->
  (forall o w i u w', at_ w o = Some i -> Pre i -> f o w = (Ok u, w') ->
     exists i', Post i' /\ w_heap w' = list_set (w_heap w) o i') ->
  forall l w u w', (forall o, In o l -> exists i, at_ w o = Some i /\ Pre i) -> iterM f l w = (Ok u, w') ->
  length (w_heap w') = length (w_heap w) /\
  (forall o, In o l -> exists i, at_ w' o = Some i /\ Post i) /\
  (forall o, ~ In o l -> at_ w' o = at_ w o).
Proof.
  intros Hpp Hf l. induction l as [|o l IH]; intros w u w' Hw H; simpl in H.
  - mstep H. split; [reflexivity|]. split; [intros o []|reflexivity].
  - mstep H. destruct (Hw o (or_introl eq_refl)) as (i & Hi & HPi).
    destruct (Hf o w i x s Hi HPi H0) as (i' & HP' & Hh).
    assert (Hsame : at_ s o = Some i').
    { unfold at_. rewrite Hh. apply nth_list_set_same. eapply at_lt; eauto. }
    assert (Hother : forall o', o <> o' -> at_ s o' = at_ w o').
    { intros o' Hne. unfold at_. rewrite Hh. apply nth_list_set_other. assumption. }
    destruct (IH s u w') as (L & P & Q); auto.
    { intros o' Ho'. destruct (Nat.eq_dec o o') as [<-|Hne]; [eauto|].
      rewrite Hother by assumption. apply Hw. right. assumption. }
    split; [rewrite L, Hh; apply list_set_length|]. split.
    + intros o' Ho'. destruct (in_dec Nat.eq_dec o' l) as [Hin|Hnin]; [auto|].
      destruct Ho' as [<-|Ho']; [|contradiction]. exists i'. split; [rewrite Q; auto|assumption].
    + intros o' Ho'. rewrite Q by (intros ?; apply Ho'; right; assumption). apply Hother. intros ->. apply Ho'. left. reflexivity.
Qed.

(** [n] new individuals in a row. *)
Definition fresh_ind (w : world) (f : fitness) (upd : bool) (g : genome) (j : nat) : ind :=
  mkInd (w_next_id w + Z.of_nat j)%Z 0 f (-1)%Z [] [] upd [] g.

Lemma new_many f upd g n : forall w,
  repeatM n (new_individual f upd g) w =
  (Ok (seq (length (w_heap w)) n),
   mkWorld (w_heap w ++ map (fresh_ind w f upd g) (seq 0 n)) (w_next_id w + Z.of_nat n)%Z (w_rng w)).
Proof.
  induction n as [|n IH]; intros w.
  - simpl. unfold ret. rewrite app_nil_r, Z.add_0_r. destruct w; reflexivity.
  - cbn [repeatM]. unfold new_individual at 1. unfold bind at 1 2. unfold fresh_id, alloc. cbv beta iota.
    rewrite (bind_eq_ok _ _ _ _ _ (IH _)). unfold ret. cbn [w_heap w_next_id w_rng].
    rewrite app_length. simpl length. rewrite Nat.add_1_r. f_equal. 
    f_equal; [|lia]. rewrite <- app_assoc. f_equal. cbn [seq map app].
    rewrite <- seq_shift, map_map. f_equal.
    + unfold fresh_ind. f_equal. lia.
    + apply map_ext. intros j. unfold fresh_ind. cbn [w_next_id]. f_equal. lia.
Qed.

Lemma repeatM_lift {S A B} (r : res A) a (k : A -> SE S B) n s : r = Ok a ->
  repeatM n (v <- lift r ;; k v) s = repeatM n (k a) s.
Proof.
  intros ->. revert s. induction n as [|n IH]; intros s; simpl; [reflexivity|].
  unfold bind at 1 2, lift. unfold bind at 3. destruct (k a s) as [[b|e] s1]; [|reflexivity].
  unfold bind. rewrite IH. reflexivity.
Qed.

Lemma vector_init_ok k b len : proper_bounds b len -> vector_init k b len None = Ok (mkVec k b len []).
Proof.
  intros H. unfold vector_init. destruct b as [lo hi|l]; [reflexivity|]. destruct H as [-> _].
  rewrite Nat.eqb_refl. reflexivity.
Qed.

Lemma random_integral v i g x g' : v_kind v <> KFloat -> get_random_number_in_bounds v i g = (Ok x, g') -> integral x.
Proof.
  intros K H. unfold get_random_number_in_bounds in H.
  assert (I : forall lo hi, randint lo hi g = (Ok x, g') -> integral x).
  { intros lo hi Hr. unfold randint in Hr. destruct (num_to_Z lo) as [a|]; [|mstep Hr]. destruct (num_to_Z hi) as [b|]; [|mstep Hr].
    destruct (b <? a)%Z; [mstep Hr|]. mstep Hr. mstep H1. eexists. reflexivity. }
  destruct (v_kind v), (v_bounds v) as [lo hi|l]; try congruence; eauto.
  - destruct (nth_error l i) as [[lo hi]|]; [eauto|mstep H].
  - destruct (length l <? 2); mstep H.
Qed.

Lemma create_vector_spec len v g : creatable len (v_bounds v) (v_kind v) ->
  exists c g', create_vector len v g = (Ok (set_vector v c), g') /\ length c = len /\ in_box (v_bounds v) c /\
    (v_kind v <> KFloat -> Forall integral c).
Proof.
  intros Hc. unfold create_vector.
  assert (A : forall l g, (forall i, In i l -> i < len) ->
    exists c g', mapM (get_random_number_in_bounds v) l g = (Ok c, g') /\ Forall2 (in_cell v) l c /\
      (v_kind v <> KFloat -> Forall integral c)).
  { intros l. induction l as [|i l IH]; intros g0 Hl; simpl.
    - exists [], g0. split; [reflexivity|]. split; [constructor|]. intros _. constructor.
    - destruct (random_ok v len i g0 Hc) as (x & g1 & E); [apply Hl; simpl; auto|].
      rewrite (bind_eq_ok _ _ _ _ _ E).
      destruct (IH g1 (fun j Hj => Hl j (or_intror Hj))) as (c & g2 & E2 & F & It). rewrite (bind_eq_ok _ _ _ _ _ E2).
      unfold ret. exists (x :: c), g2. split; [reflexivity|].
      split; [|intros K; constructor; [eapply random_integral; eauto|auto]]. constructor; [|assumption].
      destruct Hc as (Hp & Hi & _). eapply random_in_bounds in E; eauto.
      destruct E as (lo & hi & E1 & E3 & E4 & _). exists lo, hi. auto. }
  destruct (A (seq 0 len) g) as (c & g' & E & F & It). { intros i Hi. apply in_seq in Hi. lia. }
  rewrite (bind_eq_ok _ _ _ _ _ E). exists c, g'. split; [reflexivity|].
  pose proof (Forall2_len _ _ _ F) as L. rewrite seq_length in L. split; [auto|]. split; [|exact It].
  intros i x Hx. assert (Hi : i < len) by (rewrite L; eapply nth_error_lt; eauto).
  change (in_cell v i x). eapply Forall2_nth_error; [exact F| |exact Hx].
  rewrite nth_error_nth' with (d := 0) by (rewrite seq_length; lia). rewrite seq_nth by lia. reflexivity.
Qed.

Definition blank_vec (len : nat) (b : bounds) (k : vkind) (fc : fclass) (upd : bool) (h : hibv) (i : ind) : Prop :=
  i_fit i = new_fitness fc h /\ i_update_parents i = upd /\ i_gen i = 0 /\
  exists v, i_genome i = GVec v /\ v_kind v = k /\ v_bounds v = b.

Definition good_vec (len : nat) (b : bounds) (k : vkind) (fc : fclass) (upd : bool) (h : hibv) (i : ind) : Prop :=
  i_fit i = new_fitness fc h /\ i_update_parents i = upd /\ i_gen i = 0 /\
  exists c, i_genome i = GVec (mkVec k b len c) /\ length c = len /\ in_box b c /\ (k <> KFloat -> Forall integral c).

Lemma create_vectors_ok len b k fc upd n h w : creatable len b k ->
  exists l w', create_vectors len b k fc upd n h w = (Ok l, w') /\
    length l = n /\ NoDup l /\ (forall o, In o l -> length (w_heap w) <= o) /\
    frame (fun _ => False) w w' /\
    forall o, In o l -> exists i, at_ w' o = Some i /\ good_vec len b k fc upd h i.
Proof.
  intros Hc. unfold create_vectors.
  set (l := seq (length (w_heap w)) n).
  set (w1 := mkWorld (w_heap w ++ map (fresh_ind w (new_fitness fc h) upd (GVec (mkVec k b len []))) (seq 0 n))
               (w_next_id w + Z.of_nat n)%Z (w_rng w)).
  assert (E : repeatM n (v <- lift (vector_init k b len None) ;; new_individual (new_fitness fc h) upd (GVec v)) w = (Ok l, w1)).
  { rewrite (repeatM_lift _ _ (fun v => new_individual (new_fitness fc h) upd (GVec v)) _ _ (vector_init_ok k b len (proj1 Hc))).
    apply new_many. }
  rewrite (bind_eq_ok _ _ _ _ _ E).
  set (f := fun o => v <- load_vec o ;; v' <- liftR (create_vector len v) ;; put_genome o (GVec v')).
  assert (Hstep : forall o w i, at_ w o = Some i -> blank_vec len b k fc upd h i ->
    exists i' w', f o w = (Ok tt, w') /\ good_vec len b k fc upd h i' /\ w_heap w' = list_set (w_heap w) o i').
  { intros o w2 i Hi (Hfit & Hu & Hgen & v & Hg & Hk & Hb). unfold f.
    rewrite (bind_eq_ok _ _ _ _ _ (load_vec_at _ _ _ _ Hi Hg)).
    destruct (create_vector_spec len v (w_rng w2)) as (c & g' & Ec & Lc & Bc & Ic); [rewrite Hb, Hk; exact Hc|].
    rewrite (bind_eq_ok _ _ _ _ _ (liftR_eq _ _ _ _ Ec)).
    unfold put_genome. rewrite (modify_at _ _ _ i) by exact Hi.
    eexists. eexists. split; [reflexivity|]. split; [|reflexivity].
    unfold good_vec. destruct i; simpl in *. repeat (split; [assumption|]).
    exists c. unfold set_vector. rewrite Hk, Hb, Lc. rewrite <- Hb. rewrite Hk in Ic. auto. }
  assert (Hpp : forall i, good_vec len b k fc upd h i -> blank_vec len b k fc upd h i).
  { intros i (A & B & C & c & D0 & _). unfold blank_vec. repeat (split; [assumption|]). exists (mkVec k b len c). auto. }
  assert (H1 : forall o, In o l -> exists i, at_ w1 o = Some i /\ blank_vec len b k fc upd h i).
  { intros o Ho. apply in_seq in Ho. unfold at_, w1. simpl.
    rewrite nth_error_app2 by lia. rewrite nth_error_map.
    rewrite nth_error_nth' with (d := 0) by (rewrite seq_length; lia). simpl.
    eexists. split; [reflexivity|]. repeat split. exists (mkVec k b len []). auto. }
  destruct (iterM_ok f l (fun w => forall o, In o l -> exists i, at_ w o = Some i /\ blank_vec len b k fc upd h i)) with (s := w1)
    as (w2 & E2 & _); auto.
  { intros o w2 Ho H2. destruct (H2 o Ho) as (i & Hi & Bi). destruct (Hstep o w2 i Hi Bi) as (i' & w3 & E3 & G3 & Hh).
    exists w3. split; [exact E3|]. intros o' Ho'. destruct (Nat.eq_dec o o') as [<-|Hne].
    - exists i'. split; [|auto]. unfold at_. rewrite Hh. apply nth_list_set_same. eapply at_lt; eauto.
    - unfold at_. rewrite Hh, nth_list_set_other by assumption. apply H2. assumption. }
  rewrite (bind_eq_ok _ _ _ _ _ E2). exists l, w2. split; [reflexivity|].
  split; [apply seq_length|]. split; [apply seq_NoDup|].
  split; [intros o Ho; apply in_seq in Ho; lia|].
  destruct (iterM_each f _ _ Hpp) with (l := l) (w := w1) (u := tt) (w' := w2) as (L & P & Q); auto.
  { intros o w3 i u w4 Hi Bi Hf. destruct (Hstep o w3 i Hi Bi) as (i' & w5 & E5 & G5 & H5).
    rewrite E5 in Hf. inv Hf. eauto. }
  split; [|exact P].
  split; [rewrite L; unfold w1; simpl; rewrite app_length; lia|].
  intros o Ho _. rewrite Q.
  - unfold at_, w1. simpl. apply nth_error_app1. assumption.
  - intros Hin. apply in_seq in Hin. lia.
Qed.

(** IntVector with its default bounds: the lower bound is above the upper one. *)
Lemma create_default_int fc upd len n h w : 1 <= len -> 1 <= n ->
  exists w', create_vectors len int_default_bounds KInt fc upd n h w = (Raise ValueError, w').
Proof.
  intros Hl Hn. unfold create_vectors.
  rewrite (bind_eq_ok _ _ w (seq (length (w_heap w)) n)
    (mkWorld (w_heap w ++ map (fresh_ind w (new_fitness fc h) upd (GVec (mkVec KInt int_default_bounds len []))) (seq 0 n))
               (w_next_id w + Z.of_nat n)%Z (w_rng w))).
  2:{ rewrite (repeatM_lift (vector_init KInt int_default_bounds len None) (mkVec KInt int_default_bounds len [])
        (fun v => new_individual (new_fitness fc h) upd (GVec v)) n w eq_refl). apply new_many. }
  destruct n as [|n]; [lia|]. cbn [seq iterM].
  set (w1 := mkWorld _ _ _).
  assert (Ha : at_ w1 (length (w_heap w)) = Some (fresh_ind w (new_fitness fc h) upd (GVec (mkVec KInt int_default_bounds len [])) 0)).
  { unfold at_, w1. simpl. rewrite nth_error_app2, Nat.sub_diag by lia. reflexivity. }
  destruct len as [|len]; [lia|].
  assert (Ec : exists g', create_vector (S len) (mkVec KInt int_default_bounds (S len) []) (w_rng w1) = (Raise ValueError, g')).
  { unfold create_vector. cbn [seq mapM]. eexists. unfold bind at 1 2.
    unfold get_random_number_in_bounds. cbn [v_kind v_bounds int_default_bounds]. rewrite randint_empty by lia. reflexivity. }
  destruct Ec as (g' & Ec). eexists.
  unfold bind at 1 2. rewrite (bind_eq_ok _ _ _ _ _ (load_vec_at _ _ _ _ Ha eq_refl)).
  rewrite (bind_eq_raise _ _ _ _ _ (liftR_eq _ _ _ _ Ec)). reflexivity.
Qed.

(** ** C18: failing mutations *)

Lemma apply_raises op inds w e : nle (Fin 1) (op_prob op) = true -> present inds w ->
  (forall w1, gkeep w w1 -> exists w2, (op_apply op inds w1 = (Raise e, w2) \/
                                        (op_apply op inds w1 = (Ok None, w2) /\ e = TypeError)) /\
      forall o, In o inds -> forall i, at_ w1 o = Some i -> exists i', at_ w2 o = Some i' /\ i_fit i' = i_fit i) ->
  NoDup inds ->
  exists w', apply_operator op inds w = (Raise e, w') /\ forall o, In o inds -> unevaluated w' o.
Proof.
  intros Hp Hpr Ha Hnd. unfold apply_operator, with_probability.
  destruct (random_unit_spec (w_rng w)) as (u & g & E & _ & Hu).
  pose proof (gk_liftR random_unit w) as K1.
  rewrite (bind_eq_ok _ _ _ _ _ (liftR_eq _ _ _ _ E)). rewrite (liftR_eq _ _ _ _ E) in K1. simpl in K1.
  set (w1 := mkWorld (w_heap w) (w_next_id w) g) in *.
  rewrite (unit_le u _ Hu Hp).
  destruct (resets_ok inds w1 (present_keep _ _ _ K1 Hpr)) as (w2 & E2 & K2).
  rewrite (bind_eq_ok _ _ _ _ _ E2).
  assert (Hun : forall o, In o inds -> exists i, at_ w2 o = Some i /\ ft_evaluated (i_fit i) = false).
  { assert (Hun : forall l w u w', iterM set_fitness_not_evaluated l w = (Ok u, w') ->
      forall o, (In o l \/ exists i, at_ w o = Some i /\ ft_evaluated (i_fit i) = false) ->
      exists i, at_ w' o = Some i /\ ft_evaluated (i_fit i) = false).
    { clear. intros l. induction l as [|x l IH]; intros w u w' H o Ho; simpl in H.
      - mstep H. destruct Ho as [[]|Ho]; auto.
      - mstep H. apply IH with (o := o) in H1; auto. unfold set_fitness_not_evaluated in H0.
        apply modify_ok in H0. destruct H0 as (i & Hi & ->).
        assert (R : at_ (put_at w x (set_fit (set_not_evaluated (i_fit i)) i)) x = Some (set_fit (set_not_evaluated (i_fit i)) i))
          by (eapply at_put_same; eauto).
        assert (Ev : ft_evaluated (i_fit (set_fit (set_not_evaluated (i_fit i)) i)) = false).
        { simpl. unfold set_not_evaluated. destruct (ft_class (i_fit i)); reflexivity. }
        destruct (Nat.eq_dec x o) as [->|Hne]; [right; eauto|].
        destruct Ho as [[->|Ho]|Ho]; [contradiction|auto|]. right. rewrite at_put_other by assumption. assumption. }
    intros o Ho. eapply Hun; eauto. }
  destruct (Ha w2) as (w3 & Hr & Hfit); [transitivity w1; [exact K1|exact K2]|].
  assert (Hun3 : forall o, In o inds -> unevaluated w3 o).
  { intros o Ho. destruct (Hun o Ho) as (i & Hi & Hev). destruct (Hfit o Ho i Hi) as (i' & Hi' & Hf').
    exists i'. split; [assumption|congruence]. }
  exists w3. split; [|exact Hun3].
  destruct Hr as [Hr|[Hr ->]].
  - rewrite (bind_eq_raise _ _ _ _ _ Hr). reflexivity.
  - rewrite (bind_eq_ok _ _ _ _ _ Hr). reflexivity.
Qed.

Lemma base_mutation_raises op n o rest w v : op_kind op = OVecMut MBase n -> 1 <= op_attempts op ->
  nle (Fin 1) (op_prob op) = true -> NoDup (o :: rest) -> present (o :: rest) w ->
  vec_at w o v -> 1 <= n <= vsize v ->
  exists w', apply_operator op (o :: rest) w = (Raise TypeError, w') /\
             forall o', In o' (o :: rest) -> unevaluated w' o'.
Proof.
  intros Hk Ha Hp Hnd Hpr Hv Hn. apply apply_raises; auto. intros w1 K1.
  pose proof (vec_keep _ _ _ _ K1 Hv) as (i & Hi & Hg).
  unfold op_apply. rewrite Hk. unfold vec_apply, failable_apply. destruct (op_attempts op) as [|k]; [lia|].
  rewrite failable_step. cbn [vec_attempt].
  assert (X : exists w2, vec_attempt MBase n (o :: rest) w1 = (Raise TypeError, w2) /\ frame (fun _ => False) w1 w2).
  { unfold vec_attempt; fold vec_attempt.
    rewrite (bind_eq_ok _ _ _ _ _ (clone_at _ _ _ Hi)).
    set (w2 := push (bump w1) (cloned i (w_next_id w1))).
    assert (F : frame (fun _ => False) w1 w2) by (transitivity (bump w1); [split; auto|apply frame_push]).
    assert (Hi2 : at_ w2 o = Some i). { destruct F as [_ F]. rewrite F; auto. eapply at_lt; eauto. }
    rewrite (bind_eq_ok _ _ _ _ _ (load_vec_at _ _ _ _ Hi2 Hg)).
    destruct (selector_ok MBase n v (w_rng w2)) as (pts & g' & Es); [simpl; lia|].
    rewrite (bind_eq_ok _ _ _ _ _ (liftR_eq _ _ _ _ Es)).
    apply cell_selector_spec in Es. destruct Es as (_ & _ & Hl).
    destruct pts as [|p pts]; [simpl in Hl; lia|].
    eexists. split; [reflexivity|]. exact F. }
  destruct X as (w2 & E & F). rewrite E. exists w2. split; [auto|].
  intros o' Ho' i' Hi'. exists i'. split; [|reflexivity]. destruct F as [_ F]. rewrite F; auto. eapply at_lt; eauto.
Qed.

(** Two cells out of bounds: a one-point mutation can never succeed, so [apply_operator] raises TypeError. *)
Lemma stuck_attempt o w v i a b : at_ w o = Some i -> i_genome i = GVec v -> wf_vec v -> v_kind v = KFloat ->
  a <> b -> (exists x, nth_error (v_cells v) a = Some x /\ ~ in_cell v a x) ->
  (exists x, nth_error (v_cells v) b = Some x /\ ~ in_cell v b x) ->
  exists w', vec_attempt MUniformOne 1 [o] w = (Ok false, w') /\ at_ w' o = Some i.
Proof.
  intros Hi Hg Hw K Hab (x & Hx & Nx) (y & Hy & Ny).
  pose proof (attempt_one MUniformOne 1 o w i v Hi Hg Hw I) as [F A].
  assert (Hsz : a < vsize v) by (eapply nth_error_lt; eauto).
  destruct (vec_attempt MUniformOne 1 [o] w) as [[[|]|e] w'].
  - exfalso. destruct A as (g1 & g2 & g3 & pts & vals & Hc & Hm & _ & Hs & _).
    apply cell_selector_spec in Hc. destruct Hc as (_ & _ & Hl). destruct pts as [|p [|? ?]]; simpl in Hl; try lia.
    destruct Hs as (_ & _ & _ & _ & Hb). cbn [v_bounds v_cells with_cells] in Hb.
    destruct (Nat.eq_dec p a) as [->|Hpa].
    + apply Ny. apply (Hb b y). rewrite set_cells_other; [assumption|]. simpl. intros [?|[]]. congruence.
    + apply Nx. apply (Hb a x). rewrite set_cells_other; [assumption|]. simpl. intros [?|[]]. congruence.
  - exists w'. split; [reflexivity|apply A].
  - exfalso. destruct A as (_ & g1 & [(g2 & Hc)|(g2 & g3 & pts & Hc & Hm)]).
    + destruct (selector_ok MUniformOne 1 v g1) as (pts & g' & E); [simpl; lia|]. congruence.
    + pose proof (cell_selector_spec _ _ _ _ _ _ Hc) as (_ & Hp & Hl). destruct pts as [|p [|? ?]]; simpl in Hl; try lia.
      destruct Hw as (_ & Hpb & _). simpl in Hm.
      destruct (random_float_ok v (vsize v) p g2 K Hpb) as (z & g4 & E); [apply Hp; simpl; auto|].
      rewrite (bind_eq_ok _ _ _ _ _ E) in Hm. discriminate.
Qed.

Lemma stuck_mutation op o w v a b : op_kind op = OVecMut MUniformOne 1 ->
  nle (Fin 1) (op_prob op) = true -> vec_at w o v -> wf_vec v -> v_kind v = KFloat ->
  a <> b -> (exists x, nth_error (v_cells v) a = Some x /\ ~ in_cell v a x) ->
  (exists x, nth_error (v_cells v) b = Some x /\ ~ in_cell v b x) ->
  exists w', apply_operator op [o] w = (Raise TypeError, w') /\ unevaluated w' o.
Proof.
  intros Hk Hp Hv Hw K Hab HA HB.
  destruct (apply_raises op [o] w TypeError Hp) as (w' & E & U).
  - intros o' [<-|[]]. destruct Hv as (i & Hi & _). eauto.
  - intros w1 K1. pose proof (vec_keep _ _ _ _ K1 Hv) as (i & Hi & Hg).
    assert (X : exists w2, op_apply op [o] w1 = (Ok None, w2) /\ at_ w2 o = Some i).
    { unfold op_apply. rewrite Hk. unfold vec_apply, failable_apply.
      assert (G : forall k j w1, gkeep w w1 -> at_ w1 o = Some i -> exists w2,
        failable_from (fun _ => s <- vec_attempt MUniformOne 1 [o] ;; ret (s, Some [o])) (ret None) j k w1 = (Ok None, w2) /\ at_ w2 o = Some i);
        [|apply G; assumption]. clear w1 K1 Hi.
      intros k. induction k as [|k IH]; intros j w1 K1 Hi.
      - simpl. unfold ret. eauto.
      - rewrite failable_step. destruct (stuck_attempt o w1 v i a b Hi Hg Hw K Hab HA HB) as (w2 & E & Hi2).
        rewrite E. apply IH; auto. clear - E K1 Hi Hi2 Hw Hg Hv K Hab. 
        pose proof (attempt_one MUniformOne 1 o w1 i v Hi Hg Hw I) as [F _]. rewrite E in F. simpl in F.
        etransitivity; [exact K1|]. intros o' i' Hi'. destruct (Nat.eq_dec o o') as [<-|Hne].
        + rewrite Hi in Hi'. inv Hi'. eauto.
        + exists i'. split; [|reflexivity]. destruct F as [_ F]. rewrite F; auto. eapply at_lt; eauto. }
    destruct X as (w2 & E & Hi2). exists w2. split; [right; auto|].
    intros o' [<-|[]] i' Hi'. rewrite Hi in Hi'. inv Hi'. eauto.
  - constructor; [intros []|constructor].
  - exists w'. split; [exact E|apply U; simpl; auto].
Qed.
