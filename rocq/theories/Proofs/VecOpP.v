(** Vector operators on the heap. *)
From Verif.Proofs Require Export WorldP VectorP.
From Verif.Model Require Export Operators.
From Verif.Spec Require Import VectorSpec.
From Coq Require Import Lqa.

Lemma set_genome_id i g : i_genome i = g -> set_genome g i = i.
Proof. destruct i; simpl; intros <-; reflexivity. Qed.

Lemma vec_eta v : mkVec (v_kind v) (v_bounds v) (v_length v) (v_cells v) = v.
Proof. destruct v; reflexivity. Qed.

Lemma same_shape_refl v : same_shape v v.
Proof. repeat split. Qed.
Lemma same_shape_trans a b c : same_shape a b -> same_shape b c -> same_shape a c.
Proof. unfold same_shape. intuition congruence. Qed.

(** ** Crossover *)

Lemma kpoint_ok k a b rest w va vb :
  a <> b -> vec_at w a va -> vec_at w b vb -> vsize va = vsize vb -> k < vsize va ->
  exists pts ca cb w',
    kpoint_apply k (a :: b :: rest) w = (Ok (a :: b :: rest), w') /\
    length pts = k /\ StronglySorted lt pts /\ (forall p, In p pts -> 1 <= p < vsize va) /\
    swap_vector_parts k (v_cells va) (v_cells vb) pts = Ok (ca, cb) /\
    vec_at w' a (with_cells va ca) /\ vec_at w' b (with_cells vb cb) /\
    position_mix (v_cells va) (v_cells vb) ca cb /\
    frame (fun o => o = a \/ o = b) w w'.
Proof.
  intros Hne (ia & Ha & Ga) (ib & Hb & Gb) Hs Hk. unfold vsize in *.
  destruct (xo_points_ok k (length (v_cells va)) (w_rng w)) as (pts & g & Ep); [lia|].
  destruct (xo_points_spec _ _ _ _ _ Ep) as (_ & Lp & Sp & Ip).
  destruct (swap_parts_ok k (v_cells va) (v_cells vb) pts Hs Lp Hk) as (ca & cb & Ec & Hm).
  set (w1 := mkWorld (w_heap w) (w_next_id w) g).
  set (w2 := put_at w1 a (set_genome (GVec (with_cells va ca)) ia)).
  assert (Ha1 : at_ w1 a = Some ia) by exact Ha.
  assert (Hb2 : at_ w2 b = Some ib) by (unfold w2; rewrite at_put_other by assumption; exact Hb).
  exists pts, ca, cb, (put_at w2 b (set_genome (GVec (with_cells vb cb)) ib)).
  split.
  { unfold kpoint_apply. rewrite (bind_eq_ok _ _ _ _ _ (load_vec_at _ _ _ _ Ha Ga)).
    rewrite (bind_eq_ok _ _ _ _ _ (liftR_eq _ _ _ _ Ep)). fold w1.
    rewrite (bind_eq_ok _ _ _ _ _ (load_vec_at b w1 ib vb Hb Gb)).
    rewrite Ec. unfold lift at 1. unfold bind at 1. simpl fst. simpl snd.
    unfold put_genome. rewrite (bind_eq_ok _ _ _ _ _ (modify_at _ _ _ _ Ha1)). fold w2.
    rewrite (bind_eq_ok _ _ _ _ _ (modify_at _ _ _ _ Hb2)). reflexivity. }
  repeat (split; [assumption|]).
  split. { eexists. split; [rewrite at_put_other by auto; eapply at_put_same; exact Ha1|reflexivity]. }
  split. { eexists. split; [eapply at_put_same; exact Hb2|reflexivity]. }
  split; [assumption|].
  transitivity w2; [|apply frame_put; auto].
  transitivity w1; [split; auto|]. apply frame_put; auto.
Qed.

(** ** One mutation attempt *)

Lemma in_box_fin v : proper_bounds (v_bounds v) (vsize v) -> in_box (v_bounds v) (v_cells v) ->
  Forall (fun x => is_fin x = true) (v_cells v).
Proof.
  intros Hp Hb. apply Forall_forall. intros x Hx. apply In_nth_error in Hx. destruct Hx as (i & Hi).
  destruct (Hb i x Hi) as (lo & hi & E & H1 & H2).
  assert (P : proper_interval (lo, hi)).
  { destruct (v_bounds v) as [l h|l]; simpl in *; [inv E; exact Hp|].
    destruct Hp as [_ Hp]. rewrite Forall_forall in Hp. apply Hp. eapply nth_error_In; eauto. }
  destruct P as (p & q & E' & _). inv E'.
  destruct x; auto; unfold nle in *; simpl in *; discriminate.
Qed.

Lemma sound_wf v : sound_vec v -> wf_vec v.
Proof.
  intros (Hl & Hp & Hi & H2 & Hb). repeat (split; [assumption|]). apply in_box_fin; assumption.
Qed.

Lemma cell_fin v i x : wf_vec v -> cell_value v i = Ok x -> is_fin x = true.
Proof.
  intros (_ & _ & _ & _ & F) H. unfold cell_value in H. destruct (nth_error (v_cells v) i) eqn:E; inv H.
  rewrite Forall_forall in F. apply F. eapply nth_error_In; eauto.
Qed.

Lemma bit_flip_in v i x : wf_vec v -> bit_flip v i = Ok x ->
  exists lo hi, v_bounds v = BPair lo hi /\ (x = lo \/ x = hi) /\ is_fin x = true.
Proof.
  intros (_ & Hp & _) H. unfold bit_flip in H. destruct (v_kind v); try discriminate.
  destruct (v_bounds v) as [lo hi|]; try discriminate.
  apply rbind_ok in H. destruct H as (c & _ & H). destruct Hp as (p & q & E & _). inv E.
  exists (Fin p), (Fin q). split; [reflexivity|]. inv H. destruct (neq_num c (Fin p)); auto.
Qed.

Lemma mut_val_fin m v i g x g' : wf_vec v -> finite_params m ->
  mut_val m v i g = (Ok x, g') -> is_fin x = true.
Proof.
  intros Hs Hf H. pose proof Hs as (_ & Hp & Hi & _ & Hb).
  assert (U : forall g x g', get_random_number_in_bounds v i g = (Ok x, g') -> is_fin x = true).
  { intros. eapply random_in_bounds in H0; [|eassumption|assumption]. destruct H0 as (? & ? & ? & ? & ? & ?). assumption. }
  assert (B : forall x, bit_flip v i = Ok x -> is_fin x = true).
  { intros y Hy. destruct (bit_flip_in v i y Hs Hy) as (? & ? & ? & ? & ?). assumption. }
  assert (G : forall mu sigma, is_fin mu = true /\ is_fin sigma = true ->
              get_random_number_with_gauss v i mu sigma g = (Ok x, g') -> is_fin x = true).
  { intros mu sigma [Hm Hg] H0. unfold get_random_number_with_gauss in H0.
    destruct (v_kind v); try (mstep H0; fail). mstep H0. 
    unfold lift in H1. injection H1 as H1 Hs1.
    mstep H2. unfold gauss in H0. mstep H0. mstep H4. mstep H3.
    apply cell_fin in H1; [|assumption].
    destruct mu; try discriminate. destruct sigma; try discriminate. destruct x0; try discriminate. reflexivity. }
  destruct m; simpl in *; eauto.
  - mstep H. destruct (nle x0 p_each); [eauto|]. unfold lift in H1. injection H1 as H1 _. eapply cell_fin; eauto.
  - unfold lift in H. injection H as H _. eauto.
  - mstep H. destruct (nle x0 p_each); unfold lift in H1; injection H1 as H1 _; [eauto|eapply cell_fin; eauto].
  - mstep H.
Qed.

Lemma cell_selector_spec m n v g pts g' : cell_selector m n v g = (Ok pts, g') ->
  NoDup pts /\ (forall p, In p pts -> p < vsize v) /\
  length pts = match m with MIntOne _ => vsize v | _ => n end.
Proof.
  assert (Smp : sample (seq 0 (vsize v)) n g = (Ok pts, g') ->
    NoDup pts /\ (forall p, In p pts -> p < vsize v) /\ length pts = n).
  { intros H. apply sample_spec in H. destruct H as (_ & Hl & rest & Hp).
    pose proof (seq_NoDup (vsize v) 0) as Hs. eapply Permutation_NoDup in Hs; [|exact Hp].
    split; [eapply NoDup_app_l; eauto|]. split; [|exact Hl].
    intros p Hx. assert (In p (seq 0 (vsize v))).
    { eapply Permutation_in; [symmetry; exact Hp|]. apply in_or_app. auto. }
    apply in_seq in H. lia. }
  destruct m; simpl; auto. intros H. mstep H. split; [apply seq_NoDup|].
  split; [|apply seq_length]. intros p Hp. apply in_seq in Hp. lia.
Qed.

Lemma mapM_pts m v pts : forall g vals g', wf_vec v -> finite_params m ->
  mapM (mut_val m v) pts g = (Ok vals, g') -> Forall (fun x => is_fin x = true) vals.
Proof.
  intros g vals g' Hs Hf H. apply Forall_forall. intros x Hx.
  eapply mapM_In in H; [|exact Hx]. destruct H as (p & s1 & s2 & _ & H). eapply mut_val_fin; eauto.
Qed.

Lemma set_cells_no_nan c pts vals : no_nan c -> Forall (fun x => is_fin x = true) vals -> no_nan (set_cells c pts vals).
Proof.
  intros Hc. revert c vals Hc. induction pts as [|p pts IH]; intros c [|x vals] Hc Hv; simpl; auto.
  inv Hv. apply IH; [|assumption]. apply Forall_forall. intros y Hy. apply In_nth_error in Hy. destruct Hy as (j & Hj).
  unfold no_nan in Hc. rewrite Forall_forall in Hc.
  destruct (Nat.eq_dec p j) as [->|Hne].
  - destruct (Nat.lt_ge_cases j (length c)).
    + rewrite nth_list_set_same in Hj by assumption. inv Hj. destruct y; auto; discriminate.
    + apply nth_error_lt in Hj. rewrite list_set_length in Hj. lia.
  - rewrite nth_list_set_other in Hj by assumption. apply Hc. eapply nth_error_In; eauto.
Qed.

(** Everything about one attempt on one individual. *)
Definition attempt_result (m : vmut) (n : nat) (o : oid) (i : ind) (v : vec) (w : world)
  (x : res bool * world) : Prop :=
  frame (eq o) w (snd x) /\
  match x with
  | (Ok true, w') =>
      exists g1 g2 g3 pts vals,
        cell_selector m n v g1 = (Ok pts, g2) /\ mapM (mut_val m v) pts g2 = (Ok vals, g3) /\
        let v' := with_cells v (set_cells (v_cells v) pts vals) in
        at_ w' o = Some (set_genome (GVec v') i) /\ sound_vec v' /\ same_shape v v'
  | (Ok false, w') => at_ w' o = Some i /\
      exists g1 g2 g3 pts vals,
        cell_selector m n v g1 = (Ok pts, g2) /\ mapM (mut_val m v) pts g2 = (Ok vals, g3) /\
        ~ in_box (v_bounds v) (set_cells (v_cells v) pts vals)
  | (Raise e, w') => at_ w' o = Some i /\
      exists g1, (exists g2, cell_selector m n v g1 = (Raise e, g2)) \/
        (exists g2 g3 pts, cell_selector m n v g1 = (Ok pts, g2) /\ mapM (mut_val m v) pts g2 = (Raise e, g3))
  end.

Lemma attempt_one m n o w i v : at_ w o = Some i -> i_genome i = GVec v -> wf_vec v -> finite_params m ->
  attempt_result m n o i v w (vec_attempt m n [o] w).
Proof.
  intros Ho Hg Hs Hf. simpl vec_attempt.
  rewrite (bind_eq_ok _ _ _ _ _ (clone_at _ _ _ Ho)).
  set (w1 := push (bump w) (cloned i (w_next_id w))).
  assert (F1 : frame (eq o) w w1).
  { transitivity (bump w); [split; auto|apply frame_push]. }
  assert (Ho1 : at_ w1 o = Some i).
  { pose proof (at_lt _ _ _ Ho). unfold w1. rewrite at_push_old by exact H. exact Ho. }
  rewrite (bind_eq_ok _ _ _ _ _ (load_vec_at _ _ _ _ Ho1 Hg)).
  destruct (cell_selector m n v (w_rng w1)) as [[pts|e] g1] eqn:Ec.
  2:{ rewrite (bind_eq_raise _ _ _ _ _ (liftR_eq _ _ _ _ Ec)). split; [exact F1|]. split; [exact Ho1|].
      exists (w_rng w1). left. eauto. }
  rewrite (bind_eq_ok _ _ _ _ _ (liftR_eq _ _ _ _ Ec)).
  set (w2 := mkWorld (w_heap w1) (w_next_id w1) g1).
  destruct (mapM (mut_val m v) pts (w_rng w2)) as [[vals|e] g2] eqn:Ev.
  2:{ rewrite (bind_eq_raise _ _ _ _ _ (liftR_eq _ _ _ _ Ev)). split; [exact F1|]. split; [exact Ho1|].
      exists (w_rng w1). right. exists g1, g2, pts. auto. }
  rewrite (bind_eq_ok _ _ _ _ _ (liftR_eq _ _ _ _ Ev)).
  set (w3 := mkWorld (w_heap w2) (w_next_id w2) g2).
  set (v' := with_cells v (set_cells (v_cells v) pts vals)).
  assert (Ho3 : at_ w3 o = Some i) by exact Ho1.
  unfold put_genome. rewrite (bind_eq_ok _ _ _ _ _ (modify_at _ _ _ _ Ho3)).
  set (w4 := put_at w3 o (set_genome (GVec v') i)).
  assert (Ho4 : at_ w4 o = Some (set_genome (GVec v') i)) by (eapply at_put_same; exact Ho3).
  assert (F4 : frame (eq o) w w4) by (transitivity w1; [exact F1|apply (frame_put (eq o) w3); reflexivity]).
  assert (Hlen : vsize v' = vsize v) by apply set_cells_length.
  pose proof Hs as (Hl & Hp & Hi & H2 & Hb).
  assert (Nn : no_nan (v_cells v')).
  { apply set_cells_no_nan; [|eapply mapM_pts; eauto]. eapply Forall_impl; [|exact Hb]. intros x. destruct x; simpl; congruence. }
  destruct (check_in_box v') as (r & Hr & Hiff).
  { exact Nn. } { eapply proper_no_nan; exact Hp. }
  { simpl. destruct (v_bounds v) eqn:Eb; auto. split; [|exact H2].
    destruct Hp as [Hp _]. rewrite Hp. symmetry. exact Hlen. }
  rewrite Hr. unfold lift at 1. unfold bind at 1.
  destruct r.
  - split; [exact F4|]. exists (w_rng w1), g1, g2, pts, vals. split; [exact Ec|]. split; [exact Ev|].
    split; [exact Ho4|]. assert (same_shape v v') by (repeat split; exact Hlen). split; [|assumption].
    split; [transitivity (vsize v); [exact Hl|symmetry; exact Hlen]|]. split; [change (proper_bounds (v_bounds v) (vsize v')); rewrite Hlen; exact Hp|]. split; [exact Hi|]. split; [exact H2|].
    apply Hiff. reflexivity.
  - rewrite (bind_eq_ok _ _ _ _ _ (modify_at _ _ _ _ Ho4)). unfold ret. simpl fst; simpl snd.
    split; [transitivity w4; [exact F4|apply frame_put; reflexivity]|].
    split.
    + rewrite (at_put_same _ _ _ _ Ho4). f_equal.
      assert (E : set_vector v' (v_cells v) = v).
      { unfold set_vector, v'. simpl. change (length (v_cells v)) with (vsize v). rewrite <- Hl. apply vec_eta. }
      rewrite E. transitivity (set_genome (GVec v) i); [reflexivity|]. apply set_genome_id. exact Hg.
    + exists (w_rng w1), g1, g2, pts, vals. split; [exact Ec|]. split; [exact Ev|].
      intros Hbox. apply Hiff in Hbox. discriminate.
Qed.

Lemma attempt_cons m n o rest w :
  vec_attempt m n (o :: rest) w =
  bind (vec_attempt m n [o]) (fun ok : bool => if ok then vec_attempt m n rest else ret false) w.
Proof.
  simpl. unfold bind, ret. destruct (clone o w) as [[c|e] w1]; [|reflexivity].
  destruct (load_vec o w1) as [[v|e] w2]; [|reflexivity].
  destruct (liftR (cell_selector m n v) w2) as [[pts|e] w3]; [|reflexivity].
  destruct (liftR (mapM (mut_val m v) pts) w3) as [[vals|e] w4]; [|reflexivity].
  destruct (put_genome o _ w4) as [[u|e] w5]; [|reflexivity].
  destruct (lift _ w5) as [[[|]|e] w6]; [reflexivity| |reflexivity].
  destruct (put_genome o _ w6) as [[u'|e] w7]; reflexivity.
Qed.

Global Arguments vec_attempt : simpl never.

(** ** Soundness of vectors is kept by everything, for all objects *)

Definition vsafe (w w' : world) : Prop :=
  forall o v, vec_at w o v -> sound_vec v -> exists v', vec_at w' o v' /\ sound_vec v' /\ same_shape v v'.

Global Instance vsafe_preorder : PreOrder vsafe.
Proof.
  split.
  - intros w o v H Hs. exists v. split; [assumption|split; [assumption|apply same_shape_refl]].
  - intros a b c H1 H2 o v H Hs. destruct (H1 o v H Hs) as (v1 & Hv1 & Hs1 & S1).
    destruct (H2 o v1 Hv1 Hs1) as (v2 & Hv2 & Hs2 & S2). exists v2.
    split; [assumption|split; [assumption|eapply same_shape_trans; eauto]].
Qed.

(** Every genome stays, and none disappears. *)
Definition gkeep (w w' : world) : Prop :=
  forall o i, at_ w o = Some i -> exists i', at_ w' o = Some i' /\ i_genome i' = i_genome i.

Global Instance gkeep_preorder : PreOrder gkeep.
Proof.
  split.
  - intros w o i H. eauto.
  - intros a b c H1 H2 o i H. destruct (H1 o i H) as (i1 & E1 & G1). destruct (H2 o i1 E1) as (i2 & E2 & G2).
    exists i2. split; congruence.
Qed.

Lemma gkeep_vsafe w w' : gkeep w w' -> vsafe w w'.
Proof.
  intros H o v (i & Hi & Hg) Hs. destruct (H o i Hi) as (i' & Hi' & Hg').
  exists v. split; [exists i'; split; congruence|split; [assumption|apply same_shape_refl]].
Qed.

Lemma gk_load o : steps gkeep (load o).
Proof. intros w. rewrite load_state. reflexivity. Qed.
Lemma gk_put w o i j : at_ w o = Some j -> i_genome i = i_genome j -> gkeep w (put_at w o i).
Proof.
  intros Hj Hg o' i' Hi'. destruct (Nat.eq_dec o o') as [->|Hne].
  - exists i. split; [eapply at_put_same; eauto|]. congruence.
  - exists i'. split; [rewrite at_put_other; auto|reflexivity].
Qed.
Lemma gk_modify o f : (forall i, i_genome (f i) = i_genome i) -> steps gkeep (modify o f).
Proof.
  intros H w. destruct (at_ w o) as [i|] eqn:E.
  - rewrite (modify_at _ _ _ _ E). eapply gk_put; eauto.
  - unfold modify, bind, load. unfold at_ in E. rewrite E. reflexivity.
Qed.
Lemma gk_liftR {A} (m : R A) : steps gkeep (liftR m).
Proof. intros w o i H. exists i. split; [|reflexivity]. unfold at_ in *. rewrite liftR_heap. assumption. Qed.
Lemma gk_clone o : steps gkeep (clone o).
Proof.
  intros w o' i' Hi'. destruct (fr_clone (fun _ => False) o w) as [_ F].
  exists i'. split; [|reflexivity]. rewrite F; auto. eapply at_lt; eauto.
Qed.
Lemma gk_reset o : steps gkeep (set_fitness_not_evaluated o).
Proof. apply gk_modify. reflexivity. Qed.
Lemma gk_record name inds o : steps gkeep (record_applied name inds o).
Proof.
  intros w. unfold record_applied. destruct (at_ w o) as [i|] eqn:E.
  - rewrite (bind_eq_ok _ _ _ _ _ (load_at _ _ _ E)).
    rewrite (bind_eq_ok _ _ _ _ _ (store_at _ _ _ _ E)).
    transitivity (put_at w o (add_applied name i)); [eapply gk_put; eauto|].
    destruct (i_update_parents i); [|reflexivity].
    apply (st_bind gkeep).
    + apply (st_mapM gkeep). intros p _. apply (st_bind gkeep); [apply gk_load|]. intros x. apply (st_ret gkeep).
    + intros ids. apply gk_modify. reflexivity.
  - unfold bind, load. unfold at_ in E. rewrite E. reflexivity.
Qed.

Lemma steps_sub {S A} (R R' : S -> S -> Prop) (m : SE S A) :
  (forall s s', R s s' -> R' s s') -> steps R m -> steps R' m.
Proof. intros H Hm s. apply H, Hm. Qed.

Lemma failable_steps {S A} (R : S -> S -> Prop) {HR : PreOrder R} (att : nat -> SE S (bool * A)) (f : SE S A) :
  (forall i, steps R (att i)) -> steps R f -> forall n i, steps R (failable_from att f i n).
Proof.
  intros Ha Hf n. induction n as [|n IH]; intros i; simpl; [exact Hf|].
  apply (st_bind R); [apply Ha|]. intros r. destruct (fst r); [apply (st_ret R)|apply IH].
Qed.

Definition vsafe_on (inds : list oid) (w w' : world) : Prop := all_sound inds w -> vsafe w w'.

Lemma all_sound_safe inds w w' : vsafe w w' -> all_sound inds w -> all_sound inds w'.
Proof.
  intros H Hw o Ho. destruct (Hw o Ho) as (v & Hv & Hs). destruct (H o v Hv Hs) as (v' & Hv' & Hs' & _). eauto.
Qed.

Global Instance vsafe_on_preorder inds : PreOrder (vsafe_on inds).
Proof.
  split.
  - intros w _. reflexivity.
  - intros a b c H1 H2 Ha. specialize (H1 Ha). transitivity b; [exact H1|].
    apply H2. eapply all_sound_safe; eauto.
Qed.

Lemma vec_at_dec_eq w o v v' : vec_at w o v -> vec_at w o v' -> v = v'.
Proof. intros (i & H & G) (i' & H' & G'). congruence. Qed.

Lemma vs_attempt_one m n o w : finite_params m -> all_sound [o] w -> vsafe w (snd (vec_attempt m n [o] w)).
Proof.
  intros Hf Hw. destruct (Hw o (or_introl eq_refl)) as (v & (i & Ho & Hg) & Hs).
  pose proof (attempt_one m n o w i v Ho Hg (sound_wf _ Hs) Hf) as [F H].
  intros o' v' (i' & Hi' & Hg') Hs'. destruct (Nat.eq_dec o o') as [<-|Hne].
  - rewrite Ho in Hi'. inv Hi'. rewrite Hg in Hg'. inv Hg'.
    destruct (vec_attempt m n [o] w) as [[[|]|e] w1]; simpl.
    + destruct H as (_ & _ & _ & pts & vals & _ & _ & Ha & Hs1 & Sh).
      eexists. split; [eexists; split; [exact Ha|reflexivity]|]. auto.
    + exists v'. split; [exists i'; split; [apply H|assumption]|split; [assumption|apply same_shape_refl]].
    + exists v'. split; [exists i'; split; [apply H|assumption]|split; [assumption|apply same_shape_refl]].
  - exists v'. split; [|split; [assumption|apply same_shape_refl]]. exists i'. split; [|assumption].
    destruct F as [_ F]. rewrite F; auto. eapply at_lt; eauto.
Qed.

Lemma vs_attempt m n inds : finite_params m -> steps (vsafe_on inds) (vec_attempt m n inds).
Proof.
  intros Hf. induction inds as [|o rest IH]; intros w Hw; [reflexivity|].
  rewrite attempt_cons.
  assert (V : vsafe w (snd (vec_attempt m n [o] w))).
  { apply vs_attempt_one; [assumption|]. intros o' [<-|[]]. apply Hw. left. reflexivity. }
  unfold bind. destruct (vec_attempt m n [o] w) as [[[|]|e] w1]; simpl in *; try exact V.
  transitivity w1; [exact V|]. apply IH. eapply all_sound_safe; [exact V|].
  intros o' Ho'. apply Hw. right. assumption.
Qed.

Lemma gk_vs {A} inds (m : M A) : steps gkeep m -> steps (vsafe_on inds) m.
Proof. apply steps_sub. intros s s' H _. apply gkeep_vsafe. exact H. Qed.

Lemma vs_plain m n k inds : finite_params m -> steps (vsafe_on inds) (vec_apply_plain m n k inds).
Proof.
  intros Hf. apply (failable_steps (vsafe_on inds)).
  - intros i. apply (st_bind (vsafe_on inds)); [apply vs_attempt; assumption|]. intros ok. apply (st_ret _).
  - apply (st_ret _).
Qed.

Lemma vs_with_probability name p apply inds :
  steps (vsafe_on inds) (apply inds) -> steps (vsafe_on inds) (with_probability name p apply inds).
Proof.
  intros Ha. unfold with_probability. apply (st_bind (vsafe_on inds)); [apply gk_vs, gk_liftR|]. intros u.
  destruct (nle u p); [|apply (st_ret _)].
  apply (st_bind (vsafe_on inds)); [apply (st_iterM (vsafe_on inds)); intros; apply gk_vs, gk_reset|]. intros u'.
  apply (st_bind (vsafe_on inds)); [exact Ha|]. intros [l|]; [|apply (st_raise _)].
  apply (st_bind (vsafe_on inds)); [apply (st_iterM (vsafe_on inds)); intros; apply gk_vs, gk_record|]. intros u2.
  apply (st_ret _).
Qed.

Lemma vs_apply m n k p inds : finite_params m -> steps (vsafe_on inds) (vec_apply m n k p inds).
Proof.
  intros Hf. apply (failable_steps (vsafe_on inds)).
  - intros i. apply (st_bind (vsafe_on inds)); [apply vs_attempt; assumption|]. intros ok. apply (st_ret _).
  - destruct m; try apply (st_ret (vsafe_on inds)).
    + apply (st_bind (vsafe_on inds)); [|intros; apply (st_ret _)].
      apply vs_with_probability, vs_plain. exact I.
    + apply (st_bind (vsafe_on inds)); [|intros; apply (st_ret _)].
      apply vs_with_probability, vs_plain. exact I.
Qed.

(** A whole application of a vector mutation, whatever its outcome. *)
Lemma mutation_sound o m n inds w o' v : op_kind o = OVecMut m n -> finite_params m -> all_sound inds w ->
  vec_at w o' v -> sound_vec v ->
  exists v', vec_at (snd (apply_operator o inds w)) o' v' /\ sound_vec v' /\ same_shape v v'.
Proof.
  intros Hk Hf Hw. apply (vs_with_probability (okind_name (op_kind o)) (op_prob o) (op_apply o)); [|exact Hw].
  unfold op_apply. rewrite Hk. apply vs_apply. assumption.
Qed.

(** ** One individual: how many cells change *)

Definition D (N : nat) (o : oid) (v : vec) (w : world) : Prop :=
  exists v', vec_at w o v' /\ differ_at_most N (v_cells v) (v_cells v').

Lemma D_same N o v w : vec_at w o v -> D N o v w.
Proof. intros H. exists v. split; [assumption|]. split; [reflexivity|]. exists []. split; [simpl; lia|auto]. Qed.

Lemma D_keep N o v w w' : gkeep w w' -> D N o v w -> D N o v w'.
Proof.
  intros H (v' & (i & Hi & Hg) & Hd). destruct (H o i Hi) as (i' & Hi' & Hg').
  exists v'. split; [exists i'; split; congruence|assumption].
Qed.

Lemma vec_keep o v w w' : gkeep w w' -> vec_at w o v -> vec_at w' o v.
Proof. intros H (i & Hi & Hg). destruct (H o i Hi) as (i' & Hi' & Hg'). exists i'. split; congruence. Qed.

Definition plain_n (m : vmut) (n : nat) (v : vec) : nat := match m with MIntOne _ => vsize v | _ => n end.

Lemma failable_step {S A} (att : SE S bool) (a : A) onf j k s :
  failable_from (fun _ => ok <- att ;; ret (ok, a)) onf j (Datatypes.S k) s =
  match att s with
  | (Ok true, s1) => (Ok a, s1)
  | (Ok false, s1) => failable_from (fun _ => ok <- att ;; ret (ok, a)) onf (Datatypes.S j) k s1
  | (Raise e, s1) => (Raise e, s1)
  end.
Proof. cbn [failable_from]. unfold bind, ret. destruct (att s) as [[[|]|e] s1]; reflexivity. Qed.

Lemma attempt_loop_one m n o k onf : forall j w v, vec_at w o v -> sound_vec v -> finite_params m ->
  let x := failable_from (fun _ => ok <- vec_attempt m n [o] ;; ret (ok, Some [o])) onf j k w in
  (exists w1, vec_at w1 o v /\ x = onf w1) \/ D (plain_n m n v) o v (snd x).
Proof.
  induction k as [|k IH]; intros j w v Hv Hs Hf.
  - left. exists w. auto.
  - pose proof Hv as (i & Hi & Hg). pose proof (attempt_one m n o w i v Hi Hg (sound_wf _ Hs) Hf) as [F H].
    rewrite failable_step. destruct (vec_attempt m n [o] w) as [[[|]|e] w1]; cbv zeta.
    + right. destruct H as (g1 & g2 & g3 & pts & vals & Hc & _ & Ha & _).
      exists (with_cells v (set_cells (v_cells v) pts vals)). split; [eexists; split; [exact Ha|reflexivity]|].
      apply cell_selector_spec in Hc. destruct Hc as (_ & _ & Hc). simpl v_cells.
      eapply differ_weaken; [|apply set_cells_differ]. rewrite Hc. destruct m; simpl; lia.
    + apply IH; [exists i; split; [apply H|assumption]|assumption|assumption].
    + right. apply D_same. exists i. split; [apply H|assumption].
Qed.

Lemma plain_D m n k o w v : vec_at w o v -> sound_vec v -> finite_params m ->
  D (plain_n m n v) o v (snd (vec_apply_plain m n k [o] w)).
Proof.
  intros Hv Hs Hf. unfold vec_apply_plain, failable_apply.
  destruct (attempt_loop_one m n o k (ret None) 0 w v Hv Hs Hf) as [(w1 & Hv1 & ->)|H]; [|exact H].
  apply D_same. assumption.
Qed.

Lemma with_probability_D N name p apply inds o w v : vec_at w o v ->
  (forall w1, vec_at w1 o v -> D N o v (snd (apply inds w1))) ->
  D N o v (snd (with_probability name p apply inds w)).
Proof.
  intros Hv Ha. unfold with_probability.
  pose proof (gk_liftR random_unit w) as K1. unfold bind at 1.
  destruct (liftR random_unit w) as [[u|e] w1]; simpl in *; [|apply D_same; eapply vec_keep; eauto].
  pose proof (vec_keep _ _ _ _ K1 Hv) as Hv1.
  destruct (nle u p); [|apply D_same; assumption].
  pose proof (st_iterM gkeep set_fitness_not_evaluated inds (fun x _ => gk_reset x) w1) as K2.
  unfold bind at 1. destruct (iterM set_fitness_not_evaluated inds w1) as [[u'|e] w2]; simpl in K2;
    [|apply D_same; eapply vec_keep; eauto].
  pose proof (vec_keep _ _ _ _ K2 Hv1) as Hv2. specialize (Ha w2 Hv2).
  unfold bind at 1. destruct (apply inds w2) as [[[l|]|e] w3]; simpl in *; auto.
  pose proof (st_iterM gkeep (record_applied name inds) l (fun x _ => gk_record name inds x) w3) as K3.
  unfold bind at 1. destruct (iterM (record_applied name inds) l w3) as [[u2|e] w4]; simpl in *;
    eapply D_keep; eauto.
Qed.

Lemma mutation_at_most op m n o w v : op_kind op = OVecMut m n -> finite_params m -> counts m n ->
  vec_at w o v -> sound_vec v ->
  exists v', vec_at (snd (apply_operator op [o] w)) o v' /\ differ_at_most n (v_cells v) (v_cells v').
Proof.
  intros Hk Hf Hc Hv Hs. change (D n o v (snd (apply_operator op [o] w))).
  unfold apply_operator. apply with_probability_D; [assumption|]. intros w1 Hv1.
  unfold op_apply. rewrite Hk. unfold vec_apply, failable_apply.
  assert (Hn : plain_n m n v = n) by (destruct m; simpl in *; tauto || reflexivity).
  match goal with |- context [failable_from ?a ?f 0 ?k w1] =>
    destruct (attempt_loop_one m n o k f 0 w1 v Hv1 Hs Hf) as [(w2 & Hv2 & E)|H] end.
  - rewrite E. destruct m; try (apply D_same; assumption).
    + unfold bind. pose proof (with_probability_D 1 (vmut_name MUniformOne) (op_prob op) (vec_apply_plain MUniformOne 1 5) [o] o w2 v Hv2) as P.
      simpl in Hc. subst n.
      destruct (with_probability _ _ _ _ w2) as [[l|e] w3]; apply P; intros w4 Hv4;
        apply (plain_D MUniformOne 1 5 o w4 v Hv4 Hs I).
    + unfold bind. pose proof (with_probability_D n (vmut_name MUniformN) (op_prob op) (vec_apply_plain MUniformN n 5) [o] o w2 v Hv2) as P.
      destruct (with_probability _ _ _ _ w2) as [[l|e] w3]; apply P; intros w4 Hv4;
        apply (plain_D MUniformN n 5 o w4 v Hv4 Hs I).
  - rewrite Hn in H. exact H.
Qed.

(** ** When mutations cannot fail *)

Lemma random_ok v n i g : creatable n (v_bounds v) (v_kind v) -> i < n ->
  exists x g', get_random_number_in_bounds v i g = (Ok x, g').
Proof.
  intros (Hp & Hi & Hd) Hlt.
  assert (I : forall lo hi, proper_interval (lo, hi) -> integral lo /\ integral hi ->
              exists x g', randint lo hi g = (Ok x, g')).
  { intros lo hi (p & q & E & Hpq) ((a & ->) & (b & ->)). injection E as E1 E2; subst p q.
    apply randint_ok. rewrite Zle_Qle. assumption. }
  destruct (v_kind v) eqn:K.
  - unfold get_random_number_in_bounds. rewrite K. specialize (Hi ltac:(discriminate)).
    destruct (v_bounds v) as [lo hi|l]; simpl in *; [apply I; assumption|].
    destruct Hp as [Hl Hp]. destruct (nth_error_ex l i) as ((lo & hi) & E); [lia|]. rewrite E.
    rewrite Forall_forall in Hp, Hi. apply I; [apply Hp|apply (Hi (lo, hi))]; eapply nth_error_In; eauto.
  - eapply random_float_ok; eassumption.
  - unfold get_random_number_in_bounds. rewrite K. destruct (Hd eq_refl) as (lo & hi & E). rewrite E in *.
    apply I; [exact Hp|]. apply (Hi ltac:(discriminate)).
Qed.

Lemma cell_ok v i : i < vsize v -> exists x, cell_value v i = Ok x.
Proof. intros H. unfold cell_value. destruct (nth_error_ex (v_cells v) i H) as (x & ->). eauto. Qed.

Lemma bit_flip_ok v i : v_kind v = KBit -> (exists lo hi, v_bounds v = BPair lo hi) -> i < vsize v ->
  exists x, bit_flip v i = Ok x.
Proof.
  intros K (lo & hi & B) H. unfold bit_flip. rewrite K, B. destruct (cell_ok v i H) as (x & ->). simpl. eauto.
Qed.

Lemma nle_refl x : is_fin x = true -> nle x x = true.
Proof. destruct x; try discriminate. intros _. apply nle_fin. lra. Qed.

Lemma mut_val_inside m v i g : sound_vec v -> draws_inside m v -> i < vsize v ->
  exists x g', mut_val m v i g = (Ok x, g') /\ in_cell v i x.
Proof.
  intros Hs Hd Hi. pose proof Hs as (_ & Hp & Hint & _ & Hb).
  assert (U : forall g, (v_kind v = KBit -> exists lo hi, v_bounds v = BPair lo hi) ->
            exists x g', get_random_number_in_bounds v i g = (Ok x, g') /\ in_cell v i x).
  { intros g0 H. destruct (random_ok v (vsize v) i g0 (conj Hp (conj Hint H)) Hi) as (x & g' & E). exists x, g'. split; [exact E|].
    eapply random_in_bounds in E; eauto. destruct E as (lo & hi & E1 & E2 & E3 & _). exists lo, hi. auto. }
  assert (C : exists x, cell_value v i = Ok x /\ in_cell v i x).
  { destruct (cell_ok v i Hi) as (x & E). exists x. split; [exact E|]. unfold cell_value in E.
    destruct (nth_error (v_cells v) i) eqn:En; inv E. apply (Hb _ _ En). }
  assert (B : v_kind v = KBit /\ (exists lo hi, v_bounds v = BPair lo hi) -> exists x, bit_flip v i = Ok x /\ in_cell v i x).
  { intros [K Bd]. destruct (bit_flip_ok v i K Bd Hi) as (x & E). exists x. split; [exact E|].
    destruct (bit_flip_in v i x (sound_wf _ Hs) E) as (lo & hi & Eb & Hx & _). exists lo, hi. rewrite Eb in *. split; [reflexivity|].
    destruct Hp as (p & q & Epq & Hpq). inv Epq.
    destruct Hx as [->| ->]; rewrite !nle_fin; split; try lra; assumption. }
  destruct m; simpl in *; try contradiction; auto.
  - destruct (random_unit_spec g) as (u & g1 & E & _). rewrite (bind_eq_ok _ _ _ _ _ E).
    destruct (nle (Fin u) p_each); [auto|]. destruct C as (x & -> & Hx). unfold lift. eauto.
  - destruct (B Hd) as (x & -> & Hx). unfold lift. eauto.
  - destruct (random_unit_spec g) as (u & g1 & E & _). rewrite (bind_eq_ok _ _ _ _ _ E).
    destruct (nle (Fin u) p_each); [|destruct C as (x & -> & Hx); unfold lift; eauto].
    destruct (B Hd) as (x & -> & Hx). unfold lift. eauto.
Qed.

Lemma mapM_inside m v pts : sound_vec v -> draws_inside m v -> (forall p, In p pts -> p < vsize v) -> forall g,
  exists vals g', mapM (mut_val m v) pts g = (Ok vals, g') /\ Forall2 (in_cell v) pts vals.
Proof.
  intros Hs Hd. induction pts as [|p pts IH]; intros Hp g; simpl.
  - exists [], g. split; [reflexivity|constructor].
  - destruct (mut_val_inside m v p g Hs Hd) as (x & g1 & E & Hx); [apply Hp; simpl; auto|].
    rewrite (bind_eq_ok _ _ _ _ _ E).
    destruct (IH (fun q Hq => Hp q (or_intror Hq)) g1) as (vals & g2 & E2 & H2).
    rewrite (bind_eq_ok _ _ _ _ _ E2). unfold ret. eexists. eexists. split; [reflexivity|]. constructor; assumption.
Qed.

Lemma Forall2_nth_error {A B} (Rl : A -> B -> Prop) l l' j x y :
  Forall2 Rl l l' -> nth_error l j = Some x -> nth_error l' j = Some y -> Rl x y.
Proof. intros H. revert j. induction H; intros [|j] H1 H2; simpl in *; try discriminate; [congruence|eauto]. Qed.

Lemma set_cells_in_box v pts vals : in_box (v_bounds v) (v_cells v) -> Forall2 (in_cell v) pts vals ->
  in_box (v_bounds v) (set_cells (v_cells v) pts vals).
Proof.
  intros Hb Hf i x Hx. destruct (set_cells_In _ _ _ _ _ (Forall2_len _ _ _ Hf) Hx) as [H|(j & H1 & H2)].
  - apply (Hb _ _ H).
  - exact (Forall2_nth_error _ _ _ _ _ _ Hf H1 H2).
Qed.

Lemma selector_ok m n v g : match m with MIntOne _ => True | _ => n <= vsize v end ->
  exists pts g', cell_selector m n v g = (Ok pts, g').
Proof.
  intros H. destruct m; simpl in *; try (apply sample_ok; rewrite seq_length; assumption).
  unfold ret. eauto.
Qed.

Lemma inside_finite m v : draws_inside m v -> finite_params m.
Proof. destruct m; simpl; tauto. Qed.

Lemma attempt_inside m n o w v : vec_at w o v -> sound_vec v -> draws_inside m v -> enough m n v ->
  exists w', vec_attempt m n [o] w = (Ok true, w').
Proof.
  intros (i & Hi & Hg) Hs Hd He.
  pose proof (attempt_one m n o w i v Hi Hg (sound_wf _ Hs) (inside_finite _ _ Hd)) as [_ H].
  destruct (vec_attempt m n [o] w) as [[[|]|e] w'].
  - eauto.
  - exfalso. destruct H as (_ & g1 & g2 & g3 & pts & vals & Hc & Hm & Hn). apply Hn.
    pose proof (cell_selector_spec _ _ _ _ _ _ Hc) as (_ & Hp & _).
    destruct (mapM_inside m v pts Hs Hd Hp g2) as (vals' & g' & E & Hf). rewrite E in Hm. inv Hm.
    apply set_cells_in_box; [apply Hs|assumption].
  - exfalso. destruct H as (_ & g1 & [(g2 & Hc)|(g2 & g3 & pts & Hc & Hm)]).
    + destruct (selector_ok m n v g1 He) as (pts & g' & E). congruence.
    + pose proof (cell_selector_spec _ _ _ _ _ _ Hc) as (_ & Hp & _).
      destruct (mapM_inside m v pts Hs Hd Hp g2) as (vals' & g' & E & _). congruence.
Qed.

Lemma all_vec_sound Pv inds w : all_vec Pv inds w -> all_sound inds w.
Proof. intros H o Ho. destruct (H o Ho) as (v & ? & ? & ?). eauto. Qed.

Lemma all_vec_safe (Pv : vec -> Prop) inds w w' : (forall v v', same_shape v v' -> Pv v -> Pv v') ->
  vsafe w w' -> all_vec Pv inds w -> all_vec Pv inds w'.
Proof.
  intros HP H Hw o Ho. destruct (Hw o Ho) as (v & Hv & Hs & Hpv).
  destruct (H o v Hv Hs) as (v' & Hv' & Hs' & Sh). exists v'. eauto.
Qed.

Lemma inside_shape m n v v' : same_shape v v' -> draws_inside m v /\ enough m n v -> draws_inside m v' /\ enough m n v'.
Proof.
  intros (E1 & E2 & _ & E4). unfold draws_inside, enough. rewrite E1, E2, E4. tauto.
Qed.

Lemma attempts_inside m n inds : forall w, all_vec (fun v => draws_inside m v /\ enough m n v) inds w ->
  exists w', vec_attempt m n inds w = (Ok true, w').
Proof.
  induction inds as [|o rest IH]; intros w Hw.
  - exists w. reflexivity.
  - rewrite attempt_cons. destruct (Hw o (or_introl eq_refl)) as (v & Hv & Hs & Hd & He).
    destruct (attempt_inside m n o w v Hv Hs Hd He) as (w1 & E). rewrite (bind_eq_ok _ _ _ _ _ E).
    apply IH. assert (V : vsafe w w1).
    { change w1 with (snd (Ok true, w1)). rewrite <- E. apply vs_attempt_one; [eapply inside_finite; eauto|].
      intros o' [<-|[]]. eauto. }
    eapply all_vec_safe; [intros; eapply inside_shape; eauto|exact V|]. intros o' Ho'. apply Hw. right. assumption.
Qed.

(** Gaussian attempts do not raise. *)
Lemma mut_val_gauss m v i g : is_gauss m -> v_kind v = KFloat -> i < vsize v ->
  exists x g', mut_val m v i g = (Ok x, g').
Proof.
  intros Hm K Hi. destruct m; simpl in *; try contradiction;
    unfold get_random_number_with_gauss; rewrite K; destruct (cell_ok v i Hi) as (x & ->);
    unfold lift, bind, gauss, bind, next_draw, ret; eauto.
Qed.

Lemma attempt_gauss m n o w v : vec_at w o v -> sound_vec v -> is_gauss m -> finite_params m -> v_kind v = KFloat ->
  n <= vsize v -> exists b w', vec_attempt m n [o] w = (Ok b, w').
Proof.
  intros (i & Hi & Hg) Hs Hm Hf K He.
  pose proof (attempt_one m n o w i v Hi Hg (sound_wf _ Hs) Hf) as [_ H].
  destruct (vec_attempt m n [o] w) as [[b|e] w']; [eauto|exfalso].
  destruct H as (_ & g1 & [(g2 & Hc)|(g2 & g3 & pts & Hc & Hmap)]).
  - destruct (selector_ok m n v g1) as (pts & g' & E); [destruct m; simpl in *; auto|]. congruence.
  - pose proof (cell_selector_spec _ _ _ _ _ _ Hc) as (_ & Hp & _).
    assert (exists vals g', mapM (mut_val m v) pts g2 = (Ok vals, g')) as (vals & g' & E); [|congruence].
    clear - Hm K Hp. revert g2. induction pts as [|p pts IH]; intros g2; simpl; [unfold ret; eauto|].
    destruct (mut_val_gauss m v p g2 Hm K) as (x & g1 & E); [apply Hp; simpl; auto|].
    rewrite (bind_eq_ok _ _ _ _ _ E). destruct (IH (fun q Hq => Hp q (or_intror Hq)) g1) as (vals & g' & E').
    rewrite (bind_eq_ok _ _ _ _ _ E'). unfold ret. eauto.
Qed.

Lemma attempts_gauss m n inds : is_gauss m -> finite_params m -> forall w,
  all_vec (fun v => v_kind v = KFloat /\ n <= vsize v) inds w ->
  exists b w', vec_attempt m n inds w = (Ok b, w').
Proof.
  intros Hm Hf. induction inds as [|o rest IH]; intros w Hw.
  - exists true, w. reflexivity.
  - rewrite attempt_cons. destruct (Hw o (or_introl eq_refl)) as (v & Hv & Hs & K & He).
    destruct (attempt_gauss m n o w v Hv Hs Hm Hf K He) as (b & w1 & E). rewrite (bind_eq_ok _ _ _ _ _ E).
    destruct b; [|unfold ret; eauto].
    apply IH. assert (V : vsafe w w1).
    { change w1 with (snd (Ok true, w1)). rewrite <- E. apply vs_attempt_one; [assumption|].
      intros o' [<-|[]]. eauto. }
    eapply all_vec_safe; [|exact V|].
    + intros v1 v2 (E1 & _ & _ & E4). rewrite E1, E4. tauto.
    + intros o' Ho'. apply Hw. right. assumption.
Qed.

(** ** The parts of [apply_operator] around [apply] *)

Lemma present_keep inds w w' : gkeep w w' -> present inds w -> present inds w'.
Proof. intros H Hw o Ho. destruct (Hw o Ho) as (i & Hi). destruct (H o i Hi) as (i' & Hi' & _). eauto. Qed.

Lemma sound_present inds w : all_sound inds w -> present inds w.
Proof. intros H o Ho. destruct (H o Ho) as (v & (i & Hi & _) & _). eauto. Qed.

Lemma load_ids_ok inputs w : present inputs w ->
  exists ids, mapM (fun p => x <- load p ;; ret (i_id x)) inputs w = (Ok ids, w).
Proof.
  induction inputs as [|p l IH]; intros H; simpl; [unfold ret; eauto|].
  destruct (H p (or_introl eq_refl)) as (i & Hi). unfold bind at 1. rewrite (bind_eq_ok _ _ _ _ _ (load_at _ _ _ Hi)).
  unfold ret at 1. destruct IH as (ids & E); [intros o Ho; apply H; right; assumption|].
  rewrite (bind_eq_ok _ _ _ _ _ E). unfold ret. eauto.
Qed.

Lemma record_ok name inputs o w : present inputs w -> present [o] w ->
  exists w', record_applied name inputs o w = (Ok tt, w').
Proof.
  intros Hp Ho. destruct (Ho o (or_introl eq_refl)) as (i & Hi). unfold record_applied.
  rewrite (bind_eq_ok _ _ _ _ _ (load_at _ _ _ Hi)). rewrite (bind_eq_ok _ _ _ _ _ (store_at _ _ _ _ Hi)).
  destruct (i_update_parents i); [|unfold ret; eauto].
  destruct (load_ids_ok inputs (put_at w o (add_applied name i))) as (ids & E).
  { eapply present_keep; [|exact Hp]. eapply gk_put; eauto. }
  rewrite (bind_eq_ok _ _ _ _ _ E). erewrite modify_at by (eapply at_put_same; eauto). eauto.
Qed.

Lemma iterM_ok {S A} (f : A -> SE S unit) l (I : S -> Prop) :
  (forall x s, In x l -> I s -> exists s', f x s = (Ok tt, s') /\ I s') ->
  forall s, I s -> exists s', iterM f l s = (Ok tt, s') /\ I s'.
Proof.
  induction l as [|x l IH]; intros H s Hs; simpl; [unfold ret; eauto|].
  destruct (H x s (or_introl eq_refl) Hs) as (s1 & E & H1). rewrite (bind_eq_ok _ _ _ _ _ E).
  apply IH; [intros; apply H; simpl; auto|assumption].
Qed.

Lemma resets_ok inds w : present inds w -> exists w', iterM set_fitness_not_evaluated inds w = (Ok tt, w') /\ gkeep w w'.
Proof.
  intros Hp. destruct (iterM_ok set_fitness_not_evaluated inds (fun w1 => gkeep w w1)) with (s := w) as (w' & E & K).
  - intros o w1 Ho K. destruct (present_keep _ _ _ K Hp o Ho) as (i & Hi).
    unfold set_fitness_not_evaluated. rewrite (modify_at _ _ _ _ Hi). eexists. split; [reflexivity|].
    etransitivity; [exact K|]. eapply gk_put; eauto.
  - reflexivity.
  - eauto.
Qed.

Lemma records_ok name inputs l w : present inputs w -> present l w ->
  exists w', iterM (record_applied name inputs) l w = (Ok tt, w') /\ gkeep w w'.
Proof.
  intros Hp Hl. destruct (iterM_ok (record_applied name inputs) l (fun w1 => gkeep w w1)) with (s := w) as (w' & E & K).
  - intros o w1 Ho K. destruct (record_ok name inputs o w1) as (w2 & E).
    + eapply present_keep; eauto.
    + intros o' [<-|[]]. eapply present_keep; eauto.
    + exists w2. split; [exact E|]. etransitivity; [exact K|].
      change w2 with (snd (Ok tt, w2)). rewrite <- E. apply gk_record.
  - reflexivity.
  - eauto.
Qed.

Lemma with_probability_ok name p apply inds w (I : world -> Prop) :
  (forall w w', gkeep w w' -> I w -> I w') -> (forall w, I w -> present inds w) ->
  (forall w, I w -> exists w', apply inds w = (Ok (Some inds), w') /\ I w') ->
  I w -> exists w', with_probability name p apply inds w = (Ok inds, w') /\ I w'.
Proof.
  intros Hk Hpr Ha Hw. unfold with_probability.
  destruct (random_unit_spec (w_rng w)) as (u & g & E & _).
  pose proof (gk_liftR random_unit w) as K1.
  rewrite (bind_eq_ok _ _ _ _ _ (liftR_eq _ _ _ _ E)). rewrite (liftR_eq _ _ _ _ E) in K1. simpl in K1.
  set (w1 := mkWorld (w_heap w) (w_next_id w) g) in *.
  assert (I1 : I w1) by (eapply Hk; eauto).
  destruct (nle (Fin u) p); [|unfold ret; eauto].
  destruct (resets_ok inds w1 (Hpr _ I1)) as (w2 & E2 & K2). rewrite (bind_eq_ok _ _ _ _ _ E2).
  assert (I2 : I w2) by (eapply Hk; eauto).
  destruct (Ha w2 I2) as (w3 & E3 & I3). rewrite (bind_eq_ok _ _ _ _ _ E3).
  destruct (records_ok name inds inds w3 (Hpr _ I3) (Hpr _ I3)) as (w4 & E4 & K4).
  rewrite (bind_eq_ok _ _ _ _ _ E4). unfold ret. eauto.
Qed.

Lemma all_vec_keep Pv inds w w' : gkeep w w' -> all_vec Pv inds w -> all_vec Pv inds w'.
Proof.
  intros K H o Ho. destruct (H o Ho) as (v & Hv & Hs & Hpv). exists v. split; [eapply vec_keep; eauto|auto].
Qed.

Lemma plain_inside m n k inds w : 1 <= k -> all_vec (fun v => draws_inside m v /\ enough m n v) inds w -> finite_params m ->
  exists w', vec_apply_plain m n k inds w = (Ok (Some inds), w') /\
             all_vec (fun v => draws_inside m v /\ enough m n v) inds w'.
Proof.
  intros Hk Hw Hf. destruct k as [|k]; [lia|]. unfold vec_apply_plain, failable_apply. simpl.
  destruct (attempts_inside m n inds w Hw) as (w1 & E). exists w1. split.
  - unfold bind at 1. rewrite (bind_eq_ok _ _ _ _ _ E). reflexivity.
  - eapply all_vec_safe; [intros; eapply inside_shape; eauto| |exact Hw].
    change w1 with (snd (Ok true, w1)). rewrite <- E. apply vs_attempt; [assumption|eapply all_vec_sound; eauto].
Qed.

(** Mutations that draw inside the bounds always succeed. *)
Lemma inside_never_fails op m n inds w : op_kind op = OVecMut m n -> 1 <= op_attempts op -> finite_params m ->
  all_vec (fun v => draws_inside m v /\ enough m n v) inds w ->
  exists w', apply_operator op inds w = (Ok inds, w') /\ all_sound inds w'.
Proof.
  intros Hk Ha Hf Hw. unfold apply_operator.
  destruct (with_probability_ok (okind_name (op_kind op)) (op_prob op) (op_apply op) inds w
              (all_vec (fun v => draws_inside m v /\ enough m n v) inds)) as (w' & E & I').
  - intros; eapply all_vec_keep; eauto.
  - intros. eapply sound_present, all_vec_sound; eauto.
  - intros w1 I1. unfold op_apply. rewrite Hk. unfold vec_apply, failable_apply.
    destruct (op_attempts op) as [|k]; [lia|]. cbn [failable_from].
    destruct (attempts_inside m n inds w1 I1) as (w2 & E). exists w2. split.
    + unfold bind at 1. rewrite (bind_eq_ok _ _ _ _ _ E). reflexivity.
    + eapply all_vec_safe; [intros; eapply inside_shape; eauto| |exact I1].
      change w2 with (snd (Ok true, w2)). rewrite <- E. apply vs_attempt; [assumption|eapply all_vec_sound; eauto].
  - exact Hw.
  - exists w'. split; [exact E|eapply all_vec_sound; eauto].
Qed.

(** Gaussian mutation never raises and never leaves the bounds. *)
Lemma gauss_total op m n inds w : op_kind op = OVecMut m n -> is_gauss m -> finite_params m -> 1 <= n ->
  all_vec (fun v => v_kind v = KFloat /\ n <= vsize v) inds w ->
  exists w', apply_operator op inds w = (Ok inds, w') /\ all_sound inds w'.
Proof.
  intros Hk Hm Hf Hn Hw. set (I := all_vec (fun v => v_kind v = KFloat /\ n <= vsize v) inds).
  assert (Sh : forall v v', same_shape v v' -> v_kind v = KFloat /\ n <= vsize v -> v_kind v' = KFloat /\ n <= vsize v').
  { intros v1 v2 (E1 & _ & _ & E4). rewrite E1, E4. tauto. }
  assert (IK : forall w w', gkeep w w' -> I w -> I w') by (intros; eapply all_vec_keep; eauto).
  assert (IP : forall w, I w -> present inds w) by (intros; eapply sound_present, all_vec_sound; eauto).
  assert (fallback : forall m' n' w, (m' = MUniformOne \/ m' = MUniformN) -> n' <= n -> I w ->
    exists w', (r <- with_probability (vmut_name m') (op_prob op) (vec_apply_plain m' n' 5) inds ;; ret (Some r)) w
               = (Ok (Some inds), w') /\ I w').
  { intros m' n' w1 Hm' Hn' I1.
    assert (Hf' : finite_params m') by (destruct Hm' as [-> | ->]; exact Logic.I).
    destruct (with_probability_ok (vmut_name m') (op_prob op) (vec_apply_plain m' n' 5) inds w1 I IK IP) as (w2 & E & I2).
    - intros w3 I3. assert (I3' : all_vec (fun v => draws_inside m' v /\ enough m' n' v) inds w3).
      { intros o Ho. destruct (I3 o Ho) as (v & Hv & Hs & K & L). exists v. split; [assumption|split; [assumption|]].
        destruct Hm' as [-> | ->]; simpl; split; try lia; intros K'; congruence. }
      destruct (plain_inside m' n' 5 inds w3 ltac:(lia) I3' Hf') as (w4 & E & _). exists w4. split; [exact E|].
      eapply all_vec_safe; [exact Sh| |exact I3].
      change w4 with (snd (Ok (Some inds), w4)). rewrite <- E. apply vs_plain; [assumption|eapply all_vec_sound; eauto].
    - exact I1.
    - rewrite (bind_eq_ok _ _ _ _ _ E). unfold ret. eauto. }
  unfold apply_operator.
  destruct (with_probability_ok (okind_name (op_kind op)) (op_prob op) (op_apply op) inds w I IK IP) as (w' & E & I').
  - intros w1 I1. unfold op_apply. rewrite Hk. unfold vec_apply, failable_apply.
    match goal with |- context [failable_from _ ?f 0 _] => set (onf := f) end.
    assert (Hon : forall w, I w -> exists w', onf w = (Ok (Some inds), w') /\ I w').
    { intros w2 I2. unfold onf. destruct m; simpl in Hm; try contradiction; apply fallback; auto. }
    clearbody onf. generalize 0 as j.
    revert w1 I1. induction (op_attempts op) as [|k IH]; intros w1 I1 j.
    + apply Hon. exact I1.
    + rewrite failable_step. destruct (attempts_gauss m n inds Hm Hf w1 I1) as (b & w2 & E). rewrite E.
      assert (I2 : I w2).
      { eapply all_vec_safe; [exact Sh| |exact I1].
        change w2 with (snd (Ok b, w2)). rewrite <- E. apply vs_attempt; [assumption|eapply all_vec_sound; eauto]. }
      destruct b; [eauto|]. apply IH. exact I2.
  - exact Hw.
  - exists w'. split; [exact E|eapply all_vec_sound; eauto].
Qed.

(** ** A first attempt that succeeds, spelled out *)

Lemma unit_le u p : (u < 1)%Q -> nle (Fin 1) p = true -> nle (Fin u) p = true.
Proof.
  intros Hu Hp. destruct p; auto; unfold nle in *; simpl in *; try discriminate.
  rewrite orb_true_iff in *. destruct (Qlt_le_dec u q) as [H|H]; [left; apply Qlt_b_spec; assumption|].
  exfalso. destruct Hp as [Hp|Hp]; [apply Qlt_b_spec in Hp; lra|]. apply Qeq_bool_eq in Hp. lra.
Qed.

Lemma applied_one op m n o w v : op_kind op = OVecMut m n -> 1 <= op_attempts op -> nle (Fin 1) (op_prob op) = true ->
  vec_at w o v -> sound_vec v -> draws_inside m v -> enough m n v ->
  exists g1 g2 g3 pts vals w',
    apply_operator op [o] w = (Ok [o], w') /\
    cell_selector m n v g1 = (Ok pts, g2) /\ mapM (mut_val m v) pts g2 = (Ok vals, g3) /\
    vec_at w' o (with_cells v (set_cells (v_cells v) pts vals)).
Proof.
  intros Hk Ha Hp Hv Hs Hd He. unfold apply_operator, with_probability.
  destruct (random_unit_spec (w_rng w)) as (u & g & E & _ & Hu).
  pose proof (gk_liftR random_unit w) as K1.
  rewrite (bind_eq_ok _ _ _ _ _ (liftR_eq _ _ _ _ E)). rewrite (liftR_eq _ _ _ _ E) in K1. simpl in K1.
  set (w1 := mkWorld (w_heap w) (w_next_id w) g) in *.
  rewrite (unit_le u _ Hu Hp).
  pose proof (vec_keep _ _ _ _ K1 Hv) as Hv1.
  destruct (resets_ok [o] w1) as (w2 & E2 & K2). { intros o' [<-|[]]. destruct Hv1 as (i & Hi & _). eauto. }
  rewrite (bind_eq_ok _ _ _ _ _ E2). pose proof (vec_keep _ _ _ _ K2 Hv1) as Hv2.
  destruct (attempt_inside m n o w2 v Hv2 Hs Hd He) as (w3 & E3).
  pose proof Hv2 as (i & Hi & Hg).
  pose proof (attempt_one m n o w2 i v Hi Hg (sound_wf _ Hs) (inside_finite _ _ Hd)) as [_ A].
  rewrite E3 in A. destruct A as (g1 & g2 & g3 & pts & vals & Hc & Hm & Hat & _ & _).
  assert (E4 : op_apply op [o] w2 = (Ok (Some [o]), w3)).
  { unfold op_apply. rewrite Hk. unfold vec_apply, failable_apply. destruct (op_attempts op) as [|k]; [lia|].
    rewrite failable_step, E3. reflexivity. }
  rewrite (bind_eq_ok _ _ _ _ _ E4).
  assert (P3 : present [o] w3) by (intros o' [<-|[]]; eauto).
  destruct (records_ok (okind_name (op_kind op)) [o] [o] w3 P3 P3) as (w4 & E5 & K5).
  rewrite (bind_eq_ok _ _ _ _ _ E5).
  exists g1, g2, g3, pts, vals, w4. split; [reflexivity|]. split; [exact Hc|]. split; [exact Hm|].
  eapply vec_keep; [exact K5|]. eexists. split; [exact Hat|reflexivity].
Qed.

(** ** Bit strings *)

Lemma bit_sound v : bit_string v -> sound_vec v.
Proof.
  intros (K & B & L & H). split; [exact L|]. rewrite B. split; [|split; [|split; [exact I|]]].
  - exists 0%Q, 1%Q. split; [reflexivity|lra].
  - intros _. split; [exists 0%Z|exists 1%Z]; reflexivity.
  - intros i x Hx. exists (Fin 0), (Fin 1). split; [reflexivity|]. unfold is_bits in H. rewrite Forall_forall in H.
    destruct (H x (nth_error_In _ _ Hx)) as [-> | ->]; rewrite !nle_fin; split; lra.
Qed.

Lemma bit_inside m v : bit_mut m -> bit_string v -> draws_inside m v.
Proof. intros Hm (K & B & _). destruct m; simpl in *; try contradiction; eauto. Qed.

Lemma bit_flip_bit v i x : bit_string v -> bit_flip v i = Ok x ->
  (x = Fin 0 \/ x = Fin 1) /\ nth_error (v_cells v) i <> Some x.
Proof.
  intros (K & B & _ & H) E. unfold bit_flip in E. rewrite K, B in E. apply rbind_ok in E. destruct E as (c & Hc & E).
  unfold cell_value in Hc. destruct (nth_error (v_cells v) i) as [y|] eqn:En; inv Hc.
  unfold is_bits in H. rewrite Forall_forall in H.
  destruct (H c (nth_error_In _ _ En)) as [-> | ->]; simpl in E; inv E; split; auto; discriminate.
Qed.

Lemma bit_vals m v pts g vals g' : bit_mut m -> bit_string v -> mapM (mut_val m v) pts g = (Ok vals, g') ->
  Forall (fun x => x = Fin 0 \/ x = Fin 1) vals.
Proof.
  intros Hm Hb H. apply Forall_forall. intros x Hx. eapply mapM_In in H; [|exact Hx].
  destruct H as (p & s1 & s2 & _ & H).
  assert (C : forall x, cell_value v p = Ok x -> x = Fin 0 \/ x = Fin 1).
  { intros y Hy. unfold cell_value in Hy. destruct (nth_error (v_cells v) p) as [z|] eqn:En; inv Hy.
    destruct Hb as (_ & _ & _ & Hb). unfold is_bits in Hb. rewrite Forall_forall in Hb. eapply Hb, nth_error_In; eauto. }
  destruct m; simpl in *; try contradiction.
  - unfold lift in H. injection H as H _. eapply bit_flip_bit; eauto.
  - mstep H. destruct (nle x0 p_each); unfold lift in H1; injection H1 as H1 _; [eapply bit_flip_bit; eauto|auto].
Qed.

Lemma set_cells_bits c pts vals : is_bits c -> is_bits vals -> is_bits (set_cells c pts vals).
Proof.
  revert c vals. induction pts as [|p pts IH]; intros c [|x vals] Hc Hv; simpl; auto.
  inv Hv. apply IH; [|assumption]. apply Forall_forall. intros y Hy. apply In_nth_error in Hy. destruct Hy as (j & Hj).
  unfold is_bits in Hc. rewrite Forall_forall in Hc.
  destruct (Nat.eq_dec p j) as [->|Hne].
  - pose proof (nth_error_lt _ _ _ Hj) as L. rewrite list_set_length in L.
    rewrite nth_list_set_same in Hj by assumption. inv Hj. assumption.
  - rewrite nth_list_set_other in Hj by assumption. apply Hc. eapply nth_error_In; eauto.
Qed.

Definition bsafe_on (inds : list oid) (w w' : world) : Prop :=
  (forall o, In o inds -> exists v, vec_at w o v /\ bit_string v) ->
  forall o v, vec_at w o v -> bit_string v -> exists v', vec_at w' o v' /\ bit_string v' /\ vsize v' = vsize v.

Global Instance bsafe_on_preorder inds : PreOrder (bsafe_on inds).
Proof.
  split.
  - intros w _ o v H Hb. eauto.
  - intros a b c H1 H2 Ha o v H Hb. specialize (H1 Ha).
    destruct (H1 o v H Hb) as (v1 & Hv1 & Hb1 & S1).
    destruct (H2 (fun o Ho => match Ha o Ho with ex_intro _ v0 (conj Hv0 Hb0) =>
                   match H1 o v0 Hv0 Hb0 with ex_intro _ v1 (conj A (conj B _)) => ex_intro _ v1 (conj A B) end end)
                o v1 Hv1 Hb1) as (v2 & Hv2 & Hb2 & S2).
    exists v2. split; [assumption|]. split; [assumption|congruence].
Qed.

Lemma gk_bs {A} inds (m : M A) : steps gkeep m -> steps (bsafe_on inds) m.
Proof.
  apply steps_sub. intros s s' H _ o v Hv Hb. exists v. split; [eapply vec_keep; eauto|auto].
Qed.

Lemma bs_attempt m n inds : bit_mut m -> steps (bsafe_on inds) (vec_attempt m n inds).
Proof.
  intros Hm. induction inds as [|o rest IH]; intros w Hw.
  { intros o v Hv Hb. exists v. auto. }
  rewrite attempt_cons.
  destruct (Hw o (or_introl eq_refl)) as (v & Hv & Hb). pose proof Hv as (i & Hi & Hg).
  assert (Hf : finite_params m) by (destruct m; simpl in *; tauto).
  pose proof (attempt_one m n o w i v Hi Hg (sound_wf _ (bit_sound _ Hb)) Hf) as [F A].
  assert (V : forall o' v', vec_at w o' v' -> bit_string v' ->
             exists v2, vec_at (snd (vec_attempt m n [o] w)) o' v2 /\ bit_string v2 /\ vsize v2 = vsize v').
  { intros o' v' Hv' Hb'. destruct (Nat.eq_dec o o') as [<-|Hne].
    - rewrite <- (vec_at_dec_eq _ _ _ _ Hv Hv') in *.
      destruct (vec_attempt m n [o] w) as [[[|]|e] w1]; simpl.
      + destruct A as (g1 & g2 & g3 & pts & vals & Hc & Hmap & Hat & Hs & Sh).
        exists (with_cells v (set_cells (v_cells v) pts vals)). split; [eexists; split; [exact Hat|reflexivity]|].
        split; [|apply set_cells_length].
        destruct Hb as (K & B & L & Hbits). split; [exact K|]. split; [exact B|].
        split; [apply Hs|]. apply set_cells_bits; [assumption|].
        eapply bit_vals; eauto.
      + exists v. split; [exists i; split; [apply A|assumption]|auto].
      + exists v. split; [exists i; split; [apply A|assumption]|auto].
    - exists v'. split; [|auto]. destruct Hv' as (i' & Hi' & Hg'). exists i'. split; [|assumption].
      destruct F as [_ F]. rewrite F; auto. eapply at_lt; eauto. }
  unfold bind. destruct (vec_attempt m n [o] w) as [[[|]|e] w1]; simpl in *; try exact V.
  intros o' v' Hv' Hb'. destruct (V o' v' Hv' Hb') as (v1 & Hv1 & Hb1 & S1).
  destruct (IH w1) with (o := o') (v := v1) as (v2 & Hv2 & Hb2 & S2); auto.
  - intros o2 Ho2. destruct (Hw o2 (or_intror Ho2)) as (v3 & Hv3 & Hb3).
    destruct (V o2 v3 Hv3 Hb3) as (v4 & ? & ? & _). eauto.
  - exists v2. split; [assumption|split; [assumption|congruence]].
Qed.

(** A relation kept by [apply] and by everything that keeps genomes is kept by [apply_operator]. *)
Lemma with_probability_steps (Rw : world -> world -> Prop) {HR : PreOrder Rw} name p apply inds :
  (forall w w', gkeep w w' -> Rw w w') ->
  steps Rw (apply inds) -> steps Rw (with_probability name p apply inds).
Proof.
  intros Hk Ha. unfold with_probability.
  apply (st_bind Rw); [apply (steps_sub gkeep), gk_liftR; exact Hk|]. intros u.
  destruct (nle u p); [|apply (st_ret Rw)].
  apply (st_bind Rw).
  { apply (st_iterM Rw). intros. apply (steps_sub gkeep), gk_reset. exact Hk. } intros u'.
  apply (st_bind Rw); [exact Ha|]. intros [l|]; [|apply (st_raise Rw)].
  apply (st_bind Rw).
  { apply (st_iterM Rw). intros. apply (steps_sub gkeep), gk_record. exact Hk. } intros u2.
  apply (st_ret Rw).
Qed.

Lemma bits_kept op m n inds w o v : op_kind op = OVecMut m n -> bit_mut m ->
  (forall o, In o inds -> exists v, vec_at w o v /\ bit_string v) -> vec_at w o v -> bit_string v ->
  exists v', vec_at (snd (apply_operator op inds w)) o v' /\ bit_string v' /\ vsize v' = vsize v.
Proof.
  intros Hk Hm Hw. unfold apply_operator.
  apply (with_probability_steps (bsafe_on inds)); [| |exact Hw].
  - intros w1 w2 K _ o1 v1 Hv1 Hb1. exists v1. split; [eapply vec_keep; eauto|auto].
  - unfold op_apply. rewrite Hk. unfold vec_apply, failable_apply.
    apply (failable_steps (bsafe_on inds)).
    + intros i. apply (st_bind (bsafe_on inds)); [apply bs_attempt; assumption|]. intros ok. apply (st_ret (bsafe_on inds)).
    + destruct m; simpl in Hm; try contradiction; apply (st_ret (bsafe_on inds)).
Qed.

Lemma bit_flip_one op o w v : op_kind op = OVecMut MBitFlip 1 -> 1 <= op_attempts op ->
  nle (Fin 1) (op_prob op) = true -> vec_at w o v -> bit_string v -> 1 <= vsize v ->
  exists v' w', apply_operator op [o] w = (Ok [o], w') /\ vec_at w' o v' /\ differ_at_one (v_cells v) (v_cells v').
Proof.
  intros Hk Ha Hp Hv Hb Hn.
  destruct (applied_one op MBitFlip 1 o w v Hk Ha Hp Hv (bit_sound _ Hb) (bit_inside MBitFlip _ I Hb) Hn)
    as (g1 & g2 & g3 & pts & vals & w' & E & Hc & Hm & Hv').
  eexists. exists w'. split; [exact E|]. split; [exact Hv'|]. simpl v_cells.
  apply cell_selector_spec in Hc. destruct Hc as (_ & Hi & Hl).
  destruct pts as [|p [|? ?]]; simpl in Hl; try lia.
  assert (Hpv : p < vsize v) by (apply Hi; simpl; auto).
  simpl in Hm. unfold bind, lift, ret in Hm. destruct (bit_flip v p) as [x|e] eqn:Ef; inv Hm.
  simpl. split; [rewrite list_set_length; reflexivity|].
  exists p. split; [exact Hpv|]. split.
  - rewrite nth_list_set_same by exact Hpv. eapply bit_flip_bit; eauto.
  - intros j Hj. symmetry. apply nth_list_set_other. auto.
Qed.

Lemma bit_flip_twice v i x y : bit_string v -> bit_flip v i = Ok x ->
  bit_flip (with_cells v (list_set (v_cells v) i x)) i = Ok y -> cell_value v i = Ok y.
Proof.
  intros (K & B & _ & H) Hx Hy. unfold bit_flip in *. simpl in Hy. rewrite K, B in *.
  apply rbind_ok in Hx. destruct Hx as (c & Hc & Hx). rewrite Hc.
  unfold cell_value in Hc. destruct (nth_error (v_cells v) i) as [z|] eqn:En; inv Hc.
  unfold cell_value in Hy. simpl in Hy.
  rewrite nth_list_set_same in Hy by (eapply nth_error_lt; eauto). simpl in Hy.
  unfold is_bits in H. rewrite Forall_forall in H.
  destruct (H c (nth_error_In _ _ En)) as [-> | ->]; inv Hx; inv Hy; reflexivity.
Qed.
