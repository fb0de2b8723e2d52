(** * What a mutation does to the cells. *)
From Coq Require Import Lia Lqa.
From Verif.Proofs Require Export VecFinalP VecCreateP.
From Verif.Model Require Import Operators Creators.
From Verif.Spec Require Import WorldSpec VectorSpec.
Open Scope nat_scope.

Lemma negative_prob u p : (0 <= u)%Q -> nle (Fin u) p = true -> nlt p (Fin 0) = false.
Proof.
  intros Hu H. destruct (nlt p (Fin 0)) eqn:E; [|reflexivity]. exfalso.
  destruct p as [q| | |]; cbn in *; try discriminate.
  rewrite nle_fin in H. apply Qlt_b_spec in E. lra.
Qed.

Lemma mut_val_effect m v i g y g' : wf_vec v -> mut_val m v i g = (Ok y, g') ->
  i < vsize v -> exists x, nth_error (v_cells v) i = Some x /\ mutated_cell m v i x y.
Proof.
  intros Hw H Hi. destruct (nth_error_ex (v_cells v) i Hi) as (x & Ex). exists x. split; [exact Ex|].
  assert (Cv : cell_value v i = Ok x) by (unfold cell_value; rewrite Ex; reflexivity).
  assert (U : forall g y g', get_random_number_in_bounds v i g = (Ok y, g') -> drawn_for v i y).
  { intros g1 y1 g2 Hr. split; [|intros K; eapply random_integral; eauto]. pose proof Hw as (_ & Hp & Hin & _).
    eapply random_in_bounds in Hr; eauto. destruct Hr as (lo & hi & A & B & C & _). exists lo, hi. auto. }
  assert (B : forall y, bit_flip v i = Ok y -> other_bound v x y).
  { intros y1 Hf. unfold bit_flip in Hf. destruct (v_kind v); try discriminate. destruct (v_bounds v) as [lo hi|] eqn:Eb; [|discriminate].
    rewrite Cv in Hf. cbn in Hf. injection Hf as <-. exists lo, hi. split; [exact Eb|]. destruct (neq_num x lo); split; congruence. }
  assert (G : forall mu sigma, get_random_number_with_gauss v i mu sigma g = (Ok y, g') ->
    exists z, y = nadd x (nadd mu (nmul (Fin z) sigma))).
  { intros mu sigma Hg. unfold get_random_number_with_gauss in Hg. destruct (v_kind v); try (mstep Hg; fail).
    rewrite Cv in Hg. unfold gauss, bind, lift, next_draw, ret in Hg. injection Hg as <- _. eexists. reflexivity. }
  assert (P : forall p (m' : R num) (Q : Prop), (u <- random_unit ;; if nle u p then m' else lift (cell_value v i)) g = (Ok y, g') ->
    (forall g1, m' g1 = (Ok y, g') -> Q) -> (Q /\ nlt p (Fin 0) = false) \/ (y = x /\ nle (Fin 1) p = false)).
  { intros p m' Q Hq HQ. destruct (random_unit_spec g) as (u & g1 & Eu & Hu0 & Hu1).
    rewrite (bind_eq_ok _ _ _ _ _ Eu) in Hq. destruct (nle (Fin u) p) eqn:En.
    - left. split; [eauto|eapply negative_prob; eauto].
    - right. rewrite Cv in Hq. injection Hq as -> _. split; [reflexivity|].
      destruct (nle (Fin 1) p) eqn:E1; [|reflexivity]. rewrite (unit_le u p Hu1 E1) in En. discriminate. }
  destruct m; cbn [mut_val mutated_cell] in *; eauto.
  - injection H as H _. auto.
  - eapply P; eauto. intros g1 H1. injection H1 as H1 _. auto.
  - discriminate.
Qed.

Lemma mapM_pairs {S A B} (f : A -> SE S B) l : forall s bs s', mapM f l s = (Ok bs, s') ->
  Forall2 (fun a b => exists s1 s2, f a s1 = (Ok b, s2)) l bs.
Proof.
  induction l as [|a l IH]; intros s bs s' H; cbn in H.
  - injection H as <- _. constructor.
  - mb H as b s1 E1. mb H as bs1 s2 E2. mr H. constructor; eauto.
Qed.

Lemma set_cells_mutated m n v g1 g2 g3 pts vals : wf_vec v -> cell_selector m n v g1 = (Ok pts, g2) ->
  mapM (mut_val m v) pts g2 = (Ok vals, g3) -> cells_mutated m n v (with_cells v (set_cells (v_cells v) pts vals)).
Proof.
  intros Hw Hc Hm. apply cell_selector_spec in Hc as (Hnd & Hlt & Hl). apply mapM_pairs in Hm.
  pose proof (Forall2_len _ _ _ Hm) as Len. split.
  { repeat split. unfold vsize. cbn. apply set_cells_length. }
  exists pts. split; [exact Hnd|]. split; [exact Hl|]. split.
  - intros i Hi. apply In_nth_error in Hi as (j & Hj).
    destruct (nth_error_ex vals j) as (y & Hy). { rewrite <- Len. eapply nth_error_lt; eauto. }
    destruct (Forall2_nth_error _ _ _ _ _ _ Hm Hj Hy) as (s1 & s2 & Hv).
    assert (Hi : i < vsize v) by (apply Hlt; eapply nth_error_In; eauto).
    destruct (mut_val_effect m v i s1 y s2 Hw Hv Hi) as (x & Ex & Mx). exists x, y. split; [exact Ex|]. split; [|exact Mx].
    cbn. eapply set_cells_at; eauto.
  - intros i Hi. cbn. apply set_cells_other. exact Hi.
Qed.

(** The vector of [o] is now one of [Q]. *)
Definition now (Q : vec -> Prop) (o : oid) (w : world) : Prop := exists v', vec_at w o v' /\ Q v'.

Lemma now_keep Q o w w' : gkeep w w' -> now Q o w -> now Q o w'.
Proof. intros K (v' & H & Hq). exists v'. split; [eapply vec_keep; eauto|exact Hq]. Qed.

Lemma loop_now (Q : vec -> Prop) m n o k onf : forall j w v, vec_at w o v -> sound_vec v -> finite_params m -> Q v ->
  (forall v', cells_mutated m n v v' -> Q v') ->
  let x := failable_from (fun _ => ok <- vec_attempt m n [o] ;; ret (ok, Some [o])) onf j k w in
  (exists w1, vec_at w1 o v /\ x = onf w1) \/ now Q o (snd x).
Proof.
  induction k as [|k IH]; intros j w v Hv Hs Hf Hq HQ.
  - left. exists w. auto.
  - pose proof Hv as (i & Hi & Hg). pose proof (attempt_one m n o w i v Hi Hg (sound_wf _ Hs) Hf) as [F H].
    rewrite failable_step. destruct (vec_attempt m n [o] w) as [[[|]|e] w1]; cbv zeta.
    + right. destruct H as (g1 & g2 & g3 & pts & vals & Hc & Hm & Ha & _). eexists. split; [eexists; split; [exact Ha|reflexivity]|].
      apply HQ. eapply set_cells_mutated; eauto. apply sound_wf. exact Hs.
    + apply IH; auto. exists i. split; [apply H|exact Hg].
    + right. exists v. split; [|exact Hq]. exists i. split; [apply H|exact Hg].
Qed.

Lemma plain_now (Q : vec -> Prop) m n k o w v : vec_at w o v -> sound_vec v -> finite_params m -> Q v ->
  (forall v', cells_mutated m n v v' -> Q v') -> now Q o (snd (vec_apply_plain m n k [o] w)).
Proof.
  intros Hv Hs Hf Hq HQ. unfold vec_apply_plain, failable_apply.
  destruct (loop_now Q m n o k (ret None) 0 w v Hv Hs Hf Hq HQ) as [(w1 & Hv1 & ->)|H]; [|exact H]. exists v. auto.
Qed.

Lemma with_probability_now (Q : vec -> Prop) name p apply inds o w v : vec_at w o v -> Q v ->
  (forall w1, vec_at w1 o v -> now Q o (snd (apply inds w1))) -> now Q o (snd (with_probability name p apply inds w)).
Proof.
  intros Hv Hq Ha. unfold with_probability.
  pose proof (gk_liftR random_unit w) as K1. unfold bind at 1.
  destruct (liftR random_unit w) as [[u|e] w1]; simpl in *; [|exists v; split; [eapply vec_keep; eauto|exact Hq]].
  pose proof (vec_keep _ _ _ _ K1 Hv) as Hv1.
  destruct (nle u p); [|exists v; auto].
  pose proof (st_iterM gkeep set_fitness_not_evaluated inds (fun x _ => gk_reset x) w1) as K2.
  unfold bind at 1. destruct (iterM set_fitness_not_evaluated inds w1) as [[u'|e] w2]; simpl in K2;
    [|exists v; split; [eapply vec_keep; eauto|exact Hq]].
  pose proof (vec_keep _ _ _ _ K2 Hv1) as Hv2. specialize (Ha w2 Hv2).
  unfold bind at 1. destruct (apply inds w2) as [[[l|]|e] w3]; simpl in *; auto.
  pose proof (st_iterM gkeep (record_applied name inds) l (fun x _ => gk_record name inds x) w3) as K3.
  unfold bind at 1. destruct (iterM (record_applied name inds) l w3) as [[u2|e] w4]; simpl in *; eapply now_keep; eauto.
Qed.

Lemma mutation_effect op m n o w v : op_kind op = OVecMut m n -> finite_params m -> vec_at w o v -> sound_vec v ->
  exists v', vec_at (snd (apply_operator op [o] w)) o v' /\
    (v' = v \/ cells_mutated m n v v' \/
     match m with MGaussOne _ _ => cells_mutated MUniformOne 1 v v' | MGaussN _ _ => cells_mutated MUniformN n v v' | _ => False end).
Proof.
  intros Hk Hf Hv Hs.
  set (Q := fun v' => v' = v \/ cells_mutated m n v v' \/
     match m with MGaussOne _ _ => cells_mutated MUniformOne 1 v v' | MGaussN _ _ => cells_mutated MUniformN n v v' | _ => False end).
  change (now Q o (snd (apply_operator op [o] w))).
  assert (Qv : Q v) by (left; reflexivity).
  unfold apply_operator. apply (with_probability_now Q) with (v := v); auto. intros w1 Hv1.
  unfold op_apply. rewrite Hk. unfold vec_apply, failable_apply.
  match goal with |- context [failable_from ?a ?f 0 ?k w1] =>
    destruct (loop_now Q m n o k f 0 w1 v Hv1 Hs Hf Qv) as [(w2 & Hv2 & E)|H] end.
  - intros v' Hm. right. left. exact Hm.
  - rewrite E. destruct m; try (exists v; auto; fail).
    + unfold bind. pose proof (with_probability_now Q (vmut_name MUniformOne) (op_prob op) (vec_apply_plain MUniformOne 1 5) [o] o w2 v Hv2 Qv) as P.
      destruct (with_probability _ _ _ _ w2) as [[l|e] w3]; apply P; intros w4 Hv4;
        apply (plain_now Q MUniformOne 1 5 o w4 v Hv4 Hs I Qv); intros v' Hm; right; right; exact Hm.
    + unfold bind. pose proof (with_probability_now Q (vmut_name MUniformN) (op_prob op) (vec_apply_plain MUniformN n 5) [o] o w2 v Hv2 Qv) as P.
      destruct (with_probability _ _ _ _ w2) as [[l|e] w3]; apply P; intros w4 Hv4;
        apply (plain_now Q MUniformN n 5 o w4 v Hv4 Hs I Qv); intros v' Hm; right; right; exact Hm.
  - exact H.
Qed.

(** With probability one the cells are mutated. *)
Lemma mutation_applied op m n o w v : op_kind op = OVecMut m n -> 1 <= op_attempts op -> nle (Fin 1) (op_prob op) = true ->
  vec_at w o v -> sound_vec v -> draws_inside m v -> enough m n v ->
  exists v' w', apply_operator op [o] w = (Ok [o], w') /\ vec_at w' o v' /\ cells_mutated m n v v'.
Proof.
  intros Hk Ha Hp Hv Hs Hd He. destruct (applied_one op m n o w v Hk Ha Hp Hv Hs Hd He) as (g1 & g2 & g3 & pts & vals & w' & E & Hc & Hm & Hv').
  eexists. exists w'. split; [exact E|]. split; [exact Hv'|]. eapply set_cells_mutated; eauto. apply sound_wf. exact Hs.
Qed.

Lemma other_integral v x y : v_kind v <> KFloat -> sound_vec v -> other_bound v x y -> integral y.
Proof.
  intros K (_ & _ & Hi & _) (lo & hi & Eb & H1 & H2). specialize (Hi K). rewrite Eb in Hi. destruct Hi as [Il Ih].
  destruct (neq_num x lo); [rewrite H1; auto|rewrite H2; auto].
Qed.

Lemma mutated_integral m v i x y : v_kind v <> KFloat -> sound_vec v -> ~ is_gauss m -> integral x -> mutated_cell m v i x y -> integral y.
Proof.
  intros K Hs Hg Hx H. destruct m; cbn in *; try tauto; try (apply H; exact K).
  - destruct H as [[[_ H] _]|[-> _]]; auto.
  - eapply other_integral; eauto.
  - destruct H as [[H _]|[-> _]]; [eapply other_integral; eauto|auto].
Qed.

(** Vectors of integers keep integers. *)
Lemma integers_kept op m n o w v : op_kind op = OVecMut m n -> ~ is_gauss m -> vec_at w o v -> sound_vec v ->
  v_kind v <> KFloat -> Forall integral (v_cells v) ->
  exists v', vec_at (snd (apply_operator op [o] w)) o v' /\ Forall integral (v_cells v').
Proof.
  intros Hk Hg Hv Hs K F. destruct (mutation_effect op m n o w v Hk) as (v' & Hv' & H); auto.
  { destruct m; cbn in *; tauto. }
  exists v'. split; [exact Hv'|]. destruct H as [->|[H|H]]; [exact F| |destruct m; cbn in Hg; tauto].
  destruct H as (_ & pts & _ & _ & H1 & H2). rewrite Forall_forall in *. intros y Hy. apply In_nth_error in Hy as (i & Hi).
  destruct (in_dec Nat.eq_dec i pts) as [Hin|Hin].
  - destruct (H1 i Hin) as (x & y' & Ex & Ey & M). assert (y' = y) as -> by congruence.
    eapply mutated_integral; eauto. apply F. eapply nth_error_In; eauto.
  - rewrite (H2 i Hin) in Hi. apply F. eapply nth_error_In; eauto.
Qed.

(** Appending a cell. *)
Lemma add_cell_end v x : v_length v = vsize v ->
  let v' := add_cell v x in
  v_length v' = vsize v' /\ vsize v' = S (vsize v) /\ v_kind v' = v_kind v /\ v_bounds v' = v_bounds v /\
  (forall i, i < vsize v -> cell_value v' i = cell_value v i) /\ cell_value v' (vsize v) = Ok x.
Proof.
  intros L. unfold vsize, add_cell, cell_value. cbn. rewrite app_length. cbn. unfold vsize in L.
  split; [lia|]. split; [lia|]. split; [reflexivity|]. split; [reflexivity|]. split.
  - intros i Hi. rewrite nth_error_app1 by exact Hi. reflexivity.
  - rewrite nth_error_app2, Nat.sub_diag by lia. reflexivity.
Qed.
