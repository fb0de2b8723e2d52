(** Heap lemmas. *)
From Verif.Proofs Require Export Lib.
From Verif.Model Require Export World.
From Verif.Spec Require Export WorldSpec.

Lemma load_ok o w i w' : load o w = (Ok i, w') -> w' = w /\ at_ w o = Some i.
Proof. unfold load, at_. destruct (nth_error (w_heap w) o); intros H; inv H. auto. Qed.

Lemma load_at o w i : at_ w o = Some i -> load o w = (Ok i, w).
Proof. unfold load, at_. intros ->. reflexivity. Qed.

Lemma load_state o w : snd (load o w) = w.
Proof. unfold load. destruct (nth_error (w_heap w) o); reflexivity. Qed.

Lemma at_lt w o i : at_ w o = Some i -> o < length (w_heap w).
Proof. apply nth_error_lt. Qed.

(** World after a store. *)
Definition put_at (w : world) (o : oid) (i : ind) : world :=
  mkWorld (list_set (w_heap w) o i) (w_next_id w) (w_rng w).

Lemma store_at o i j w : at_ w o = Some j -> store o i w = (Ok tt, put_at w o i).
Proof.
  intros H. apply at_lt in H. unfold store. destruct (Nat.ltb_spec o (length (w_heap w))); [reflexivity|lia].
Qed.

Lemma store_ok o i w w' : store o i w = (Ok tt, w') -> w' = put_at w o i /\ o < length (w_heap w).
Proof.
  unfold store. destruct (Nat.ltb_spec o (length (w_heap w))); intros H'; inv H'. auto.
Qed.

Lemma at_put_same w o i j : at_ w o = Some j -> at_ (put_at w o i) o = Some i.
Proof. intros H. apply at_lt in H. unfold at_, put_at. simpl. apply nth_list_set_same. assumption. Qed.

Lemma at_put_other w o o' i : o <> o' -> at_ (put_at w o i) o' = at_ w o'.
Proof. intros H. unfold at_, put_at. simpl. apply nth_list_set_other. assumption. Qed.

Lemma put_at_len w o i : length (w_heap (put_at w o i)) = length (w_heap w).
Proof. apply list_set_length. Qed.

Lemma modify_at o f w i : at_ w o = Some i -> modify o f w = (Ok tt, put_at w o (f i)).
Proof.
  intros H. unfold modify. rewrite (bind_eq_ok _ _ _ _ _ (load_at _ _ _ H)). eapply store_at; eauto.
Qed.

Lemma modify_ok o f w u w' : modify o f w = (Ok u, w') ->
  exists i, at_ w o = Some i /\ w' = put_at w o (f i).
Proof.
  unfold modify. intros H. mstep H. apply load_ok in H0. destruct H0 as [-> H0].
  destruct u. apply store_ok in H1. destruct H1. eauto.
Qed.

Lemma modify_raise o f w e w' : modify o f w = (Raise e, w') -> w' = w /\ at_ w o = None.
Proof.
  unfold modify. intros H. apply bind_raise in H. destruct H as [H|(i & w1 & H & H1)].
  - unfold load, at_ in *. destruct (nth_error (w_heap w) o); inv H. auto.
  - apply load_ok in H. destruct H as [-> H]. rewrite (store_at _ _ _ _ H) in H1. discriminate.
Qed.

(** World after an allocation. *)
Definition push (w : world) (i : ind) : world := mkWorld (w_heap w ++ [i]) (w_next_id w) (w_rng w).

Lemma at_push_old w i o : o < length (w_heap w) -> at_ (push w i) o = at_ w o.
Proof. intros H. unfold at_, push. simpl. apply nth_error_app1. assumption. Qed.

Lemma at_push_new w i : at_ (push w i) (length (w_heap w)) = Some i.
Proof. unfold at_, push. simpl. rewrite nth_error_app2, Nat.sub_diag by lia. reflexivity. Qed.

Definition bump (w : world) : world := mkWorld (w_heap w) (w_next_id w + 1)%Z (w_rng w).

Definition cloned (i : ind) (id : Z) : ind :=
  mkInd id (i_gen i) (fit_getstate (i_fit i)) (i_id i) (i_selected_by i) (i_applied i)
        (i_update_parents i) (if i_update_parents i then [] else i_parents i) (i_genome i).

Lemma clone_at o w i : at_ w o = Some i ->
  clone o w = (Ok (length (w_heap w)), push (bump w) (cloned i (w_next_id w))).
Proof.
  intros H. unfold clone. rewrite (bind_eq_ok _ _ _ _ _ (load_at _ _ _ H)). reflexivity.
Qed.

Lemma clone_ok o w c w' : clone o w = (Ok c, w') ->
  exists i, at_ w o = Some i /\ c = length (w_heap w) /\ w' = push (bump w) (cloned i (w_next_id w)).
Proof.
  intros H. unfold clone in H. mstep H. apply load_ok in H0. destruct H0 as [-> H0].
  mstep H1. unfold fresh_id in H. inv H. unfold alloc in H2. inv H2. exists x. auto.
Qed.

Lemma clone_raise o w e w' : clone o w = (Raise e, w') -> at_ w o = None.
Proof.
  intros H. destruct (at_ w o) eqn:E; auto. rewrite (clone_at _ _ _ E) in H. discriminate.
Qed.

Lemma liftR_ok {A} (m : R A) w a w' : liftR m w = (Ok a, w') ->
  exists g, m (w_rng w) = (Ok a, g) /\ w' = mkWorld (w_heap w) (w_next_id w) g.
Proof. unfold liftR. destruct (m (w_rng w)) as [[x|e] g]; intros H; inv H. eauto. Qed.

Lemma liftR_eq {A} (m : R A) w r g : m (w_rng w) = (r, g) ->
  liftR m w = (r, mkWorld (w_heap w) (w_next_id w) g).
Proof. unfold liftR. intros ->. reflexivity. Qed.

Lemma liftR_heap {A} (m : R A) w : w_heap (snd (liftR m w)) = w_heap w.
Proof. unfold liftR. destruct (m (w_rng w)) as [r g]. reflexivity. Qed.

(** ** Frame: all objects outside [X] that exist before stay as they are; none disappears. *)

Global Instance frame_preorder X : PreOrder (frame X).
Proof.
  split.
  - intros w. split; auto.
  - intros w1 w2 w3 [L1 F1] [L2 F2]. split; [lia|]. intros o Ho Hx. rewrite F2 by (auto; lia). auto.
Qed.

Lemma frame_weaken (X Y : oid -> Prop) w w' : (forall o, X o -> Y o) -> frame X w w' -> frame Y w w'.
Proof. intros H [L F]. split; auto. Qed.

Lemma steps_weaken {A} (X Y : oid -> Prop) (m : M A) :
  (forall o, X o -> Y o) -> steps (frame X) m -> steps (frame Y) m.
Proof. intros H Hm w. eapply frame_weaken; eauto. Qed.

Lemma frame_put (X : oid -> Prop) w o i : X o -> frame X w (put_at w o i).
Proof.
  intros H. split; [rewrite put_at_len; lia|]. intros o' Ho' Hx. apply at_put_other. intros ->. auto.
Qed.

Lemma fr_load X o : steps (frame X) (load o).
Proof. intros w. rewrite load_state. reflexivity. Qed.

Lemma fr_store (X : oid -> Prop) o i : X o -> steps (frame X) (store o i).
Proof.
  intros H w. unfold store. destruct (o <? length (w_heap w)); [|reflexivity].
  change (frame X w (put_at w o i)). apply frame_put. assumption.
Qed.

Lemma fr_modify (X : oid -> Prop) o f : X o -> steps (frame X) (modify o f).
Proof.
  intros H. unfold modify. apply st_bind; [typeclasses eauto|apply fr_load|].
  intros i. apply fr_store. assumption.
Qed.

Lemma frame_push X w i : frame X w (push w i).
Proof.
  split; [simpl; rewrite app_length; lia|]. intros o Ho _. apply at_push_old. assumption.
Qed.

Lemma fr_alloc X i : steps (frame X) (alloc i).
Proof. intros w. apply frame_push. Qed.

Lemma fr_fresh X : steps (frame X) fresh_id.
Proof. intros w. split; simpl; auto. Qed.

Lemma fr_liftR {A} X (m : R A) : steps (frame X) (liftR m).
Proof.
  intros w. unfold liftR. destruct (m (w_rng w)) as [r g]. split; simpl; auto.
Qed.

Lemma fr_clone X o : steps (frame X) (clone o).
Proof.
  unfold clone. apply st_bind; [typeclasses eauto|apply fr_load|]. intros i.
  apply st_bind; [typeclasses eauto|apply fr_fresh|]. intros id. apply fr_alloc.
Qed.

Lemma fr_new X f u g : steps (frame X) (new_individual f u g).
Proof.
  unfold new_individual. apply st_bind; [typeclasses eauto|apply fr_fresh|]. intros id. apply fr_alloc.
Qed.

(** Automation for frames. *)
Ltac fr :=
  repeat first
    [ apply st_bind; [typeclasses eauto| |intros ?]
    | apply (st_ret _) | apply (st_raise _) | apply (st_lift _)
    | apply fr_load | apply fr_liftR | apply fr_fresh | apply fr_alloc | apply fr_clone | apply fr_new
    | apply fr_modify; assumption | apply fr_store; assumption ].

Lemma load_vec_ok o w v w' : load_vec o w = (Ok v, w') ->
  w' = w /\ exists i, at_ w o = Some i /\ i_genome i = GVec v.
Proof.
  unfold load_vec. intros H. mstep H. apply load_ok in H0. destruct H0 as [-> H0].
  destruct (i_genome x) eqn:E; mstep H1. eauto.
Qed.

Lemma load_vec_at o w i v : at_ w o = Some i -> i_genome i = GVec v -> load_vec o w = (Ok v, w).
Proof.
  intros H Hg. unfold load_vec. rewrite (bind_eq_ok _ _ _ _ _ (load_at _ _ _ H)). rewrite Hg. reflexivity.
Qed.

Lemma load_tree_ok o w t w' : load_tree o w = (Ok t, w') ->
  w' = w /\ exists i, at_ w o = Some i /\ i_genome i = GTree t.
Proof.
  unfold load_tree. intros H. mstep H. apply load_ok in H0. destruct H0 as [-> H0].
  destruct (i_genome x) eqn:E; mstep H1. eauto.
Qed.

Lemma load_tree_at o w i t : at_ w o = Some i -> i_genome i = GTree t -> load_tree o w = (Ok t, w).
Proof.
  intros H Hg. unfold load_tree. rewrite (bind_eq_ok _ _ _ _ _ (load_at _ _ _ H)). rewrite Hg. reflexivity.
Qed.

Lemma fr_load_vec X o : steps (frame X) (load_vec o).
Proof. unfold load_vec. fr. destruct (i_genome a); fr. Qed.
Lemma fr_load_tree X o : steps (frame X) (load_tree o).
Proof. unfold load_tree. fr. destruct (i_genome a); fr. Qed.
Lemma fr_put_genome (X : oid -> Prop) o g : X o -> steps (frame X) (put_genome o g).
Proof. intros H. unfold put_genome. fr. Qed.

(** ** The observable part of an object that operators must not touch. *)

Lemma world_eta w : mkWorld (w_heap w) (w_next_id w) (w_rng w) = w.
Proof. destruct w; reflexivity. Qed.
