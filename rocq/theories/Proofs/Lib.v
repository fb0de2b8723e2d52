(** * Tools: reasoning about the state monad, lists, sorting and numbers. *)
From Coq Require Export Lia ZifyBool ZifyNat ZifyN Permutation Sorted RelationClasses.
From Coq Require Import Lqa.
From Verif.Model Require Export Base Num Rng.
Ltac Zify.zify_post_hook ::= Z.div_mod_to_equations.
Open Scope nat_scope.
Open Scope list_scope.

(** ** Monad inversion *)

Lemma bind_ok {S A B} (m : SE S A) (k : A -> SE S B) s b s' :
  bind m k s = (Ok b, s') -> exists a s1, m s = (Ok a, s1) /\ k a s1 = (Ok b, s').
Proof. unfold bind. destruct (m s) as [[a|e] s1]; [eauto|discriminate]. Qed.

Lemma bind_raise {S A B} (m : SE S A) (k : A -> SE S B) s e s' :
  bind m k s = (Raise e, s') ->
  m s = (Raise e, s') \/ exists a s1, m s = (Ok a, s1) /\ k a s1 = (Raise e, s').
Proof. unfold bind. destruct (m s) as [[a|e'] s1]; intros H; [right; eauto|left; congruence]. Qed.

Lemma bind_eq_ok {S A B} (m : SE S A) (k : A -> SE S B) s a s1 :
  m s = (Ok a, s1) -> bind m k s = k a s1.
Proof. intros H. unfold bind. rewrite H. reflexivity. Qed.

Lemma bind_eq_raise {S A B} (m : SE S A) (k : A -> SE S B) s e s1 :
  m s = (Raise e, s1) -> bind m k s = (Raise e, s1).
Proof. intros H. unfold bind. rewrite H. reflexivity. Qed.

Lemma bind_assoc {S A B C} (m : SE S A) (f : A -> SE S B) (g : B -> SE S C) s :
  bind (bind m f) g s = bind m (fun x => bind (f x) g) s.
Proof. unfold bind. destruct (m s) as [[a|e] s']; reflexivity. Qed.

Lemma bind_ext {S A B} (m : SE S A) (f g : A -> SE S B) s :
  (forall a s', f a s' = g a s') -> bind m f s = bind m g s.
Proof. intros H. unfold bind. destruct (m s) as [[a|e] s']; auto. Qed.

Ltac inv H := inversion H; subst; clear H.

(** Decompose an equation [m s = (Ok _, _)] of a composed computation. *)
Ltac mstep H :=
  match type of H with
  | bind ?m ?k ?s = (Ok ?b, ?s') =>
      let a := fresh "x" in let s1 := fresh "s" in
      let H1 := fresh "H" in let H2 := fresh "H" in
      destruct (bind_ok m k s b s' H) as (a & s1 & H1 & H2); clear H; cbv beta in H1, H2
  | ret ?a ?s = _ => unfold ret in H; inversion H; subst; clear H
  | raise _ _ = (Ok _, _) => discriminate H
  | lift ?r _ = _ => unfold lift in H; inversion H; subst; clear H
  end.

(** The same with chosen names; what remains to run is again [H]. *)
Tactic Notation "mb" hyp(H) "as" ident(x) ident(s1) ident(E) :=
  match type of H with
  | bind ?m ?k ?s = (Ok ?b, ?s') =>
      let H2 := fresh in
      destruct (bind_ok m k s b s' H) as (x & s1 & E & H2); clear H; cbv beta in E, H2; rename H2 into H
  end.

(** [H : ret a s = (Ok b, s')] *)
Ltac mr H := unfold ret, lift in H; injection H; clear H; intros; subst.

Lemma rbind_ok {A B} (m : res A) (k : A -> res B) b :
  rbind m k = Ok b -> exists a, m = Ok a /\ k a = Ok b.
Proof. destruct m; simpl; [eauto|discriminate]. Qed.

Lemma rmap_ok {A B} (f : A -> res B) l ys :
  rmap f l = Ok ys -> Forall2 (fun x y => f x = Ok y) l ys.
Proof.
  revert ys. induction l as [|x l IH]; simpl; intros ys H.
  - inv H. constructor.
  - apply rbind_ok in H. destruct H as (y & Hy & H). apply rbind_ok in H. destruct H as (zs & Hz & H).
    inv H. constructor; auto.
Qed.

Lemma rmap_ok_intro {A B} (f : A -> res B) l ys :
  Forall2 (fun x y => f x = Ok y) l ys -> rmap f l = Ok ys.
Proof. induction 1 as [|x y l ys Hx _ IH]; simpl; [reflexivity|]. rewrite Hx. simpl. rewrite IH. reflexivity. Qed.

Lemma rmap_total {A B} (f : A -> res B) (g : A -> B) l :
  (forall x, In x l -> f x = Ok (g x)) -> rmap f l = Ok (map g l).
Proof.
  induction l as [|x l IH]; simpl; intros H; [reflexivity|].
  rewrite H by auto. simpl. rewrite IH by auto. reflexivity.
Qed.

(** ** Hoare triples for the state monad: postconditions for normal and exceptional exit. *)

Definition triple {S A} (P : S -> Prop) (m : SE S A) (Q : A -> S -> Prop) (E : exn -> S -> Prop) : Prop :=
  forall s, P s -> match m s with (Ok a, s') => Q a s' | (Raise e, s') => E e s' end.

Section Triples.
  Context {S : Type}.

  Lemma t_ret {A} (a : A) (Q : A -> S -> Prop) E : triple (Q a) (ret a) Q E.
  Proof. intros s H. exact H. Qed.

  Lemma t_raise {A} e (Q : A -> S -> Prop) (E : exn -> S -> Prop) : triple (E e) (raise e) Q E.
  Proof. intros s H. exact H. Qed.

  Lemma t_lift {A} (r : res A) (P : S -> Prop) (Q : A -> S -> Prop) E :
    (forall s, P s -> match r with Ok a => Q a s | Raise e => E e s end) -> triple P (lift r) Q E.
  Proof. intros H s Hs. unfold lift. specialize (H s Hs). destruct r; exact H. Qed.

  Lemma t_bind {A B} (m : SE S A) (k : A -> SE S B) P Q R E :
    triple P m R E -> (forall a, triple (R a) (k a) Q E) -> triple P (bind m k) Q E.
  Proof.
    intros Hm Hk s Hs. unfold bind. specialize (Hm s Hs).
    destruct (m s) as [[a|e] s']; [apply Hk; exact Hm|exact Hm].
  Qed.

  Lemma t_conseq {A} (m : SE S A) (P P' : S -> Prop) (Q Q' : A -> S -> Prop) (E E' : exn -> S -> Prop) :
    triple P' m Q' E' -> (forall s, P s -> P' s) -> (forall a s, Q' a s -> Q a s) ->
    (forall e s, E' e s -> E e s) -> triple P m Q E.
  Proof.
    intros H HP HQ HE s Hs. specialize (H s (HP s Hs)).
    destruct (m s) as [[a|e] s']; auto.
  Qed.

  Lemma t_iterM {A B} (f : A -> SE S B) l (I : S -> Prop) E :
    (forall x, In x l -> triple I (f x) (fun _ => I) E) -> triple I (iterM f l) (fun _ => I) E.
  Proof.
    induction l as [|x l IH]; intros H; simpl.
    - intros s Hs. exact Hs.
    - eapply t_bind; [apply H; simpl; auto|]. intros u. apply IH. intros y Hy. apply H. simpl; auto.
  Qed.

  Lemma t_mapM {A B} (f : A -> SE S B) l (I : S -> Prop) (Q : A -> B -> Prop) E :
    (forall x, In x l -> triple I (f x) (fun b s => I s /\ Q x b) E) ->
    triple I (mapM f l) (fun bs s => I s /\ Forall2 Q l bs) E.
  Proof.
    induction l as [|x l IH]; intros H; simpl.
    - intros s Hs. split; auto.
    - eapply t_bind; [apply H; simpl; auto|]. intros b.
      apply t_conseq with (P' := fun s => I s /\ Q x b)
        (Q' := fun bs s => I s /\ Forall2 Q (x :: l) bs) (E' := E); auto.
      intros s [Hs HQ].
      specialize (IH (fun y Hy => H y (or_intror Hy))). specialize (IH s Hs).
      unfold bind. destruct (mapM f l s) as [[bs|e] s']; [|exact IH].
      unfold ret. destruct IH; split; auto.
  Qed.

  Lemma t_repeatM {A} (m : SE S A) n (I : S -> Prop) (Q : A -> Prop) E :
    triple I m (fun b s => I s /\ Q b) E ->
    triple I (repeatM n m) (fun bs s => I s /\ length bs = n /\ Forall Q bs) E.
  Proof.
    intros H. induction n as [|n IH]; simpl.
    - intros s Hs. cbn. auto.
    - intros s Hs. unfold bind. specialize (H s Hs). destruct (m s) as [[a|e] s']; [|exact H].
      destruct H as [Hs' Ha]. specialize (IH s' Hs'). destruct (repeatM n m s') as [[bs|e] s'']; [|exact IH].
      unfold ret. destruct IH as (? & ? & ?). simpl. auto.
  Qed.

  Lemma t_foldM {A B} (f : B -> A -> SE S B) l (I : B -> S -> Prop) E :
    (forall x b, In x l -> triple (I b) (f b x) I E) ->
    forall b, triple (I b) (foldM f l b) I E.
  Proof.
    induction l as [|x l IH]; intros H b; simpl.
    - intros s Hs. exact Hs.
    - eapply t_bind; [apply H; simpl; auto|]. intros b'. apply IH. intros; apply H; simpl; auto.
  Qed.
End Triples.

(** ** State relations that every step respects (also when it raises). *)

Definition steps {S A} (R : S -> S -> Prop) (m : SE S A) : Prop := forall s, R s (snd (m s)).

Section Steps.
  Context {S : Type} (R : S -> S -> Prop) {HR : PreOrder R}.

  Lemma st_ret {A} (a : A) : steps R (ret a).
  Proof. intros s. simpl. reflexivity. Qed.
  Lemma st_raise {A} e : steps R (raise e : SE S A).
  Proof. intros s. simpl. reflexivity. Qed.
  Lemma st_lift {A} (r : res A) : steps R (lift r).
  Proof. intros s. simpl. reflexivity. Qed.
  Lemma st_get : steps R get.
  Proof. intros s. simpl. reflexivity. Qed.
  Lemma st_bind {A B} (m : SE S A) (k : A -> SE S B) :
    steps R m -> (forall a, steps R (k a)) -> steps R (bind m k).
  Proof.
    intros Hm Hk s. unfold bind. specialize (Hm s). destruct (m s) as [[a|e] s']; simpl in *; [|exact Hm].
    transitivity s'; [exact Hm|apply Hk].
  Qed.
  Lemma st_iterM {A B} (f : A -> SE S B) l : (forall x, In x l -> steps R (f x)) -> steps R (iterM f l).
  Proof.
    induction l as [|x l IH]; intros H; simpl; [apply st_ret|].
    apply st_bind; [apply H; simpl; auto|]. intros _. apply IH. intros; apply H; simpl; auto.
  Qed.
  Lemma st_mapM {A B} (f : A -> SE S B) l : (forall x, In x l -> steps R (f x)) -> steps R (mapM f l).
  Proof.
    induction l as [|x l IH]; intros H; simpl; [apply st_ret|].
    apply st_bind; [apply H; simpl; auto|]. intros b.
    apply st_bind; [apply IH; intros; apply H; simpl; auto|]. intros bs. apply st_ret.
  Qed.
  Lemma st_foldM {A B} (f : B -> A -> SE S B) l :
    (forall b x, In x l -> steps R (f b x)) -> forall b, steps R (foldM f l b).
  Proof.
    induction l as [|x l IH]; intros H b; simpl; [apply st_ret|].
    apply st_bind; [apply H; simpl; auto|]. intros b'. apply IH. intros; apply H; simpl; auto.
  Qed.
  Lemma st_repeatM {A} (m : SE S A) n : steps R m -> steps R (repeatM n m).
  Proof.
    intros H. induction n as [|n IH]; simpl; [apply st_ret|].
    apply st_bind; [exact H|]. intros b. apply st_bind; [exact IH|]. intros bs. apply st_ret.
  Qed.
End Steps.

(** Results of the loops, element by element. *)
Lemma mapM_length {S A B} (f : A -> SE S B) l : forall s bs s',
  mapM f l s = (Ok bs, s') -> length bs = length l.
Proof.
  induction l as [|x l IH]; simpl; intros s bs s' H.
  - mstep H. reflexivity.
  - mstep H. mstep H1. mstep H2. simpl. erewrite IH; eauto.
Qed.

Lemma repeatM_length {S A} (m : SE S A) n : forall s bs s',
  repeatM n m s = (Ok bs, s') -> length bs = n.
Proof.
  induction n as [|n IH]; simpl; intros s bs s' H.
  - mstep H. reflexivity.
  - mstep H. mstep H1. mstep H2. simpl. erewrite IH; eauto.
Qed.

Lemma mapM_In {S A B} (f : A -> SE S B) l : forall s bs s' b,
  mapM f l s = (Ok bs, s') -> In b bs -> exists x s1 s2, In x l /\ f x s1 = (Ok b, s2).
Proof.
  induction l as [|x l IH]; simpl; intros s bs s' b H Hb.
  - mstep H. destruct Hb.
  - mstep H. mstep H1. mstep H2. destruct Hb as [->|Hb].
    + exists x, s, s0. auto.
    + destruct (IH _ _ _ _ H Hb) as (y & s2 & s3 & Hy & Hf). exists y, s2, s3. auto.
Qed.

Lemma repeatM_In {S A} (m : SE S A) n : forall s bs s' b,
  repeatM n m s = (Ok bs, s') -> In b bs -> exists s1 s2, m s1 = (Ok b, s2).
Proof.
  induction n as [|n IH]; simpl; intros s bs s' b H Hb.
  - mstep H. destruct Hb.
  - mstep H. mstep H1. mstep H2. destruct Hb as [->|Hb]; eauto.
Qed.

(** ** Lists *)

Lemma list_set_length {A} (l : list A) i x : length (list_set l i x) = length l.
Proof. revert i. induction l as [|y l IH]; intros [|i]; simpl; auto. Qed.

Lemma nth_list_set_same {A} (l : list A) i x : i < length l -> nth_error (list_set l i x) i = Some x.
Proof. revert i. induction l as [|y l IH]; intros [|i] H; simpl in *; try lia; auto. apply IH. lia. Qed.

Lemma nth_list_set_other {A} (l : list A) i j x : i <> j -> nth_error (list_set l i x) j = nth_error l j.
Proof. revert i j. induction l as [|y l IH]; intros [|i] [|j] H; simpl; auto; try congruence. Qed.

Lemma list_set_id {A} (l : list A) i x : nth_error l i = Some x -> list_set l i x = l.
Proof. revert i. induction l as [|y l IH]; intros [|i] H; simpl in *; try congruence. f_equal; auto. Qed.

Lemma nth_error_ext {A} (l l' : list A) : (forall i, nth_error l i = nth_error l' i) -> l = l'.
Proof.
  revert l'. induction l as [|x l IH]; intros [|y l'] H; auto.
  - specialize (H 0). discriminate.
  - specialize (H 0). discriminate.
  - f_equal; [specialize (H 0); simpl in H; congruence|]. apply IH. intros i. apply (H (S i)).
Qed.

Lemma nth_error_lt {A} (l : list A) i x : nth_error l i = Some x -> i < length l.
Proof. intros H. apply nth_error_Some. congruence. Qed.

Lemma nth_error_ex {A} (l : list A) i : i < length l -> exists x, nth_error l i = Some x.
Proof. intros H. apply nth_error_Some in H. destruct (nth_error l i); [eauto|congruence]. Qed.

Lemma nth_error_firstn {A} (l : list A) n i : nth_error (firstn n l) i = if i <? n then nth_error l i else None.
Proof.
  revert n i. induction l as [|x l IH]; intros n i.
  - rewrite firstn_nil. destruct i; simpl; destruct (_ <? _); reflexivity.
  - destruct n as [|n]; simpl.
    + destruct i; reflexivity.
    + destruct i as [|i]; simpl; [reflexivity|]. rewrite IH.
      destruct (Nat.ltb_spec i n), (Nat.ltb_spec (S i) (S n)); try lia; reflexivity.
Qed.

Lemma nth_error_skipn {A} (l : list A) n i : nth_error (skipn n l) i = nth_error l (n + i).
Proof.
  revert n. induction l as [|x l IH]; intros n.
  - rewrite skipn_nil. destruct i, n; reflexivity.
  - destruct n as [|n]; simpl; [reflexivity|apply IH].
Qed.

Lemma Forall2_nth {A B} (R : A -> B -> Prop) l l' i x y :
  Forall2 R l l' -> nth_error l i = Some x -> nth_error l' i = Some y -> R x y.
Proof.
  intros H. revert i. induction H; intros [|i] Hx Hy; simpl in *; try discriminate; eauto; congruence.
Qed.

Lemma Forall2_map_l {A B C} (f : A -> B) (R : B -> C -> Prop) l l' :
  Forall2 R (map f l) l' <-> Forall2 (fun a c => R (f a) c) l l'.
Proof.
  split.
  - revert l'. induction l as [|x l IH]; simpl; intros l' H; inv H; constructor; auto.
  - induction 1; simpl; constructor; auto.
Qed.

Lemma find_index_some {A} (p : A -> bool) l i :
  find_index p l = Some i ->
  exists x, nth_error l i = Some x /\ p x = true /\ (forall j y, j < i -> nth_error l j = Some y -> p y = false).
Proof.
  revert i. induction l as [|x l IH]; simpl; intros i H; [discriminate|].
  destruct (p x) eqn:Hp.
  - inv H. exists x. repeat split; auto. intros; lia.
  - destruct (find_index p l) as [i'|] eqn:Hf; [|discriminate]. simpl in H. inv H.
    destruct (IH _ eq_refl) as (y & Hy & Hpy & Hmin). exists y. repeat split; auto.
    intros [|j] z Hj Hz; simpl in Hz; [congruence|]. eapply Hmin; [|exact Hz]. lia.
Qed.

Lemma find_index_none {A} (p : A -> bool) l :
  find_index p l = None -> forall x, In x l -> p x = false.
Proof.
  induction l as [|y l IH]; simpl; intros H x Hx; [tauto|].
  destruct (p y) eqn:Hp; [discriminate|].
  destruct (find_index p l); [discriminate|]. destruct Hx as [->|Hx]; auto.
Qed.

(** ** Stable sorting *)

Section Sorting.
  Context {A : Type} (before : A -> A -> bool).

  Lemma insert_perm x l : Permutation (insert_stable before x l) (x :: l).
  Proof.
    induction l as [|y l IH]; simpl; [auto|].
    destruct (before y x); [|auto]. rewrite IH. apply perm_swap.
  Qed.

  Lemma sort_perm l : Permutation (sort_stable before l) l.
  Proof. induction l as [|x l IH]; simpl; [auto|]. rewrite insert_perm. auto. Qed.

  Lemma sort_length l : length (sort_stable before l) = length l.
  Proof. apply Permutation_length, sort_perm. Qed.

  (** [before] restricted to the elements at hand is a strict weak order. *)
  Definition swo_on (l : list A) : Prop :=
    (forall x y, In x l -> In y l -> before x y = true -> before y x = false) /\
    (forall x y z, In x l -> In y l -> In z l -> before y x = false -> before z y = false -> before z x = false).

  Definition ordered (l : list A) : Prop := StronglySorted (fun x y => before y x = false) l.

  Lemma swo_on_incl l l' : incl l' l -> swo_on l -> swo_on l'.
  Proof. intros Hi [Has Htr]. split; intros; [apply Has|apply Htr with y]; auto. Qed.

  Lemma insert_ordered x l :
    swo_on (x :: l) -> ordered l -> ordered (insert_stable before x l).
  Proof.
    intros Hs Ho. induction Ho as [|y l Hl IH Hy]; simpl.
    - constructor; constructor.
    - pose proof Hs as [Has Htr]. destruct (before y x) eqn:Hyx.
      + constructor.
        * apply IH. revert Hs. apply swo_on_incl. intros z. simpl. tauto.
        * rewrite Forall_forall in *. intros z Hz.
          apply (Permutation_in _ (insert_perm x l)) in Hz. destruct Hz as [<-|Hz]; [|auto].
          apply Has; simpl; auto.
      + constructor; [constructor; assumption|]. rewrite Forall_forall in Hy.
        constructor; [exact Hyx|]. apply Forall_forall. intros z Hz.
        apply (Htr x y z); simpl; auto.
  Qed.

  Lemma sort_ordered l : swo_on l -> ordered (sort_stable before l).
  Proof.
    induction l as [|x l IH]; simpl; intros Hs; [constructor|].
    apply insert_ordered.
    - revert Hs. apply swo_on_incl. intros y. simpl. intros [->|Hy]; auto.
      right. exact (Permutation_in _ (sort_perm l) Hy).
    - apply IH. revert Hs. apply swo_on_incl. intros y. simpl. auto.
  Qed.

  (** Stability: elements that are not ordered keep their relative order.  [p] selects a class of
      mutually unordered elements. *)
  Lemma insert_filter (p : A -> bool) x l :
    (forall y, In y l -> p x = true -> p y = true -> before y x = false) ->
    filter p (insert_stable before x l) = filter p (x :: l).
  Proof.
    induction l as [|y l IH]; intros H; simpl; [reflexivity|].
    destruct (before y x) eqn:Hyx; simpl; [|reflexivity].
    rewrite IH by (intros; apply H; simpl; auto). simpl.
    destruct (p x) eqn:Hx, (p y) eqn:Hy; try reflexivity.
    rewrite H in Hyx; simpl; auto. discriminate.
  Qed.

  Lemma sort_stability (p : A -> bool) l :
    (forall x y, In x l -> In y l -> p x = true -> p y = true -> before y x = false) ->
    filter p (sort_stable before l) = filter p l.
  Proof.
    induction l as [|x l IH]; intros H; simpl; [reflexivity|].
    rewrite insert_filter.
    - simpl. rewrite IH by (intros; apply H; simpl; auto). reflexivity.
    - intros y Hy. apply H; simpl; auto. right. exact (Permutation_in _ (sort_perm l) Hy).
  Qed.
End Sorting.

(** ** Numbers *)

Lemma Qlt_b_spec x y : Qlt_b x y = true <-> (x < y)%Q.
Proof.
  unfold Qlt_b. rewrite Bool.negb_true_iff. split; intros H.
  - apply Qnot_le_lt. intros Hle. apply Qle_bool_iff in Hle. congruence.
  - destruct (Qle_bool y x) eqn:E; [|reflexivity]. apply Qle_bool_iff in E. lra.
Qed.

Lemma Qlt_b_false x y : Qlt_b x y = false <-> (y <= x)%Q.
Proof.
  unfold Qlt_b. rewrite Bool.negb_false_iff. apply Qle_bool_iff.
Qed.

Lemma nlt_irrefl a : nlt a a = false.
Proof. destruct a; simpl; auto. apply Qlt_b_false. lra. Qed.

Lemma nlt_asym a b : nlt a b = true -> nlt b a = false.
Proof. destruct a, b; simpl; auto; try discriminate. rewrite Qlt_b_spec, Qlt_b_false. lra. Qed.

Lemma nlt_trans a b c : nlt a b = true -> nlt b c = true -> nlt a c = true.
Proof. destruct a, b, c; simpl; auto; try discriminate. rewrite !Qlt_b_spec. lra. Qed.

Lemma neq_num_refl a : is_nan a = false -> neq_num a a = true.
Proof. destruct a; simpl; auto; try discriminate. intros _. apply Qeq_bool_iff. reflexivity. Qed.

Lemma neq_num_sym a b : neq_num a b = neq_num b a.
Proof.
  destruct a, b; simpl; auto.
  destruct (Qeq_bool q q0) eqn:E, (Qeq_bool q0 q) eqn:E'; auto.
  - apply Qeq_bool_iff in E. symmetry in E. apply Qeq_bool_iff in E. congruence.
  - apply Qeq_bool_iff in E'. symmetry in E'. apply Qeq_bool_iff in E'. congruence.
Qed.

Lemma neq_num_trans a b c : neq_num a b = true -> neq_num b c = true -> neq_num a c = true.
Proof.
  destruct a, b, c; simpl; auto; try discriminate. rewrite !Qeq_bool_iff. intros; lra.
Qed.

(** Trichotomy for numbers that are not NaN. *)
Lemma nlt_total a b : is_nan a = false -> is_nan b = false ->
  nlt a b = true \/ neq_num a b = true \/ nlt b a = true.
Proof.
  destruct a, b; simpl; auto; try discriminate. intros _ _.
  rewrite !Qlt_b_spec, Qeq_bool_iff. destruct (Q_dec q q0) as [[H|H]|H]; auto.
Qed.

Lemma nlt_neq a b : nlt a b = true -> neq_num a b = false.
Proof.
  destruct a, b; simpl; auto; try discriminate. rewrite Qlt_b_spec. intros H.
  destruct (Qeq_bool q q0) eqn:E; auto. apply Qeq_bool_iff in E. lra.
Qed.

Lemma neq_nlt a b : neq_num a b = true -> nlt a b = false.
Proof. intros H. destruct (nlt a b) eqn:E; auto. apply nlt_neq in E. congruence. Qed.

Lemma nlt_negtrans a b c : is_nan a = false -> is_nan b = false -> is_nan c = false ->
  nlt a b = false -> nlt b c = false -> nlt a c = false.
Proof.
  destruct a, b, c; simpl; auto; try discriminate. intros _ _ _. rewrite !Qlt_b_false. lra.
Qed.

Lemma nlt_compat a a' b b' : neq_num a a' = true -> neq_num b b' = true -> nlt a b = nlt a' b'.
Proof.
  destruct a, a', b, b'; simpl; auto; try discriminate. rewrite !Qeq_bool_iff. intros H1 H2.
  destruct (Qlt_b q q1) eqn:E, (Qlt_b q0 q2) eqn:E'; auto.
  - apply Qlt_b_spec in E. apply Qlt_b_false in E'. lra.
  - apply Qlt_b_spec in E'. apply Qlt_b_false in E. lra.
Qed.

Lemma nle_not_lt a b : is_nan a = false -> is_nan b = false -> nle a b = negb (nlt b a).
Proof.
  intros Ha Hb. unfold nle. destruct (nlt_total a b Ha Hb) as [H|[H|H]].
  - rewrite H. simpl. rewrite (nlt_asym _ _ H). reflexivity.
  - rewrite H, (neq_nlt _ _ H). rewrite neq_num_sym in H. rewrite (neq_nlt _ _ H). reflexivity.
  - rewrite H, (nlt_asym _ _ H). rewrite neq_num_sym, (nlt_neq _ _ H). reflexivity.
Qed.

Lemma nlt_nan_l b : nlt NaN b = false. Proof. destruct b; reflexivity. Qed.
Lemma nlt_nan_r a : nlt a NaN = false. Proof. destruct a; reflexivity. Qed.

(** ** The random functions *)

Lemma randbelow_lt n g i g' : 0 < n -> randbelow n g = (Ok i, g') -> i < n.
Proof.
  unfold randbelow. intros Hn H. mstep H. mstep H1.
  assert (d_n x mod N.of_nat n < N.of_nat n)%N by (apply N.mod_lt; lia). lia.
Qed.

Lemma choice_In {A} (l : list A) g x g' : choice l g = (Ok x, g') -> In x l.
Proof.
  unfold choice. destruct l as [|y l]; [discriminate|]. intros H. mstep H.
  destruct (nth_error _ x0) eqn:E; mstep H1. eapply nth_error_In; eauto.
Qed.

Lemma choices_In {A} (l : list A) k g xs g' : choices l k g = (Ok xs, g') -> length xs = k /\ incl xs l.
Proof.
  unfold choices. intros H. split; [eapply repeatM_length; eauto|].
  intros x Hx. destruct (repeatM_In _ _ _ _ _ _ H Hx) as (s1 & s2 & Hs). eapply choice_In; eauto.
Qed.

Lemma removelast_set_perm {A} (l : list A) j x :
  nth_error l j = Some x -> Permutation l (x :: removelast (list_set l j (last l x))).
Proof.
  intros H. destruct (exists_last (l := l)) as (l' & y & ->).
  { intros ->. destruct j; discriminate. }
  rewrite last_last. destruct (Nat.lt_ge_cases j (length l')) as [Hj|Hj].
  - rewrite nth_error_app1 in H by assumption.
    assert (E : list_set (l' ++ [y]) j y = list_set l' j y ++ [y]).
    { clear H. revert j Hj. induction l' as [|z l' IH]; intros [|j] Hj; simpl in *; try lia; auto.
      f_equal. apply IH. lia. }
    rewrite E, removelast_last. clear E.
    transitivity (y :: l'); [symmetry; apply Permutation_cons_append|].
    revert j Hj H. induction l' as [|z l' IH]; intros [|j] Hj H; simpl in *; try lia.
    + inv H. apply perm_swap.
    + transitivity (z :: y :: l'); [apply perm_swap|].
      rewrite (IH j) by (auto; lia). apply perm_swap.
  - rewrite nth_error_app2 in H by assumption.
    destruct (j - length l') as [|m] eqn:E; [|destruct m; discriminate]. simpl in H. inv H.
    assert (j = length l') by lia. subst j.
    assert (E' : list_set (l' ++ [x]) (length l') x = l' ++ [x]).
    { apply list_set_id. rewrite nth_error_app2, Nat.sub_diag by lia. reflexivity. }
    rewrite E', removelast_last. symmetry. apply Permutation_cons_append.
Qed.

Lemma sample_pool_spec {A} k : forall (l : list A) g xs g',
  sample_pool k l g = (Ok xs, g') -> length xs = k /\ exists rest, Permutation l (xs ++ rest).
Proof.
  induction k as [|k IH]; intros l g xs g' H; simpl in H.
  - mstep H. split; [reflexivity|]. exists l. reflexivity.
  - mstep H. destruct (nth_error l x) as [y|] eqn:E; [|mstep H1].
    mstep H1. mstep H2. apply IH in H. destruct H as (Hl & rest & Hp).
    split; [simpl; lia|]. exists rest. simpl. rewrite <- Hp. apply removelast_set_perm. assumption.
Qed.

Lemma sample_spec {A} (l : list A) k g xs g' :
  sample l k g = (Ok xs, g') -> k <= length l /\ length xs = k /\ exists rest, Permutation l (xs ++ rest).
Proof.
  unfold sample. destruct (Nat.ltb_spec (length l) k); intros Hs; [mstep Hs|].
  apply sample_pool_spec in Hs. tauto.
Qed.

(** The functions that draw do not raise on proper arguments. *)
Lemma randbelow_ok n g : exists i g', randbelow n g = (Ok i, g').
Proof. unfold randbelow, bind, next_draw, ret. eauto. Qed.

Lemma choice_ok {A} (l : list A) g : l <> [] -> exists x g', choice l g = (Ok x, g').
Proof.
  intros Hl. unfold choice. destruct l as [|y l]; [congruence|].
  destruct (randbelow_ok (length (y :: l)) g) as (i & g' & E).
  rewrite (bind_eq_ok _ _ _ _ _ E). cbv beta.
  apply randbelow_lt in E; [|simpl; lia].
  destruct (nth_error_ex (y :: l) i E) as (x & ->). unfold ret. eauto.
Qed.

Lemma sample_pool_ok {A} k : forall (l : list A) g, k <= length l -> exists xs g', sample_pool k l g = (Ok xs, g').
Proof.
  induction k as [|k IH]; intros l g Hk; simpl; [unfold ret; eauto|].
  destruct (randbelow_ok (length l) g) as (i & g' & E).
  rewrite (bind_eq_ok _ _ _ _ _ E). cbv beta.
  apply randbelow_lt in E; [|simpl; lia].
  destruct (nth_error_ex l i E) as (x & Hx). rewrite Hx.
  pose proof (Permutation_length (removelast_set_perm _ _ _ Hx)) as Hl. simpl in Hl.
  destruct (IH (removelast (list_set l i (last l x))) g') as (xs & g'' & E'); [lia|].
  rewrite (bind_eq_ok _ _ _ _ _ E'). unfold ret. eauto.
Qed.

Lemma sample_ok {A} (l : list A) k g : k <= length l -> exists xs g', sample l k g = (Ok xs, g').
Proof.
  intros H. unfold sample. destruct (Nat.ltb_spec (length l) k); [lia|]. apply sample_pool_ok. assumption.
Qed.

Lemma NoDup_app_l {A} (l l' : list A) : NoDup (l ++ l') -> NoDup l.
Proof.
  induction l as [|x l IH]; simpl; intros H; [constructor|]. inv H.
  constructor; [intros Hx; apply H2; apply in_or_app; auto|auto].
Qed.

Lemma Forall2_len {A B} (P : A -> B -> Prop) l l' : Forall2 P l l' -> length l = length l'.
Proof. induction 1; simpl; auto. Qed.
