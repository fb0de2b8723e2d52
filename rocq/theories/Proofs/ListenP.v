(** What the listeners of operators are told. *)
From Verif.Proofs Require Import Lib WorldP StepP VecOpP RootP ErrorP.
From Verif.Model Require Import Evolution Publisher Listeners.
From Verif.Spec Require Import WorldSpec ErrorSpec ListenSpec.
Open Scope nat_scope.
Open Scope list_scope.

(** ** Publishing *)

Lemma dict_get_split (name : string) (d : list (string * subscribers)) l : dict_get String.eqb name d = Some l ->
  exists pre post, d = pre ++ (name, l) :: post /\ ~ In name (map fst pre).
Proof.
  induction d as [|[k v] d IH]; cbn; [discriminate|]. destruct (String.eqb_spec name k) as [->|D].
  - intros [= ->]. exists [], d. auto.
  - intros H. destruct (IH H) as (pre & post & -> & N). exists ((k, v) :: pre), post. split; [reflexivity|]. cbn. intros [E|E]; [congruence|auto].
Qed.

Lemma subscribers_listens ob name l : subscribers_in (ob_events ob) name = Ok l -> listens ob name l.
Proof.
  unfold subscribers_in, listens. destruct (ob_events ob) as [|d|n]; try discriminate. destruct (dict_get String.eqb name d) as [l'|] eqn:E; [|discriminate].
  intros [= ->]. destruct (dict_get_split _ _ _ E) as (pre & post & -> & N). exists pre, post. auto.
Qed.

Section Listen.
  Variable user : nat -> string -> data -> res unit.

  Lemma tells_ok name d l : forall s u s', iterM (fun ic => tell user name d (snd ic)) l s = (Ok u, s') ->
    exists hs, told name d l hs /\ s' = mkL (l_world s) (l_obj s) (l_heard s ++ hs).
  Proof.
    induction l as [|[id c] l IH]; cbn [iterM]; intros s u s' H.
    - mr H. exists []. rewrite app_nil_r. split; [constructor|destruct s'; reflexivity].
    - mb H as t s1 E. cbn [snd] in E. unfold tell in E. destruct c as [n|]; [|discriminate]. mb E as q s2 E2. unfold hear in E2. injection E2 as _ <-.
      unfold lift in E. injection E as Eu <-. destruct (IH _ _ _ H) as (hs & T & ->). cbn.
      exists (mkHeard n name d :: hs). split; [constructor; [auto|exact T]|]. rewrite <- app_assoc. reflexivity.
  Qed.

  Lemma announce_ok name s u s' : announce user name s = (Ok u, s') ->
    exists l hs, listens (l_obj s) name l /\ told name (event_data (l_obj s) name) l hs /\ s' = mkL (l_world s) (l_obj s) (l_heard s ++ hs).
  Proof.
    intros H. unfold announce in H. mb H as s0 s1 E. injection E as <- <-. mb H as l s2 E2. unfold lift in E2. injection E2 as E2 <-.
    destruct (tells_ok _ _ _ _ _ _ H) as (hs & T & ->). exists l, hs. split; [apply subscribers_listens, E2|]. auto.
  Qed.

  (** An action that changes nothing of the publisher but what it shows, and tells nobody. *)
  Definition discreet {X} (m : L X) : Prop :=
    forall s, same_publisher (l_obj s) (l_obj (snd (m s))) /\ l_heard (snd (m s)) = l_heard s.

  Lemma act_ok {X} payload (action : L X) s v s' : discreet action -> act user payload action s = (Ok v, s') ->
    check_payload (ob_arity (l_obj s)) payload = Ok tt /\
    exists hb s1 w1 w2, action (mkL (l_world s) (l_obj s) (l_heard s ++ hb)) = (Ok v, s1) /\
      w1 = l_world s /\ w2 = l_world s1 /\ l_world s' = w2 /\ l_obj s' = l_obj s1 /\
      bracketed_by (event_data (l_obj s) before_operator) (event_data (l_obj s1) after_operator) s s'.
  Proof.
    intros D H. unfold act in H. mb H as s0 s1 E. injection E as <- <-. mb H as u s2 E2. unfold lift in E2. injection E2 as E2 <-.
    destruct u. split; [exact E2|]. mb H as u s3 E3. destruct (announce_ok _ _ _ _ E3) as (bs & hb & Lb & Tb & ->).
    mb H as x s4 E4. mb H as u' s5 E5. mr H. destruct (announce_ok _ _ _ _ E5) as (es & he & Le & Te & ->).
    pose proof (D (mkL (l_world s) (l_obj s) (l_heard s ++ hb))) as [(D1 & D2 & D3 & D4) D5]. rewrite E4 in *. cbn in D1, D2, D3, D4, D5.
    exists hb, s4, (l_world s), (l_world s4). cbn. repeat split; auto.
    exists bs, es, hb, he. split; [exact Lb|]. split.
    { destruct Le as (pre & post & Q & N). exists pre, post. rewrite <- D3. auto. }
    split; [exact Tb|]. split; [exact Te|]. rewrite D5. rewrite app_assoc. reflexivity.
  Qed.
End Listen.

(** ** Actions on the individuals, and what is shown *)

(** [m] does what [n] does, tells nobody, and leaves the publisher alone apart from what it shows. *)
Definition does {X} (m : L X) (n : M X) : Prop :=
  forall s, fst (m s) = fst (n (l_world s)) /\ l_world (snd (m s)) = snd (n (l_world s)) /\
            same_publisher (l_obj s) (l_obj (snd (m s))) /\ l_heard (snd (m s)) = l_heard s.

Lemma same_publisher_refl ob : same_publisher ob ob.
Proof. repeat split. Qed.
Lemma same_publisher_trans a b c : same_publisher a b -> same_publisher b c -> same_publisher a c.
Proof. intros (A1 & A2 & A3 & A4) (B1 & B2 & B3 & B4). repeat split; congruence. Qed.
Global Hint Resolve same_publisher_refl : core.

Lemma does_discreet {X} (m : L X) n : does m n -> discreet m.
Proof. intros H s. destruct (H s) as (_ & _ & A & B). auto. Qed.

Lemma does_liftW {X} (n : M X) : does (liftW n) n.
Proof. intros s. unfold liftW. destruct (n (l_world s)) as [r w]. cbn. auto. Qed.
Lemma does_ret {X} (x : X) : does (ret x) (ret x).
Proof. intros s. cbn. auto. Qed.
Lemma does_raise {X} e : does (raise e : L X) (raise e).
Proof. intros s. cbn. auto. Qed.
Lemma does_lift {X} (r : res X) : does (lift r) (lift r).
Proof. intros s. cbn. auto. Qed.
Lemma does_bind {X Y} (m : L X) n (k : X -> L Y) j : does m n -> (forall x, does (k x) (j x)) -> does (x <- m ;; k x) (x <- n ;; j x).
Proof.
  intros H K s. destruct (H s) as (H1 & H2 & H3 & H4). unfold bind. destruct (m s) as [[x|e] s1], (n (l_world s)) as [[y|f] w1]; cbn in *; try discriminate.
  - injection H1 as <-. subst w1. destruct (K x s1) as (K1 & K2 & K3 & K4). repeat split; auto; try congruence; eapply same_publisher_trans; eauto.
  - injection H1 as <-. auto.
Qed.
Lemma does_note {X} v (m : L X) n : does m n -> does (show_now v ;;; m) n.
Proof.
  intros H s. unfold bind, show_now. set (t := mkL _ _ _). destruct (H t) as (H1 & H2 & (A1 & A2 & A3 & A4) & H4).
  split; [exact H1|]. split; [exact H2|]. split; [|exact H4]. repeat split; assumption.
Qed.

Lemma does_failable {X} (at1 : nat -> L (bool * X)) at2 of1 of2 : (forall i, does (at1 i) (at2 i)) -> does of1 of2 ->
  forall n, does (failable_apply n at1 of1) (failable_apply n at2 of2).
Proof.
  intros H K n. unfold failable_apply. generalize 0. induction n as [|n IH]; intros i; cbn; [exact K|].
  apply does_bind; [apply H|]. intros [[] x]; [apply does_ret|apply IH].
Qed.

Lemma does_ext {X} (m : L X) n n' : (forall w, n w = n' w) -> does m n -> does m n'.
Proof. intros E H s. rewrite <- E. apply H. Qed.

Lemma does_applying o inds : does (applying o inds) (op_apply o inds).
Proof.
  assert (T : forall at_ : M bool, does (failable_apply (op_attempts o) (fun _ => ok <- liftW at_ ;; (if ok then show_now (ShInds inds) else ret tt) ;;; ret (ok, Some inds)) (ret (Some inds)))
    (failable_apply (op_attempts o) (fun _ => ok <- at_ ;; ret (ok, Some inds)) (ret (Some inds)))).
  { intros at_. apply does_failable; [|apply does_ret]. intros _. apply does_bind; [apply does_liftW|]. intros [].
    - apply does_note, does_ret.
    - apply (does_ext _ (_ <- ret tt ;; ret (false, Some inds))); [reflexivity|]. apply does_bind; intros; apply does_ret. }
  unfold applying, op_apply. destruct (op_kind o) as [k|m n| | | |]; try apply T.
  - apply does_bind; [apply does_liftW|]. intros r. apply does_note, does_ret.
  - unfold vec_apply. apply does_failable.
    + intros _. apply does_bind; [apply does_liftW|]. intros ok. apply does_note, does_ret.
    + destruct m; try apply does_ret; (apply does_bind; [apply does_liftW|intros; apply does_ret]).
  - apply does_note, does_ret.
Qed.

Lemma does_operator o inds : does (applying_operator o inds) (apply_operator o inds).
Proof.
  unfold applying_operator, apply_operator, with_probability. apply does_bind; [apply does_liftW|]. intros u.
  destruct (nle u (op_prob o)); [|apply does_ret]. apply does_bind; [apply does_liftW|]. intros _.
  apply does_bind; [apply does_applying|]. intros [l|]; [|apply does_raise]. apply does_bind; [apply does_liftW|intros; apply does_ret].
Qed.

(** ** When the individuals are shown *)

Lemma gkeep_same w w' : gkeep w w' -> same_genomes w w'.
Proof. intros K. exact K. Qed.

Definition shows (s : lst) : shown := ob_shown (l_obj s).

(** [m] ends with [l] shown, or has changed no genome and nothing shown. *)
Definition honest {X} (l : list oid) (m : L X) : Prop := forall s x s', m s = (Ok x, s') ->
  shows s' = ShInds l \/ shows s' = shows s /\ gkeep (l_world s) (l_world s').

Lemma liftW_ok {X} (n : M X) s x s' : liftW n s = (Ok x, s') -> n (l_world s) = (Ok x, l_world s') /\ l_obj s' = l_obj s.
Proof. unfold liftW. destruct (n (l_world s)) as [r w]. intros [= -> <-]. auto. Qed.
Lemma liftW_keeps {X} (n : M X) s x s' : steps gkeep n -> liftW n s = (Ok x, s') -> shows s' = shows s /\ gkeep (l_world s) (l_world s').
Proof.
  intros K H. apply liftW_ok in H. destruct H as [H E]. unfold shows. rewrite E. split; [reflexivity|]. specialize (K (l_world s)). rewrite H in K. exact K.
Qed.

Lemma honest_bind {X Y} l (m : L X) (k : X -> L Y) : honest l m -> (forall x, honest l (k x)) -> honest l (x <- m ;; k x).
Proof.
  intros H K s y s' E. mb E as x s1 E1. destruct (K _ _ _ _ E) as [Q|[Q G]]; [auto|]. destruct (H _ _ _ E1) as [Q1|[Q1 G1]].
  - left. congruence.
  - right. split; [congruence|etransitivity; eauto].
Qed.
Lemma honest_ret {X} l (x : X) : honest l (ret x).
Proof. intros s y s' E. mr E. right. split; reflexivity. Qed.
Lemma honest_raise {X} l e : honest l (raise e : L X).
Proof. intros s y s' E. discriminate. Qed.
Lemma honest_liftW {X} l (n : M X) : steps gkeep n -> honest l (liftW n).
Proof. intros K s x s' E. right. eapply liftW_keeps; eauto. Qed.
Lemma honest_note {X} l (m : M X) : honest l (r <- liftW m ;; show_now (ShInds l) ;;; ret r).
Proof. intros s x s' E. mb E as r s1 E1. mb E as u s2 E2. injection E2 as _ <-. mr E. left. reflexivity. Qed.
Lemma honest_failable {X} l (at_ : nat -> L (bool * X)) of_ n : (forall i, honest l (at_ i)) -> honest l of_ -> honest l (failable_apply n at_ of_).
Proof.
  intros H K. unfold failable_apply. generalize 0. induction n as [|n IH]; intros i; cbn; [exact K|].
  apply honest_bind; [apply H|]. intros [[] x]; [apply honest_ret|apply IH].
Qed.

(** An attempt that returns False has changed no genome. *)
Definition cautious (n : M bool) : Prop := forall w w', n w = (Ok false, w') -> gkeep w w'.

Lemma honest_attempt l n : cautious n -> honest l (ok <- liftW n ;; (if ok then show_now (ShInds l) else ret tt) ;;; ret (ok, Some l)).
Proof.
  intros C s x s' E. mb E as ok s1 E1. mb E as u s2 E2. mr E. destruct ok.
  - injection E2 as _ <-. left. reflexivity.
  - mr E2. apply liftW_ok in E1. destruct E1 as [E1 O]. right. unfold shows. rewrite O. split; [reflexivity|exact (C _ _ E1)].
Qed.

Lemma picks_gkeep inds : steps gkeep (pick_subtrees inds).
Proof.
  unfold pick_subtrees. destruct inds as [|a rest]; [apply (st_raise gkeep)|].
  apply (st_bind gkeep); [apply pick_gkeep|]. intros [[|x l]|]; [apply (st_raise gkeep)| |apply (st_ret gkeep)].
  apply (st_bind gkeep); [apply (st_mapM gkeep); intros; apply pick_gkeep|]. intros rs. apply (st_ret gkeep).
Qed.

Lemma cautious_xo ar inds : cautious (xo_attempt ar inds).
Proof.
  intros w w' H. unfold xo_attempt in H. destruct (negb _); [discriminate|]. mb H as ss w1 E. pose proof (picks_gkeep inds w) as K. rewrite E in K.
  destruct ss as [ss|]; [mb H as u w2 E2; mr H; discriminate|]. mr H. exact K.
Qed.
Lemma cautious_mut mn mx inds : cautious (mut_attempt mn mx inds).
Proof.
  intros w w' H. unfold mut_attempt in H. mb H as ss w1 E. pose proof (st_mapM gkeep (pick_subtree None) inds (fun p _ => pick_gkeep None p) w) as K.
  rewrite E in K. destruct (all_somes ss); [mb H as u w2 E2; mr H; discriminate|]. mr H. exact K.
Qed.
Lemma cautious_erc mu sigma inds : cautious (erc_attempt mu sigma inds).
Proof.
  intros w w' H. unfold erc_attempt in H. mb H as ss w1 E.
  assert (K : gkeep w w1).
  { pose proof (st_mapM gkeep (fun o => t <- load_tree o ;; liftR (get_random_numeric_node t)) inds) as Q.
    assert (P : forall o, In o inds -> steps gkeep (t <- load_tree o ;; liftR (get_random_numeric_node t))).
    { intros o _. apply (st_bind gkeep); [|intros; apply gk_liftR]. unfold load_tree. apply (st_bind gkeep); [apply gk_load|].
      intros i. destruct (i_genome i); [apply (st_raise gkeep)|apply (st_ret gkeep)]. }
    specialize (Q P w). rewrite E in Q. exact Q. }
  destruct (all_somes ss); [mb H as u w2 E2; mr H; discriminate|]. mr H. exact K.
Qed.

(** Vector operators show their individuals. *)
Lemma vec_shows o inds s x s' : not_on_trees (op_kind o) -> 1 <= op_attempts o -> applying o inds s = (Ok x, s') -> shows s' = ShInds inds.
Proof.
  intros N A H. unfold applying in H. destruct (op_kind o) as [k|m n| | | |]; try destruct N.
  - mb H as r s1 E. mb H as u s2 E2. injection E2 as _ <-. mr H. reflexivity.
  - set (of_ := match m with MGaussOne _ _ => _ | MGaussN _ _ => _ | _ => _ end) in H.
    assert (F : forall s1 y s2, shows s1 = ShInds inds -> of_ s1 = (Ok y, s2) -> shows s2 = ShInds inds).
    { intros s1 y s2 S E. subst of_. destruct m; try (mr E; assumption); mb E as r s3 E3; mr E; apply liftW_ok in E3; destruct E3 as [_ O]; unfold shows; rewrite O; exact S. }
    clearbody of_. unfold failable_apply in H. revert H. generalize 0. destruct (op_attempts o) as [|q]; [lia|]. clear A.
    assert (G : forall p i s1, shows s1 = ShInds inds -> failable_from (fun _ => ok <- liftW (vec_attempt m n inds) ;; show_now (ShInds inds) ;;; ret (ok, Some inds)) of_ i p s1 = (Ok x, s') -> shows s' = ShInds inds).
    { induction p as [|p IH]; intros i s1 S H; cbn in H; [eapply F; eauto|]. mb H as r s2 E. mb E as ok s3 E3. mb E as u s4 E4. injection E4 as _ <-. mr E.
      destruct ok; cbn [fst snd] in H; [mr H; reflexivity|]. eapply IH; [|exact H]. reflexivity. }
    intros i H. cbn in H. mb H as r s2 E. mb E as ok s3 E3. mb E as u s4 E4. injection E4 as _ <-. mr E.
    destruct ok; cbn [fst snd] in H; [mr H; reflexivity|]. eapply G; [|exact H]. reflexivity.
  - mb H as u s2 E2. injection E2 as _ <-. mr H. reflexivity.
Qed.

Lemma honest_applying o inds : 1 <= op_attempts o -> honest inds (applying o inds).
Proof.
  intros A s x s' H. destruct (op_kind o) as [k|m n| | | |] eqn:K;
    try (left; eapply vec_shows; [|exact A|exact H]; rewrite K; exact I).
  all: revert s x s' H; unfold applying; rewrite K; apply honest_failable; [intros _; apply honest_attempt|apply honest_ret].
  - apply cautious_xo.
  - apply cautious_mut.
  - apply cautious_erc.
Qed.

Lemma honest_operator o inds : 1 <= op_attempts o -> honest inds (applying_operator o inds).
Proof.
  intros A. unfold applying_operator. apply honest_bind; [apply honest_liftW, gk_liftR|]. intros u.
  destruct (nle u (op_prob o)); [|apply honest_ret].
  apply honest_bind; [apply honest_liftW; apply (st_iterM gkeep); intros; apply gk_reset|]. intros _.
  apply honest_bind; [apply honest_applying, A|]. intros [l|]; [|apply honest_raise].
  apply honest_bind; [apply honest_liftW; apply (st_iterM gkeep); intros; apply gk_record|]. intros _. apply honest_ret.
Qed.

(** ** The operators of the library *)

Lemma before_not_after : String.eqb before_operator after_operator = false.
Proof. reflexivity. Qed.

Lemma genetic_told user o inds s r s' : ob_class (l_obj s) = KGenetic -> 1 <= op_attempts o -> act_genetic user o inds s = (Ok r, s') ->
  apply_operator o inds (l_world s) = (Ok r, l_world s') /\ same_publisher (l_obj s) (l_obj s') /\
  bracketed_by DEmpty (DItem "applied_individuals" (ob_shown (l_obj s'))) s s' /\
  (ob_shown (l_obj s') = ShInds inds \/ ob_shown (l_obj s') = ob_shown (l_obj s) /\ same_genomes (l_world s) (l_world s')).
Proof.
  intros K A H. unfold act_genetic in H. destruct (act_ok _ _ _ _ _ _ (does_discreet _ _ (does_operator o inds)) H) as (_ & hb & s1 & w1 & w2 & E & -> & -> & Ew & Eo & B).
  destruct (does_operator o inds (mkL (l_world s) (l_obj s) (l_heard s ++ hb))) as (D1 & D2 & D3 & _). rewrite E in *. cbn [fst snd l_world l_obj] in *.
  split. { destruct (apply_operator o inds (l_world s)) as [q w] eqn:Q. cbn in *. subst. rewrite Ew. reflexivity. }
  rewrite Eo. split; [exact D3|]. split.
  - unfold event_data in B. destruct D3 as [D3 _]. rewrite K, D3, K in B. exact B.
  - destruct (honest_operator o inds A _ _ _ E) as [Q|[Q G]]; [left; exact Q|right]. rewrite Ew. split; [exact Q|exact G].
Qed.

Lemma genetic_shown user o inds s r s' u g : 1 <= op_attempts o -> act_genetic user o inds s = (Ok r, s') ->
  random_unit (w_rng (l_world s)) = (Ok u, g) ->
  (nle u (op_prob o) = true -> not_on_trees (op_kind o) -> ob_shown (l_obj s') = ShInds inds) /\
  (nle u (op_prob o) = false -> ob_shown (l_obj s') = ob_shown (l_obj s) /\ r = inds /\ w_heap (l_world s') = w_heap (l_world s)).
Proof.
  intros A H U. unfold act_genetic in H. destruct (act_ok _ _ _ _ _ _ (does_discreet _ _ (does_operator o inds)) H) as (_ & hb & s1 & w1 & w2 & E & -> & -> & Ew & Eo & _).
  rewrite Eo, Ew. clear H. unfold applying_operator in E. mb E as u' s2 E1. apply liftW_ok in E1. destruct E1 as [E1 O1]. cbn [l_world l_obj] in *.
  unfold liftR in E1. rewrite U in E1. injection E1 as <- W. split; intros P; rewrite P in E.
  - intros N. mb E as q s3 E3. mb E as l s4 E4. pose proof (vec_shows _ _ _ _ _ N A E4) as S. destruct l as [l|]; [|discriminate]. mb E as v s5 E5. mr E.
    apply liftW_ok in E5. destruct E5 as [_ O5]. rewrite O5. exact S.
  - mr E. rewrite O1, <- W. auto.
Qed.

Lemma selection_mute user w hs name cb sel src dst :
  let s := mkL w (selection_init EaNone) hs in
  register_listener name cb s = (Raise TypeError, s) /\
  act_selection user false sel src dst s = (Raise TypeError, s) /\ act_selection user true sel src dst s = (Raise ValueError, s).
Proof. repeat split. Qed.

Lemma discreet_bind {X Y} (m : L X) (k : X -> L Y) : discreet m -> (forall x, discreet (k x)) -> discreet (x <- m ;; k x).
Proof.
  intros H K s. destruct (H s) as [H1 H2]. unfold bind. destruct (m s) as [[x|e] s1]; cbn in *; [|auto].
  destruct (K x s1) as [K1 K2]. split; [eapply same_publisher_trans; eauto|congruence].
Qed.
Lemma discreet_show v : discreet (show_now v).
Proof. intros s. cbn. split; [repeat split|reflexivity]. Qed.
Lemma discreet_liftW {X} (m : M X) : discreet (liftW m).
Proof. eapply does_discreet, does_liftW. Qed.
Lemma discreet_ret {X} (x : X) : discreet (ret x).
Proof. eapply does_discreet, does_ret. Qed.
Lemma discreet_lift {X} (r : res X) : discreet (lift r).
Proof. eapply does_discreet, does_lift. Qed.

Lemma selection_given user sel src dst s r s' : ob_class (l_obj s) = KSelection -> act_selection user false sel src dst s = (Ok r, s') ->
  select sel src dst (l_world s) = (Ok r, l_world s') /\ same_publisher (l_obj s) (l_obj s') /\
  bracketed_by DEmpty DEmpty s s' /\ ob_shown (l_obj s') = ShInds r.
Proof.
  intros K H. unfold act_selection in H. destruct (fun D => act_ok _ _ _ _ _ _ D H) as (_ & hb & s1 & w1 & w2 & E & -> & -> & Ew & Eo & B).
  { apply discreet_bind; [apply discreet_liftW|]. intros x. apply discreet_bind; [apply discreet_show|intros; apply discreet_ret]. }
  mb E as x s2 E2. mb E as u s3 E3. injection E3 as _ <-. mr E. apply liftW_ok in E2. destruct E2 as [E2 O]. cbn in *.
  rewrite Ew, Eo. split; [exact E2|]. split; [rewrite O; repeat split|]. split; [|reflexivity].
  unfold event_data in B. cbn in B. rewrite O, K in B. exact B.
Qed.

Lemma creator_acts user events payload w hs name cb :
  let s := mkL w (creator_init events) hs in
  act_creator user payload s = (Raise ValueError, s) /\
  (fst (register_listener name cb s) = Ok 0 <-> name = before_operator \/ name = after_operator) /\
  (name <> before_operator -> name <> after_operator -> register_listener name cb s = (Raise KeyError, s)).
Proof.
  cbn zeta. split; [reflexivity|]. unfold register_listener, bind, get, subscribers_in, creator_init, operator_init. cbn [l_obj ob_events dict_get].
  destruct (String.eqb_spec name before_operator) as [->|D1]; [|destruct (String.eqb_spec name after_operator) as [->|D2]].
  - cbn. split; [split; auto|congruence].
  - cbn. split; [split; auto|congruence].
  - cbn. split; [split; [discriminate|tauto]|auto].
Qed.

Lemma evaluator_told user ev sched m alive pop s r s' : ob_class (l_obj s) = KEvaluator ->
  act_population_evaluator user ev sched m alive pop s = (Ok r, s') ->
  evaluate_population ev sched m alive pop (l_world s) = (Ok r, l_world s') /\ same_publisher (l_obj s) (l_obj s') /\
  bracketed_by DEmpty (DItem "applied_individuals" (ShPop pop)) s s'.
Proof.
  intros K H. unfold act_population_evaluator in H. destruct (fun D => act_ok _ _ _ _ _ _ D H) as (_ & hb & s1 & w1 & w2 & E & -> & -> & Ew & Eo & B).
  { apply discreet_bind; [apply discreet_show|]. intros _. apply discreet_liftW. }
  mb E as u s2 E2. injection E2 as _ <-. apply liftW_ok in E. destruct E as [E O]. cbn [l_world l_obj] in E, O.
  rewrite Ew, Eo. split; [exact E|]. split; [rewrite O; repeat split|]. unfold event_data in B. rewrite O in B. cbn in B. rewrite K in B. exact B.
Qed.

Lemma individual_evaluator_told user ev o s r s' : ob_class (l_obj s) = KEvaluator -> act_individual_evaluator user ev o s = (Ok r, s') ->
  r = o /\ bracketed_by DEmpty (DItem "applied_individuals" (ShInds [o])) s s' /\
  exists i v, at_ (l_world s) o = Some i /\ ev (i_genome i) = Ok v /\ ind_set_fitness o v (l_world s) = (Ok tt, l_world s').
Proof.
  intros K H. unfold act_individual_evaluator in H. destruct (fun D => act_ok _ _ _ _ _ _ D H) as (_ & hb & s1 & w1 & w2 & E & -> & -> & Ew & Eo & B).
  { apply discreet_bind; [apply discreet_show|]. intros _. apply discreet_bind; [apply discreet_liftW|]. intros i.
    apply discreet_bind; [apply discreet_lift|]. intros v. apply discreet_bind; [apply discreet_liftW|]. intros; apply discreet_ret. }
  mb E as u s2 E2. injection E2 as _ <-. mb E as i s3 E3. apply liftW_ok in E3. destruct E3 as [E3 O3]. mb E as v s4 E4. injection E4 as E4 <-.
  mb E as q s5 E5. destruct q. mr E. apply liftW_ok in E5. destruct E5 as [E5 O5]. cbn [l_world l_obj] in *. apply load_ok in E3. destruct E3 as [W E3]. rewrite W in E5.
  split; [reflexivity|]. split.
  - unfold event_data in B. rewrite O5, O3 in B. cbn in B. rewrite K in B. exact B.
  - exists i, v. rewrite Ew. auto.
Qed.

Lemma breeder_told user pop s r s' : ob_class (l_obj s) = KBreeder -> act_breeder user pop s = (Ok r, s') ->
  breed pop (l_world s) = (Ok r, l_world s') /\ l_obj s' = l_obj s /\ bracketed_by DNone DNone s s'.
Proof.
  intros K H. unfold act_breeder in H. destruct (act_ok _ _ _ _ _ _ (discreet_liftW _) H) as (_ & hb & s1 & w1 & w2 & E & -> & -> & Ew & Eo & B).
  apply liftW_ok in E. destruct E as [E O]. cbn [l_world l_obj] in *. rewrite Ew, Eo. split; [exact E|]. split; [exact O|].
  unfold event_data in B. rewrite O, K in B. exact B.
Qed.

(** ** Breeding *)

Lemma does_chunks o fuel : forall l, does (applying_chunks fuel o l) (apply_chunks fuel (apply_operator o) (op_arity o) l).
Proof.
  induction fuel as [|fuel IH]; intros l; cbn [applying_chunks apply_chunks]; [apply does_ret|].
  destruct l as [|x l]; [apply does_ret|]. apply does_bind; [apply does_operator|]. intros r. apply does_bind; [apply IH|]. intros; apply does_ret.
Qed.

Lemma breeding_silent ops : forall l w hs r w' hs', applying_operators ops l (w, hs) = (r, (w', hs')) ->
  hs' = hs /\ apply_operators (map snd ops) l w = (match r with Ok (l', _) => Ok l' | Raise e => Raise e end, w') /\
  (forall l' obs, r = Ok (l', obs) -> Forall2 (fun x ob => same_publisher (fst x) ob) ops obs).
Proof.
  induction ops as [|[ob o] ops IH]; intros l w hs r w' hs' H; unfold apply_operators; cbn [map foldM applying_operators] in *.
  - injection H as <- <- <-. repeat split. intros l' obs [= <- <-]. constructor.
  - cbn [snd]. destruct (op_arity o =? 0) eqn:Z.
    + injection H as <- <- <-. repeat split. discriminate.
    + set (m := applying_chunks (length l) o l) in *.
      destruct (does_chunks o (length l) l (mkL w ob hs)) as (D1 & D2 & D3 & D4). fold m in D1, D2, D3, D4. cbn [l_world l_obj l_heard] in *.
      unfold bind in H at 1. unfold on_object in H. cbn [fst snd] in H.
      destruct (m (mkL w ob hs)) as [[x|e] t] eqn:E; cbn [fst snd] in *;
        destruct (apply_chunks (length l) (apply_operator o) (op_arity o) l w) as [[y|f] w1] eqn:Q; cbn [fst snd] in *; try discriminate.
      * injection D1 as ->. subst w1. rewrite D4 in H. unfold bind in H. destruct (applying_operators ops y (l_world t, hs)) as [[[l2 obs2]|e] [w2 hs2]] eqn:E2.
        -- cbn in H. injection H as <- <- <-. destruct (IH _ _ _ _ _ _ E2) as (I1 & I2 & I3). split; [exact I1|]. split.
           ++ rewrite (bind_eq_ok _ _ _ _ _ Q). exact I2.
           ++ intros l' obs [= <- <-]. constructor; [exact D3|]. eapply I3. reflexivity.
        -- injection H as <- <- <-. destruct (IH _ _ _ _ _ _ E2) as (I1 & I2 & I3). split; [exact I1|]. split; [|discriminate].
           rewrite (bind_eq_ok _ _ _ _ _ Q). exact I2.
      * injection D1 as ->. injection H as <- <- <-. split; [exact D4|]. split; [|discriminate]. rewrite (bind_eq_raise _ _ _ _ _ Q). congruence.
Qed.
