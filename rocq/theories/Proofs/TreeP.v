(** * Prefix lists and trees: structure, index recursions, subtree surgery. *)
From Coq Require Import Lia Permutation.
From Verif.Model Require Import Tree World.
From Verif.Spec Require Import TreeSpec WorldSpec.
From Verif.Proofs Require Import Lib.
From Verif.Model Require Import Tree World.
Open Scope nat_scope.
Open Scope list_scope.

Lemma rose_ind (P : rtree -> Prop) :
  (forall n ks, All P ks -> P (Rose n ks)) -> forall t, P t.
Proof.
  intros H. fix IH 1. intros [n ks]. apply H.
  induction ks as [|k ks IHks]; cbn; [exact I|]. split; [apply IH|apply IHks].
Qed.

Lemma All_In {A} (P : A -> Prop) l : All P l <-> forall x, In x l -> P x.
Proof.
  induction l as [|a l IH]; cbn; [tauto|]. rewrite IH. split.
  - intros [Ha Hl] x [->|Hx]; auto.
  - intros H; split; auto.
Qed.

Lemma All_app {A} (P : A -> Prop) l m : All P (l ++ m) <-> All P l /\ All P m.
Proof. induction l; cbn; tauto. Qed.

Lemma All_imp {A} (P Q : A -> Prop) l : (forall x, P x -> Q x) -> All P l -> All Q l.
Proof. intros H. rewrite !All_In; auto. Qed.

(** ** Equality of nodes *)

Lemma ty_eqb_iff a b : ty_eqb a b = true <-> a = b.
Proof.
  destruct a, b; cbn; try (split; congruence).
  rewrite andb_true_iff, Nat.eqb_eq, eqb_true_iff. split; [intros [-> ->]|injection 1 as -> ->]; auto.
Qed.

Lemma oty_eqb_iff a b : oty_eqb a b = true <-> a = b.
Proof.
  destruct a, b; cbn; try (split; congruence).
  rewrite ty_eqb_iff. split; congruence.
Qed.

Lemma otys_eqb_iff a : forall b, otys_eqb a b = true <-> a = b.
Proof.
  induction a as [|x a IH]; intros [|y b]; cbn; try (split; congruence).
  rewrite andb_true_iff, oty_eqb_iff, IH. split; [intros [-> ->]|injection 1 as -> ->]; auto.
Qed.

Lemma func_eqb_iff f g : func_eqb f g = true <-> f = g.
Proof.
  destruct f, g; unfold func_eqb; cbn.
  rewrite !andb_true_iff, Nat.eqb_eq, String.eqb_eq, otys_eqb_iff, oty_eqb_iff.
  split; [intros [[[-> ->] ->] ->]|injection 1 as -> -> -> ->]; auto.
Qed.

Lemma num_same_iff a b : num_same a b = true <-> a = b.
Proof.
  destruct a as [[p q]| | |], b as [[r s]| | |]; cbn; try (split; congruence).
  unfold Q_eqb; cbn. rewrite andb_true_iff, Z.eqb_eq, Pos.eqb_eq.
  split; [intros [-> ->]|injection 1 as -> ->]; auto.
Qed.

Lemma tval_is_iff a b : tval_is a b = true <-> a = b.
Proof.
  destruct a, b; cbn; try (split; congruence).
  - rewrite String.eqb_eq. split; congruence.
  - rewrite !andb_true_iff, eqb_true_iff, num_same_iff, N.eqb_eq.
    split; [intros [[-> ->] ->]|injection 1 as -> -> ->]; auto.
Qed.

Lemma node_eqb_iff a b : node_eqb a b = true <-> a = b.
Proof.
  destruct a, b; cbn [node_eqb]; try (split; congruence).
  - rewrite andb_true_iff, oty_eqb_iff, func_eqb_iff. split; [intros [_ ->]|injection 1 as ->]; auto.
  - rewrite andb_true_iff, oty_eqb_iff, tval_is_iff. split; [intros [-> ->]|injection 1 as -> ->]; auto.
Qed.

Lemma existsb_func f fset : existsb (func_eqb f) fset = true <-> In f fset.
Proof.
  rewrite existsb_exists. split.
  - intros (g & Hg & E). apply func_eqb_iff in E. now subst.
  - intros H. exists f. split; auto. now apply func_eqb_iff.
Qed.

Lemma find_index_first n l : In n l ->
  exists i, find_index (fun x => node_eqb x n) l = Some i /\
            nth_error l i = Some n /\ ~ In n (firstn i l).
Proof.
  induction l as [|a l IH]; intros H; [easy|]. cbn [find_index].
  destruct (node_eqb a n) eqn:E.
  - apply node_eqb_iff in E as ->. exists 0; cbn; auto.
  - destruct H as [->|H].
    { assert (node_eqb n n = true) by now apply node_eqb_iff. congruence. }
    destruct (IH H) as (i & -> & H1 & H2). exists (S i). cbn. repeat split; auto.
    intros [->|Hi]; auto. assert (node_eqb n n = true) by now apply node_eqb_iff. congruence.
Qed.

Lemma find_index_app n pre post : ~ In n pre ->
  find_index (fun x => node_eqb x n) (pre ++ n :: post) = Some (length pre).
Proof.
  induction pre as [|a pre IH]; cbn; intros H.
  - assert (node_eqb n n = true) as -> by now apply node_eqb_iff. auto.
  - destruct (node_eqb a n) eqn:E.
    + apply node_eqb_iff in E. tauto.
    + rewrite IH by tauto. auto.
Qed.

(** ** Structure *)

Lemma flatten_pos t : 0 < length (flatten t).
Proof. destruct t; cbn; lia. Qed.

Lemma flatten_hd t : exists r, flatten t = label t :: r.
Proof. destruct t as [n ks]; cbn; eauto. Qed.

Lemma saturated_rose n ks : saturated (Rose n ks) <-> length ks = n_args n /\ All saturated ks.
Proof. reflexivity. Qed.

(** A complete tree is not a proper prefix of another one. *)
Lemma prefix_free : forall t u r s, saturated t -> saturated u ->
  flatten t ++ r = flatten u ++ s -> t = u /\ r = s.
Proof.
  induction t as [n ks IH] using rose_ind; intros [m ls] r s [Hn Hk] [Hm Hl] E.
  cbn in E. injection E as -> E. 
  assert (length ks = length ls) as L by congruence. clear Hn Hm.
  assert (ks = ls /\ r = s) as [-> ->]; [|auto].
  revert ls L Hl r s E. induction ks as [|k ks IHks]; intros [|l ls] L Hl r s E; cbn in L; try discriminate.
  - cbn in E. auto.
  - cbn in E. rewrite <- !app_assoc in E. cbn in IH, Hk, Hl.
    destruct IH as [IHk IH], Hk as [Hk Hks], Hl as [Hl Hls].
    destruct (IHk _ _ _ Hk Hl E) as [-> E'].
    destruct (IHks IH Hks ls ltac:(lia) Hls _ _ E') as [-> ->]; auto.
Qed.

Lemma flatten_inj t u : saturated t -> saturated u -> flatten t = flatten u -> t = u.
Proof.
  intros Ht Hu E. apply (prefix_free t u [] []); auto. now rewrite !app_nil_r.
Qed.

Lemma subtree_flatten t pre s post : subtree_at t pre s post -> flatten t = pre ++ flatten s ++ post.
Proof.
  induction 1 as [t|n before k after pre s post H IH].
  - now rewrite app_nil_r.
  - cbn. rewrite flat_map_app. cbn. rewrite IH. now rewrite <- !app_assoc.
Qed.

Lemma subtree_saturated t pre s post : subtree_at t pre s post -> saturated t -> saturated s.
Proof.
  induction 1 as [t|n before k after pre s post H IH]; auto.
  intros [_ Hk]. apply All_app in Hk as [_ [Hk _]]. auto.
Qed.

Lemma subtree_typed t pre s post : subtree_at t pre s post -> well_typed t -> well_typed s.
Proof.
  induction 1 as [t|n before k after pre s post H IH]; auto.
  intros [_ Hk]. apply All_app in Hk as [_ [Hk _]]. auto.
Qed.

(** Every position of the list is the root of a subtree. *)
Lemma position_subtree t : forall pre n r, flatten t = pre ++ n :: r ->
  exists s post, subtree_at t pre s post /\ label s = n.
Proof.
  induction t as [m ks IH] using rose_ind; intros pre n r E.
  destruct pre as [|p pre].
  - exists (Rose m ks), []. split; [constructor|]. cbn in E. injection E as ->. auto.
  - cbn in E. injection E as <- E.
    enough (exists before k after q s post, ks = before ++ k :: after /\ pre = flat_map flatten before ++ q /\
            subtree_at k q s post /\ label s = n) as (b & k & a & q & s & post & -> & -> & H & L).
    { exists s, (post ++ flat_map flatten a). split; auto. now constructor. }
    revert pre E. induction ks as [|k ks IHks]; intros pre E.
    + destruct pre; discriminate.
    + cbn in E. cbn in IH. destruct IH as [IHk IH].
      destruct (le_lt_dec (length (flatten k)) (length pre)) as [L|L].
      * assert (pre = flatten k ++ skipn (length (flatten k)) pre) as Epre.
        { rewrite <- (firstn_skipn (length (flatten k)) pre) at 1. f_equal.
          apply (f_equal (firstn (length (flatten k)))) in E.
          rewrite firstn_app, Nat.sub_diag, firstn_all, firstn_O, app_nil_r in E.
          rewrite firstn_app in E. replace (length (flatten k) - length pre) with 0 in E by lia.
          cbn in E. rewrite app_nil_r in E. auto. }
        rewrite Epre in E. rewrite <- app_assoc in E. apply app_inv_head in E.
        destruct (IHks IH _ E) as (b & k' & a & q & s & post & -> & E2 & H & Hl).
        exists (k :: b), k', a, q, s, post. repeat split; auto.
        cbn. rewrite <- app_assoc, <- E2. auto.
      * assert (exists r', flatten k = pre ++ n :: r') as [r' Er'].
        { exists (skipn (S (length pre)) (flatten k)).
          apply (f_equal (firstn (length (flatten k)))) in E.
          rewrite firstn_app, Nat.sub_diag, firstn_all, firstn_O, app_nil_r in E.
          rewrite firstn_app in E. rewrite firstn_all2 in E by lia.
          destruct (length (flatten k) - length pre) as [|x] eqn:D; [lia|]. cbn in E.
          rewrite E at 1. rewrite E. f_equal.
          rewrite skipn_app. replace (S (length pre) - length pre) with 1 by lia.
          rewrite skipn_all2 by lia. cbn. auto. }
        destruct (IHk _ _ _ Er') as (s & post & H & Hl).
        exists [], k, ks, pre, s, post. auto.
Qed.

(** Exchanging a subtree. *)
Lemma splice t pre s post u : subtree_at t pre s post ->
  saturated t -> saturated u ->
  exists t', subtree_at t' pre u post /\ saturated t' /\
    (delivers (label u) = delivers (label s) -> delivers (label t') = delivers (label t)) /\
    (well_typed t -> well_typed u -> delivers (label u) = delivers (label s) -> well_typed t').
Proof.
  intros H Ht Hu. induction H as [t|n before k after pre s post H IH].
  - exists u. split; [constructor|auto].
  - destruct Ht as [Hn Hk]. apply All_app in Hk as [Hb [Hk Ha]].
    destruct (IH Hk) as (k' & H' & Hk' & Hd & Hw).
    exists (Rose n (before ++ k' :: after)). split; [now constructor|]. split.
    + split; [|rewrite All_app; cbn; auto].
      rewrite <- Hn, !app_length. reflexivity.
    + split; [auto|]. intros [W1 W2] Wu E. apply All_app in W2 as [Wb [Wk Wa]].
      split; [|rewrite All_app; cbn; auto].
      destruct n as [f|v ty].
      * destruct W1 as [W1 W1']. split; auto. rewrite <- W1'. rewrite !map_app. cbn. now rewrite Hd.
      * destruct before; discriminate.
Qed.

Lemma subtree_unique t pre s post s' post' : saturated t ->
  subtree_at t pre s post -> subtree_at t pre s' post' -> s = s' /\ post = post'.
Proof.
  intros Ht H H'. apply prefix_free.
  - eapply subtree_saturated; eauto.
  - eapply subtree_saturated; eauto.
  - apply subtree_flatten in H. apply subtree_flatten in H'. rewrite H in H'. now apply app_inv_head in H'.
Qed.

(** ** Index recursion over the children. *)

Definition seg (l : list node) (p : nat) (m : list node) : Prop :=
  exists pre post, l = pre ++ m ++ post /\ length pre = p.

Lemma seg_nth l p n m : seg l p (n :: m) -> nth_error l p = Some n.
Proof. intros (pre & post & -> & <-). rewrite nth_error_app2, Nat.sub_diag by lia. auto. Qed.

Lemma seg_tail l p n m : seg l p (n :: m) -> seg l (S p) m.
Proof.
  intros (pre & post & -> & <-). exists (pre ++ [n]), post. rewrite <- app_assoc, app_length. cbn. split; auto; lia.
Qed.

Lemma seg_app_l l p a b : seg l p (a ++ b) -> seg l p a.
Proof. intros (pre & post & -> & <-). exists pre, (b ++ post). now rewrite <- app_assoc. Qed.

Lemma seg_app_r l p a b : seg l p (a ++ b) -> seg l (p + length a) b.
Proof.
  intros (pre & post & -> & <-). exists (pre ++ a), post. rewrite <- !app_assoc, app_length. auto.
Qed.

Lemma seg_all l : seg l 0 l.
Proof. exists [], []. now rewrite app_nil_r. Qed.

(** Position of the last node of [t] when its first one is at [p]. *)
Definition last_pos (p : nat) (m : list node) : nat := p + length m - 1.

Lemma iter_pos_kids {B} (f : nat -> res (B * nat)) (r : rtree -> res B) l ks : forall p,
  All (fun k => forall q, seg l q (flatten k) -> f q = rbind (r k) (fun v => Ok (v, last_pos q (flatten k)))) ks ->
  seg l (S p) (flat_map flatten ks) ->
  iter_pos f (length ks) p =
  rbind (rmap r ks) (fun vs => Ok (vs, p + length (flat_map flatten ks))).
Proof.
  induction ks as [|k ks IH]; intros p H Hs; cbn [length iter_pos rmap flat_map].
  - cbn. now rewrite Nat.add_0_r.
  - destruct H as [Hk H]. cbn [flat_map] in Hs.
    rewrite (Hk (S p)) by (eapply seg_app_l; eauto).
    destruct (r k) as [v|e]; [|reflexivity]. cbn [rbind fst snd].
    assert (last_pos (S p) (flatten k) = p + length (flatten k)) as -> by (unfold last_pos; lia).
    rewrite IH; auto.
    + destruct (rmap r ks); cbn; [|reflexivity]. rewrite app_length. do 2 f_equal. lia.
    + replace (S (p + length (flatten k))) with (S p + length (flatten k)) by lia.
      eapply seg_app_r; eauto.
Qed.

Lemma rmap_ok {A B} (f : A -> B) l : rmap (fun x => Ok (f x)) l = Ok (map f l).
Proof. induction l; cbn; [auto|]. now rewrite IHl. Qed.

Lemma flat_map_length_le ks k : In k ks -> length (flatten k) <= length (flat_map flatten ks).
Proof.
  induction ks as [|a ks IH]; intros H; [easy|]. cbn. rewrite app_length.
  destruct H as [->|H]; [lia|]. specialize (IH H). lia.
Qed.

Lemma over_kid fset n ks k : over fset (flatten (Rose n ks)) -> In k ks -> over fset (flatten k).
Proof.
  intros H Hk f Hf. apply H. right. apply in_flat_map. eauto.
Qed.

(** *** depth *)
Lemma depth_at_spec fuel : forall l t p, saturated t ->
  (forall f, In (FNode f) (flatten t) -> 0 < arity f) ->
  seg l p (flatten t) -> length (flatten t) <= fuel ->
  depth_at fuel l p = Ok (height t, last_pos p (flatten t)).
Proof.
  induction fuel as [|fuel IH]; intros l [n ks] p Hs Hp Hg Hf.
  { pose proof (flatten_pos (Rose n ks)). lia. }
  cbn [depth_at]. cbn [flatten] in *. rewrite (seg_nth _ _ _ _ Hg).
  destruct Hs as [Hn Hk]. destruct n as [f|v ty].
  - cbn [n_args] in Hn. rewrite <- Hn.
    rewrite (iter_pos_kids _ (fun k => Ok (height k)) l).
    + rewrite rmap_ok. cbn [rbind fst snd].
      assert (0 < arity f) as Ha by (apply Hp; cbn; auto).
      destruct ks as [|k ks]; [cbn in Hn; lia|]. cbn [map].
      unfold last_pos. cbn [length]. f_equal. f_equal; [|lia].
      clear. cbn [map height fold_right]. 
      assert (forall l, max_list (map S (map height l)) = match l with [] => 0 | _ => S (fold_right Nat.max 0 (map height l)) end) as E.
      { induction l as [|a l IHl]; [auto|]. cbn [map max_list fold_right]. rewrite IHl. destruct l; cbn; lia. }
      apply (E (k :: ks)).
    + rewrite All_In in *. intros k Hin q Hq. cbn [rbind]. apply IH; auto.
      * intros g Hg'. apply Hp. right. apply in_flat_map; eauto.
      * pose proof (flat_map_length_le ks k Hin). cbn in Hf. lia.
    + eapply seg_tail; eauto.
  - cbn in Hn. destruct ks; [|discriminate]. cbn. unfold last_pos. do 3 f_equal. cbn. lia.
Qed.

(** *** end of a subtree *)
Lemma find_end_spec fset fuel : forall l t p, saturated t ->
  over fset (flatten t) -> seg l p (flatten t) -> length (flatten t) <= fuel ->
  find_subtree_end fuel fset l p = Ok (tt, last_pos p (flatten t)).
Proof.
  induction fuel as [|fuel IH]; intros l [n ks] p Hs Hp Hg Hf.
  { pose proof (flatten_pos (Rose n ks)). lia. }
  cbn [find_subtree_end]. cbn [flatten] in *. rewrite (seg_nth _ _ _ _ Hg).
  destruct Hs as [Hn Hk]. destruct n as [f|v ty].
  - cbn [n_args] in Hn. assert (existsb (func_eqb f) fset = true) as ->.
    { apply existsb_func, Hp; cbn; auto. }
    rewrite <- Hn.
    rewrite (iter_pos_kids _ (fun k => Ok tt) l).
    + rewrite rmap_ok. cbn [rbind fst snd]. unfold last_pos. cbn [length]. do 2 f_equal. lia.
    + rewrite All_In in *. intros k Hin q Hq. cbn [rbind]. apply IH; auto.
      * intros g Hg'. apply Hp. right. apply in_flat_map; eauto.
      * pose proof (flat_map_length_le ks k Hin). cbn in Hf. lia.
    + eapply seg_tail; eauto.
  - cbn in Hn. destruct ks; [|discriminate]. unfold last_pos. do 3 f_equal. cbn. lia.
Qed.

(** *** execution *)
Lemma collect_rmap {A B} (f : A -> res B) l : collect B (map f l) = rmap f l.
Proof. induction l as [|a l IH]; cbn; [auto|]. destruct (f a); cbn; auto. rewrite IH. destruct (rmap f l); auto. Qed.

Lemma execute_at_spec val fsem const kw fuel : forall l t p, saturated t ->
  seg l p (flatten t) -> length (flatten t) <= fuel ->
  execute_at val fsem const fuel l kw p =
  rbind (eval val fsem const (fun s => assoc val s kw) t) (fun v => Ok (v, last_pos p (flatten t))).
Proof.
  induction fuel as [|fuel IH]; intros l [n ks] p Hs Hg Hf.
  { pose proof (flatten_pos (Rose n ks)). lia. }
  cbn [execute_at]. cbn [flatten] in *. rewrite (seg_nth _ _ _ _ Hg).
  destruct Hs as [Hn Hk]. destruct n as [f|v ty].
  - cbn [n_args] in Hn. rewrite <- Hn.
    rewrite (iter_pos_kids _ (eval val fsem const (fun s => assoc val s kw)) l).
    + cbn [eval]. rewrite collect_rmap. destruct (rmap _ ks) as [vs|e]; cbn [rbind fst snd]; [|reflexivity].
      destruct (fsem f vs); cbn [rbind]; [|reflexivity]. unfold last_pos. cbn [length]. do 2 f_equal. lia.
    + rewrite All_In in *. intros k Hin q Hq. apply IH; auto.
      pose proof (flat_map_length_le ks k Hin). cbn in Hf. lia.
    + eapply seg_tail; eauto.
  - cbn in Hn. destruct ks; [|discriminate]. cbn [flat_map]. unfold last_pos.
    replace (p + length [TNode v ty] - 1) with p by (cbn; lia).
    destruct v; cbn; [destruct (assoc val s kw)|]; reflexivity.
Qed.

(** ** Subtrees drawn and replaced *)

Lemma py_slice_seg (l : list node) i m post :
  py_slice (l ++ m ++ post) (Z.of_nat (length l)) (Z.of_nat (i + length m)) = m \/ i <> length l.
Proof.
  destruct (Nat.eq_dec i (length l)) as [->|H]; [left|auto].
  unfold py_slice, py_clip.
  destruct (Z.ltb_spec (Z.of_nat (length l)) 0); [lia|].
  destruct (Z.ltb_spec (Z.of_nat (length l + length m)) 0); [lia|].
  rewrite !Nat2Z.id, !app_length.
  replace (Nat.min (length l + (length m + length post)) (length l)) with (length l) by lia.
  replace (Nat.min (length l + (length m + length post)) (length l + length m) - length l) with (length m) by lia.
  rewrite skipn_app, skipn_all, Nat.sub_diag. cbn.
  now rewrite firstn_app, Nat.sub_diag, firstn_all, firstn_O, app_nil_r.
Qed.

Lemma nth_split_firstn {A} (l : list A) i x : nth_error l i = Some x ->
  l = firstn i l ++ x :: skipn (S i) l /\ length (firstn i l) = i.
Proof.
  revert i; induction l as [|a l IH]; intros [|i] H; cbn in *; try discriminate.
  - injection H as ->. auto.
  - destruct (IH _ H) as [E L]. split; [now f_equal|now f_equal].
Qed.

(** The slice that starts at the first node equal to [n]. *)
Lemma get_subtree_spec t rt n : saturated rt -> flatten rt = t_nodes t -> over (t_fset t) (t_nodes t) ->
  In n (t_nodes t) ->
  exists pre s post, get_subtree_by_root t n = Ok (flatten s) /\
    subtree_at rt pre s post /\ label s = n /\ ~ In n pre.
Proof.
  intros Hs E Ho Hn. unfold get_subtree_by_root.
  destruct (find_index_first _ _ Hn) as (i & -> & Hi & Hfirst).
  destruct (nth_split_firstn _ _ _ Hi) as [Esplit Hlen].
  destruct (position_subtree rt (firstn i (t_nodes t)) n (skipn (S i) (t_nodes t))) as (s & post & Hsub & Hl).
  { now rewrite <- Esplit. }
  exists (firstn i (t_nodes t)), s, post. split; [|auto].
  pose proof (subtree_flatten _ _ _ _ Hsub) as Ef. rewrite E in Ef.
  destruct i as [|i].
  - cbn in Hsub. 
    assert (s = rt) as ->.
    { destruct (subtree_unique rt [] s post rt []) as [-> _]; auto. constructor. }
    now rewrite E.
  - rewrite (find_end_spec (t_fset t) _ _ s (S i)).
    + cbn [rbind snd]. unfold last_pos. pose proof (flatten_pos s).
      rewrite Ef at 1. 
      destruct (py_slice_seg (firstn (S i) (t_nodes t)) (S i) (flatten s) post) as [Hsl|Hsl]; [|lia].
      rewrite Hlen in Hsl. f_equal. etransitivity; [|exact Hsl]. f_equal; lia.
    + eapply subtree_saturated; eauto.
    + intros f Hf. apply Ho. rewrite Ef. rewrite !in_app_iff. auto.
    + exists (firstn (S i) (t_nodes t)), post. auto.
    + unfold tsize. rewrite Ef, !app_length. lia.
Qed.

Lemma random_subtree_spec t rt nt g r g' : saturated rt -> flatten rt = t_nodes t ->
  over (t_fset t) (t_nodes t) -> random_subtree t nt g = (r, g') ->
  (r = Ok None /\ (forall n, In n (t_nodes t) -> subtree_candidate (label rt) nt n = false)) \/
  (exists pre s post, r = Ok (Some (flatten s)) /\ subtree_at rt pre s post /\
     ~ In (label s) pre /\ subtree_candidate (label rt) nt (label s) = true).
Proof.
  intros Hs E Ho H. unfold random_subtree in H.
  destruct (flatten_hd rt) as [rest Er]. rewrite E in Er. rewrite Er in H.
  destruct (filter (subtree_candidate (label rt) nt) (label rt :: rest)) as [|c cs] eqn:Ec.
  - left. inv H. split; auto. intros n Hn. rewrite Er in Hn.
    destruct (subtree_candidate (label rt) nt n) eqn:D; auto. exfalso.
    assert (In n []) as [] . rewrite <- Ec. apply filter_In. auto.
  - right. destruct (choice_ok (c :: cs) g) as (n & g1 & Hc); [discriminate|].
    unfold bind in H. rewrite Hc in H. apply choice_In in Hc. rewrite <- Ec in Hc.
    apply filter_In in Hc as [Hn Hcand]. rewrite <- Er in Hn.
    destruct (get_subtree_spec t rt n Hs E Ho Hn) as (pre & s & post & Hg & Hsub & Hl & Hfirst).
    cbn in H. rewrite Hg in H. unfold ret in H. injection H as <- <-.
    exists pre, s, post. rewrite Hl. auto.
Qed.

Lemma replace_spec t rt pre s post new : flatten rt = t_nodes t -> subtree_at rt pre s post ->
  ~ In (label s) pre ->
  replace_subtree t (flatten s) new = Ok (with_nodes t (pre ++ new ++ post)).
Proof.
  intros E Hsub Hfirst. unfold replace_subtree.
  pose proof (subtree_flatten _ _ _ _ Hsub) as Ef. rewrite E in Ef.
  destruct (flatten_hd s) as [rest Er]. rewrite Er at 1.
  replace (t_nodes t) with (pre ++ label s :: (rest ++ post)) at 1 by (rewrite Ef, Er; reflexivity).
  rewrite find_index_app by auto. rewrite Ef.
  rewrite firstn_app, Nat.sub_diag, firstn_all, firstn_O, app_nil_r.
  do 4 f_equal. rewrite skipn_app. 
  rewrite skipn_all2 by lia. cbn. rewrite skipn_app.
  rewrite skipn_all2 by lia. cbn.
  replace (length pre + length (flatten s) - length pre - length (flatten s)) with 0 by lia. auto.
Qed.

(** ** Type hints *)

Lemma somes_all l : (forall o, In o l -> o <> None) -> somes l = l.
Proof.
  unfold somes in *. induction l as [|[a|] l IH]; cbn; intros H; auto.
  - rewrite IH; auto.
  - exfalso. apply (H None); auto.
Qed.

Lemma somes_none l : (forall o, In o l -> o = None) -> somes l = [].
Proof.
  unfold somes in *. induction l as [|[a|] l IH]; cbn; intros H; auto.
  specialize (H (Some a) (or_introl eq_refl)). discriminate.
Qed.

Lemma somes_length l : length (somes l) <= length l.
Proof. unfold somes. induction l as [|[a|] l IH]; cbn; lia. Qed.

Lemma somes_nil l : somes l = [] -> forall o, In o l -> o = None.
Proof.
  unfold somes in *. induction l as [|[a|] l IH]; cbn; intros H o; [tauto|discriminate|].
  intros [<-|Ho]; auto.
Qed.

Lemma somes_full l : length l <= length (somes l) -> forall o, In o l -> o <> None.
Proof.
  unfold somes in *. induction l as [|[a|] l IH]; cbn; intros H o; [tauto| |].
  - intros [<-|Ho]; [discriminate|]. apply IH; auto. cbn in H. unfold somes in *. lia.
  - pose proof (somes_length l) as Hsl. unfold somes in Hsl. lia.
Qed.

Lemma types_hinted f : hinted f -> get_func_types f = f_params f ++ [f_ret f].
Proof.
  unfold get_func_types. intros [H|H].
  - rewrite somes_all by auto. destruct (f_params f); reflexivity.
  - rewrite somes_none by auto. unfold arity.
    assert (forall l : list (option ty), (forall o, In o l -> o = None) -> l = repeat None (length l)) as E.
    { induction l as [|a l IH]; cbn; intros Hl; auto. rewrite (Hl a) by auto. f_equal. apply IH; auto. }
    rewrite (E (f_params f ++ [f_ret f])) by auto. rewrite app_length. auto.
Qed.

Lemma function_node_ok f n : function_node f = Ok n -> n = FNode f /\ hinted f.
Proof.
  unfold function_node. destruct (_ && _) eqn:E; [discriminate|]. injection 1 as <-. split; auto.
  apply andb_false_iff in E. unfold get_func_types in E.
  destruct (somes (f_params f ++ [f_ret f])) as [|a l] eqn:D.
  - right. now apply somes_nil.
  - left. rewrite <- D in E. destruct E as [E|E].
    + apply Nat.ltb_ge in E. rewrite D in E. cbn in E. lia.
    + apply Nat.ltb_ge in E. apply somes_full. rewrite app_length. cbn. unfold arity in E. lia.
Qed.

Lemma function_node_hinted f : hinted f -> function_node f = Ok (FNode f).
Proof.
  intros H. unfold function_node. rewrite types_hinted by auto. rewrite app_length. unfold arity. cbn [length].
  rewrite Nat.ltb_irrefl, andb_false_r. auto.
Qed.

Lemma node_type_delivers n : (forall f, n = FNode f -> hinted f) -> node_type n = delivers n.
Proof.
  destruct n as [f|v ty]; intros H; cbn; auto.
  rewrite types_hinted by auto. now rewrite last_last.
Qed.

Lemma eligible_iff root nt n : (forall f, n = FNode f -> hinted f) ->
  subtree_candidate root nt n = true <-> eligible root nt n.
Proof.
  intros H. unfold subtree_candidate, eligible. rewrite node_type_delivers by auto.
  destruct (delivers n) as [a|] eqn:E; [|tauto].
  assert (negb (node_eqb n root) = true <-> n <> root) as Hn.
  { rewrite negb_true_iff, <- not_true_iff_false, node_eqb_iff. tauto. }
  rewrite orb_true_iff, !andb_true_iff, Hn, oty_eqb_iff.
  destruct nt as [b|]; intuition congruence.
Qed.
