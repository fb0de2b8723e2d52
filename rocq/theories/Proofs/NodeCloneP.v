(** * Cloning a tree of node objects, shared or not. *)
From Coq Require Import Lia.
From Verif.Spec Require Import WorldSpec NodeSpec.
From Verif.Proofs Require Export Lib.
From Verif.Model Require Import NodeStore.
Open Scope nat_scope.
Open Scope list_scope.

(** The copies known so far: distinct objects, made after the first [n], with the contents of the originals. *)
Definition memo_ok (n : nat) (objs : list node) (memo : list (nat * nat)) : Prop :=
  (forall a b, memo_get a memo = Some b -> a < n /\ n <= b < length objs /\ node_at objs b = node_at objs a) /\
  (forall a a' b, memo_get a memo = Some b -> memo_get a' memo = Some b -> a = a').

Lemma copy_any n l : forall memo s, (forall a, In a l -> a < n) -> n <= length (s_objs s) -> memo_ok n (s_objs s) memo ->
  exists memo' new bs, copy_addrs memo l s = (Ok bs, mkStore (s_objs s ++ new) (s_trees s) (s_rng s)) /\
    memo_ok n (s_objs s ++ new) memo' /\ (forall a b, memo_get a memo = Some b -> memo_get a memo' = Some b) /\
    Forall2 (fun a b => memo_get a memo' = Some b) l bs.
Proof.
  induction l as [|a l IH]; intros memo s Hl Hn Hm.
  - exists memo, [], []. cbn. rewrite app_nil_r. destruct s. split; [reflexivity|]. split; [exact Hm|]. split; [auto|constructor].
  - cbn [copy_addrs]. destruct (memo_get a memo) as [b|] eqn:E.
    + destruct (IH memo s (fun x Hx => Hl x (or_intror Hx)) Hn Hm) as (memo' & new & bs & E' & M & X & F).
      exists memo', new, (b :: bs). unfold bind. rewrite E'. split; [reflexivity|]. split; [exact M|]. split; [exact X|].
      constructor; [apply X; exact E|exact F].
    + set (s1 := mkStore (s_objs s ++ [node_at (s_objs s) a]) (s_trees s) (s_rng s)).
      assert (La : a < n) by (apply Hl; left; reflexivity).
      assert (M1 : memo_ok n (s_objs s1) ((a, length (s_objs s)) :: memo)).
      { destruct Hm as [H1 H2]. subst s1. cbn [s_objs]. split.
        - intros x y H. cbn [memo_get] in H. rewrite app_length. cbn [length]. unfold node_at. destruct (Nat.eqb_spec x a) as [->|N].
          + injection H as <-. split; [exact La|]. split; [lia|]. rewrite nth_middle, app_nth1 by lia. reflexivity.
          + destruct (H1 x y H) as (A & B & C). split; [exact A|]. split; [lia|]. rewrite !app_nth1 by lia. exact C.
        - intros x x' y H H'. cbn [memo_get] in H, H'. destruct (Nat.eqb_spec x a) as [->|N], (Nat.eqb_spec x' a) as [->|N']; auto.
          + injection H as <-. apply H1 in H'. lia.
          + injection H' as <-. apply H1 in H. lia.
          + eapply H2; eauto. }
      destruct (IH ((a, length (s_objs s)) :: memo) s1 (fun x Hx => Hl x (or_intror Hx))) as (memo' & new & bs & E' & M & X & F).
      { subst s1. cbn [s_objs]. rewrite app_length. lia. }
      { exact M1. }
      exists memo', (node_at (s_objs s) a :: new), (length (s_objs s) :: bs).
      unfold bind, objects, new_node. fold s1. rewrite E'. subst s1. cbn [s_objs s_trees s_rng] in *. rewrite <- app_assoc in *. cbn [app] in *.
      split; [reflexivity|]. split; [exact M|]. split.
      * intros x y H. apply X. cbn [memo_get]. destruct (Nat.eqb_spec x a) as [->|N]; [congruence|exact H].
      * constructor; [|exact F]. apply X. cbn [memo_get]. rewrite Nat.eqb_refl. reflexivity.
Qed.

Lemma clone_any s o p : allocated s -> nth_error (s_trees s) o = Some p ->
  exists new p', clone_objects o s = (Ok (length (s_trees s)), mkStore (s_objs s ++ new) (s_trees s ++ [p']) (s_rng s)) /\
    tree_value (s_objs s ++ new) p' = tree_value (s_objs s) p /\
    (forall a, In a (p_nodes p') -> length (s_objs s) <= a) /\
    (forall i j a b a' b', nth_error (p_nodes p) i = Some a -> nth_error (p_nodes p) j = Some b ->
       nth_error (p_nodes p') i = Some a' -> nth_error (p_nodes p') j = Some b' -> (a' = b' <-> a = b)).
Proof.
  intros HA Hp. unfold clone_objects, bind, load_ptree. rewrite Hp.
  assert (Hl : forall a, In a (p_nodes p) -> a < length (s_objs s)).
  { intros a Ha. apply In_nth_error in Ha as (i & Hi). apply (HA o i a). exists p. auto. }
  destruct (copy_any (length (s_objs s)) (p_nodes p) [] s Hl (le_n _)) as (memo & new & bs & E & [M1 M2] & _ & F).
  { split; [intros a b H; discriminate|intros a a' b H; discriminate]. }
  rewrite E. exists new, (with_addrs p bs). cbn [s_trees s_objs s_rng p_nodes with_addrs]. split; [reflexivity|].
  assert (V : map (node_at (s_objs s ++ new)) bs = map (node_at (s_objs s)) (p_nodes p)).
  { clear E. revert Hl. induction F as [|a b l bs Hab F IH]; intros Hl; [reflexivity|]. cbn [map]. f_equal.
    - destruct (M1 a b Hab) as (A & _ & C). rewrite C. unfold node_at. apply app_nth1. exact A.
    - apply IH. intros x Hx. apply Hl. right. exact Hx. }
  split; [unfold tree_value; cbn; rewrite V; reflexivity|].
  assert (N : forall i a b, nth_error (p_nodes p) i = Some a -> nth_error bs i = Some b -> memo_get a memo = Some b).
  { clear -F. induction F as [|x y l bs Hxy F IH]; intros [|i] a b H H'; cbn in *; try discriminate; [congruence|eauto]. }
  split.
  - intros b Hb. clear -F Hb M1. induction F as [|x y l bs Hxy F IH]; [destruct Hb|]. destruct Hb as [<-|Hb]; [apply M1 in Hxy; lia|auto].
  - intros i j a b a' b' Hi Hj Hi' Hj'. pose proof (N i a a' Hi Hi') as G. pose proof (N j b b' Hj Hj') as G'. split; intros ->; [eauto|congruence].
Qed.
