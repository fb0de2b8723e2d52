(** * Lemmas about the creator of trees with a given root (C89). *)
From Coq Require Import Lia.
From Verif.Proofs Require Import Lib WorldP VecCreateP TreeCreateP.
From Verif.Model Require Import World Creators RootFunction.
From Verif.Spec Require Import WorldSpec TreeSpec.
Open Scope nat_scope.
Open Scope list_scope.

Lemma root_tree_nothing limit : forall root t l, root_tree limit root t = Ok l -> l = t.
Proof.
  induction limit as [|limit IH]; intros root t l H; cbn [root_tree] in H; [discriminate|].
  destruct root as [f|]; [|discriminate]. destruct (function_node f) as [x|e]; [|discriminate]. cbn [rbind] in H.
  revert t H. induction (arity f) as [|k IHk]; intros t H; [congruence|].
  destruct (root_tree limit (Some f) t) as [t'|e] eqn:E; [|discriminate]. cbn [rbind] in H. apply IH in E as ->. apply IHk. exact H.
Qed.

Lemma root_tree_recursion limit f x t : function_node f = Ok x -> 0 < arity f -> root_tree limit (Some f) t = Raise RecursionError.
Proof.
  intros Hx Ha. induction limit as [|limit IH]; cbn [root_tree]; [reflexivity|]. rewrite Hx. cbn [rbind].
  destruct (arity f) as [|k]; [lia|]. rewrite IH. reflexivity.
Qed.

Lemma annotated_node f : (Forall (fun x => x <> None) (f_params f) /\ f_ret f <> None) \/ (Forall (fun x => x = None) (f_params f) /\ f_ret f = None) ->
  function_node f = Ok (FNode f).
Proof.
  intros H. unfold function_node. destruct (andb _ _) eqn:E; [|reflexivity]. apply andb_prop in E as (_ & E). apply Nat.ltb_lt in E.
  exfalso. revert E. unfold get_func_types, arity. assert (K : (forall l : list (option ty), Forall (fun x => x <> None) l -> somes l = l) /\ (forall l, Forall (fun x : option ty => x = None) l -> somes l = [])).
  { split; intros l Hl; induction Hl as [|x l Hx Hl IH]; cbn; auto.
    - destruct x; [|contradiction]. f_equal. exact IH.
    - subst x. exact IH. }
  destruct H as [(A & B)|(A & B)].
  - rewrite (proj1 K) by (apply Forall_app; split; auto). destruct (f_params f ++ [f_ret f]) eqn:E; [destruct (f_params f); discriminate|].
    rewrite <- E, app_length. cbn. lia.
  - rewrite (proj2 K) by (apply Forall_app; split; auto). rewrite repeat_length. lia.
Qed.

Lemma root_nothing : forall limit root p n h w l w', create_root_trees limit root p n h w = (Ok l, w') ->
  length l = n /\ forall o, In o l -> exists t, tree_at w' o t /\ t_nodes t = [].
Proof.
  intros limit root p n h w os w' H. unfold create_root_trees in H.
  destruct (handle_input_types (g_fset p) (g_terms p) (g_typed p) (g_erc p) (g_root p)) as [tset|e] eqn:Eh.
  - rewrite (bind_eq_ok _ _ _ _ _ (new_trees p h tset n w Eh)) in H.
    set (w1 := mkWorld _ _ _) in H. set (l := seq (length (w_heap w)) n) in H.
    mb H as u w2 Hi. mr H. split; [apply seq_length|].
    set (Q := fun i : ind => i_genome i = GTree (blank_tree p tset)).
    destruct (iterM_each (fun o => t <- load_tree o ;; l <- lift (root_tree limit root (t_nodes t)) ;; put_genome o (GTree (with_nodes t l))) Q Q)
      with (l := l) (w := w1) (u := u) (w' := w') as (L & P & _); auto.
    { intros o w3 i u' w4 Hi3 D H3. rewrite (bind_eq_ok _ _ _ _ _ (load_tree_at _ _ _ _ Hi3 D)) in H3.
      mb H3 as l0 s0 Hl0. unfold lift in Hl0. injection Hl0 as Hl0 <-. apply root_tree_nothing in Hl0. subst l0.
      unfold put_genome in H3. rewrite (modify_at _ _ _ i) in H3 by exact Hi3. injection H3 as <- <-.
      eexists. split; [|reflexivity]. destruct i; cbn in *. reflexivity. }
    { intros o Ho. apply in_seq in Ho. unfold at_, w1. cbn [w_heap]. rewrite nth_error_app2 by lia. rewrite nth_error_map.
      rewrite nth_error_nth' with (d := 0) by (rewrite seq_length; lia). cbn [option_map]. eexists. split; reflexivity. }
    intros o Ho. destruct (P o Ho) as (i & Hi2 & G). exists (blank_tree p tset). split; [|reflexivity]. exists i. auto.
  - destruct n as [|n].
    + cbn in H. injection H as <- <-. split; [reflexivity|intros o []].
    + cbn [repeatM] in H. unfold new_tree_individual at 1 in H. rewrite Eh in H. unfold bind, fresh_id, lift in H. discriminate.
Qed.

Lemma root_recursion : forall limit f p n h w l w1,
  (Forall (fun x => x <> None) (f_params f) /\ f_ret f <> None) \/ (Forall (fun x => x = None) (f_params f) /\ f_ret f = None) ->
  0 < length (f_params f) -> 0 < n -> create_individuals (CGP Full p) n h w = (Ok l, w1) ->
  exists w', create_root_trees limit (Some f) p n h w = (Raise RecursionError, w') /\ w_rng w' = w_rng w.
Proof.
  intros limit f p n h w os w1 Hf Ha Hn H. cbn [create_individuals] in H. unfold create_trees in H. unfold create_root_trees.
  destruct (handle_input_types (g_fset p) (g_terms p) (g_typed p) (g_erc p) (g_root p)) as [tset|e] eqn:Eh.
  - clear H. rewrite (bind_eq_ok _ _ _ _ _ (new_trees p h tset n w Eh)). destruct n as [|n]; [lia|].
    set (w2 := mkWorld _ _ _). exists w2. split; [|reflexivity]. apply bind_eq_raise. cbn [seq iterM]. apply bind_eq_raise.
    assert (Hi : at_ w2 (length (w_heap w)) = Some (fresh_ind w (new_fitness (KGP (g_bloat p)) h) (g_upd p) (GTree (blank_tree p tset)) 0)).
    { unfold at_, w2. cbn [w_heap]. rewrite nth_error_app2 by lia. rewrite Nat.sub_diag. reflexivity. }
    rewrite (bind_eq_ok _ _ _ _ _ (load_tree_at _ _ _ _ Hi eq_refl)). apply bind_eq_raise. unfold lift.
    rewrite (root_tree_recursion _ _ _ _ (annotated_node f Hf)) by exact Ha. reflexivity.
  - destruct n as [|n]; [lia|]. cbn [repeatM] in H. unfold new_tree_individual at 1 in H. rewrite Eh in H. unfold bind, fresh_id, lift in H. discriminate.
Qed.

Lemma root_default : forall limit p n h w l w1, 0 < limit -> 0 < n -> create_individuals (CGP Full p) n h w = (Ok l, w1) ->
  fst (create_root_trees limit None p n h w) = Raise TypeError.
Proof.
  intros limit p n h w os w1 Hl Hn H. cbn [create_individuals] in H. unfold create_trees in H. unfold create_root_trees.
  destruct (handle_input_types (g_fset p) (g_terms p) (g_typed p) (g_erc p) (g_root p)) as [tset|e] eqn:Eh.
  - clear H. rewrite (bind_eq_ok _ _ _ _ _ (new_trees p h tset n w Eh)). destruct n as [|n]; [lia|].
    set (w2 := mkWorld _ _ _). erewrite bind_eq_raise; [reflexivity|]. cbn [seq iterM]. apply bind_eq_raise.
    assert (Hi : at_ w2 (length (w_heap w)) = Some (fresh_ind w (new_fitness (KGP (g_bloat p)) h) (g_upd p) (GTree (blank_tree p tset)) 0)).
    { unfold at_, w2. cbn [w_heap]. rewrite nth_error_app2 by lia. rewrite Nat.sub_diag. reflexivity. }
    rewrite (bind_eq_ok _ _ _ _ _ (load_tree_at _ _ _ _ Hi eq_refl)). apply bind_eq_raise. destruct limit; [lia|]. reflexivity.
  - destruct n as [|n]; [lia|]. cbn [repeatM] in H. unfold new_tree_individual at 1 in H. rewrite Eh in H. unfold bind, fresh_id, lift in H. discriminate.
Qed.
