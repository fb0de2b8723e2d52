(** * Runs with trees all of whose nodes are of one kind. *)
From Coq Require Import Lia Permutation.
From Verif.Proofs Require Export CompleteTreeP.
From Verif.Proofs Require Import TreeP TreeCreateP TreeOpP TreeFinalP.
From Verif.Model Require Import Tree World Creators Evolution.
From Verif.Spec Require Import TreeSpec CompleteSpec.
Open Scope nat_scope.
Open Scope list_scope.

Section Kind.
Variable t0 : tree.
Variable Q : node -> Prop.

Definition all_Q (t : tree) : Prop := forall n, In n (t_nodes t) -> Q n.

Lemma of_trees l w : genomes_in (trees_of t0 Q) l w -> genomes_in (trees t0) l w.
Proof. intros H o Ho. destruct (H o Ho) as (i & A & G & _). eauto. Qed.

Lemma of_iff l w : genomes_in (trees_of t0 Q) l w <-> exists ts, trees_at w l ts /\ Forall (in_class t0) ts /\ Forall all_Q ts.
Proof.
  split.
  - intros H. pose proof (of_trees _ _ H) as H1. apply genomes_trees in H1 as (ts & T & F). exists ts. split; [exact T|]. split; [exact F|].
    clear F. induction T as [|o t l ts (i & A & E) T IH]; [constructor|]. constructor.
    + destruct (H o (or_introl eq_refl)) as (j & A' & _ & G). intros n Hn. apply (G t n); [congruence|exact Hn].
    + apply IH. intros o' Ho'. apply H. right. exact Ho'.
  - intros (ts & T & F & G) o Ho. induction T as [|x t l ts (i & A & E) T IH]; [destruct Ho|]. inversion F; subst. inversion G; subst.
    destruct Ho as [<-|Ho]; [|auto]. exists i. split; [exact A|]. rewrite E. split; [assumption|]. intros t' n [= <-]. auto.
Qed.

Lemma primitive_same t n : same_primitives t0 t -> primitive t n -> primitive t0 n.
Proof. intros (E1 & E2 & E3 & _). unfold primitive. rewrite E1, E2, E3. auto. Qed.

Lemma place_nodes t c : place_in t c -> t_nodes t = p_before c ++ flatten (p_sub c) ++ p_after c.
Proof. intros (rt & _ & <- & Sub). apply (subtree_flatten _ _ _ _ Sub). Qed.

Lemma all_nodes ts : Forall all_Q ts <-> forall n, In n (nodes_of ts) -> Q n.
Proof.
  rewrite Forall_forall. unfold nodes_of, all_Q. split.
  - intros H n Hn. apply in_flat_map in Hn as (t & Ht & Hn). eauto.
  - intros H t Ht n Hn. apply H, in_flat_map. eauto.
Qed.

Lemma program_closed ops op : supplied t0 (t_root_type t0) -> typed_terminals t0 (t_root_type t0) -> op_arity op <> 0 ->
  tree_operator op -> node_kind t0 ops Q -> In op ops -> closed_operator (trees_of t0 Q) op.
Proof.
  intros Hs Htt Na Hop [K1 K2] Hin l w Hl Hn Hg.
  destruct (tree_closed t0 op Hs Htt Na Hop l w Hl Hn (of_trees _ _ Hg)) as (w1 & E1 & G1). exists w1. split; [exact E1|].
  apply genomes_trees in G1 as (ts1 & T1 & F1). apply of_iff. exists ts1. split; [exact T1|]. split; [exact F1|].
  apply of_iff in Hg as (ts & T & F & A). pose proof (proj1 Hs) as Hh.
  assert (Fc : Forall complete_tree ts) by (eapply Forall_impl; [|exact F]; intros t; apply class_complete; exact Hh).
  assert (Fs : Forall (same_primitives t0) ts) by (eapply Forall_impl; [|exact F]; intros t Ht; apply class_iff in Ht as (P & _); exact P).
  assert (Same : forall ts', trees_at w1 l ts' -> ts' = ts1).
  { intros ts' T'. clear - T' T1. revert ts1 T1. induction T' as [|o t l ts' (i & A & E) T' IH]; intros ts1 T1; inversion T1 as [|? t1 ? ? (i1 & A1 & E1)]; subst; [reflexivity|].
    f_equal; [congruence|auto]. }
  unfold tree_operator in Hop. destruct (op_kind op) as [p|m n| |mn mx|mu sigma|] eqn:K; try contradiction.
  - destruct (crossover_final op l ts w (t_fset t0) K (eq_sym Hl) Hn) as (w' & ts' & E & T' & X & _ & _ & Pe & _); auto.
    { intros ->. simpl in Hl. congruence. }
    { intros t Ht. rewrite Forall_forall in Fs. apply (Fs t Ht). }
    rewrite E1 in E. injection E as <-. apply Same in T' as ->. rewrite all_nodes in *. intros n Hn'. apply A. eapply Permutation_in; [apply Permutation_sym; exact Pe|exact Hn'].
  - destruct (mutation_final op mn mx l ts w K Hn T Fc) as (r & w' & ts' & E & T' & X & _). rewrite E1 in E. injection E as <- <-.
    apply Same in T' as ->. destruct X as [_ [->|X]]; [exact A|]. eapply Forall2_right; [exact X|apply Forall_and; [exact A|exact Fs]|].
    intros t t' _ _ [At St] (c & s & Hc & -> & _ & Pr & _) n Hn'. pose proof (place_nodes t c Hc) as Ec. cbn [filled with_nodes t_nodes] in Hn'.
    apply in_app_or in Hn' as [Hn'|Hn']; [apply At; rewrite Ec; apply in_or_app; auto|].
    apply in_app_or in Hn' as [Hn'|Hn']; [apply K1; eapply primitive_same; eauto|apply At; rewrite Ec; apply in_or_app; right; apply in_or_app; auto].
  - destruct (erc_final op mu sigma l ts w K Hn T) as (w' & ts' & E & T' & X & _). rewrite E1 in E. injection E as <-.
    apply Same in T' as ->. destruct X as [->|X]; [exact A|]. eapply Forall2_right; [exact X|exact A|].
    intros t t' _ _ At (be & b & x & tag & a & af & z & tag' & En & ->) n Hn'. cbn [with_nodes t_nodes] in Hn'. unfold all_Q in At. rewrite En in At.
    apply in_app_or in Hn' as [Hn'|[<-|Hn']]; [apply At, in_or_app; auto| |apply At, in_or_app; right; right; exact Hn'].
    apply (K2 op mu sigma Hin K b x tag). apply At, in_or_app. right. left. reflexivity.
  - destruct (identity_closed (trees_of t0 Q) op K l w Hl Hn) as (w' & E & G); [apply of_iff; eauto|].
    rewrite E1 in E. injection E as <-. apply of_iff in G as (ts' & T' & _ & A'). apply Same in T' as ->. exact A'.
Qed.

Lemma created_nodes_kind m p h w o : (forall n, primitive t0 n -> Q n) -> gp_for t0 p -> created_by m p h w o ->
  forall i t n, at_ w o = Some i -> i_genome i = GTree t -> In n (t_nodes t) -> Q n.
Proof.
  intros K (Eh & E1 & E2 & E3) (i & t & A & Eg & _ & _ & _ & F1 & F2 & F3 & F4 & rt & S & Fl & _ & Pr & _) i' t' n A' Eg' Hn.
  apply handle_ok in Eh. rewrite <- Eh in F4.
  assert (P : same_primitives t0 t) by (split; [|split; [|split]]; congruence).
  apply K. apply (primitive_same t n P). apply Pr. congruence.
Qed.

Lemma program_creator_closed n h c : supplied t0 (t_root_type t0) -> typed_terminals t0 (t_root_type t0) ->
  (forall n, primitive t0 n -> Q n) -> tree_creator t0 n c -> closed_creator (trees_of t0 Q) n h c.
Proof.
  intros Hs Htt K Hc w. destruct (tree_creator_closed t0 n h c Hs Htt Hc w) as (l & w' & E & G). exists l, w'. split; [exact E|].
  intros o Ho. destruct (G o Ho) as (i & A & Gi). exists i. split; [exact A|]. split; [exact Gi|]. intros t nd Eg Hn.
  destruct c as [|m p|mn mx grow full]; [contradiction| |]; cbn [create_individuals] in E.
  - apply create_trees_ok in E as (_ & _ & _ & C). rewrite Forall_forall in C || idtac. eapply created_nodes_kind; [exact K|exact Hc|apply C; exact Ho|exact A|exact Eg|exact Hn].
  - destruct Hc as (Cg & Cf & Hm & Hnn). apply create_half_ok in E as (_ & _ & C); [|exact Hm].
    apply Forall2_In_r with (y := o) in C; [|exact Ho]. destruct C as ([m d] & _ & C). unfold planned in C. cbn [fst snd] in C.
    eapply created_nodes_kind; [exact K| |exact C|exact A|exact Eg|exact Hn]. destruct m; assumption.
Qed.

Lemma program_run_closed h s a w : configured h a w s -> supplied t0 (t_root_type t0) -> typed_terminals t0 (t_root_type t0) ->
  Forall tree_operator (sp_ops s) -> node_kind t0 (sp_ops s) Q ->
  match sp_inds s with Some l => genomes_in (trees_of t0 Q) l w | None => Forall (tree_creator t0 (sp_size s)) (sp_creators s) end ->
  closed_under (trees_of t0 Q) w s.
Proof.
  intros C Hs Htt Ho K Hi. split.
  - rewrite Forall_forall in *. intros op Hop. eapply program_closed; eauto.
    apply (cf_arities _ _ _ _ C). apply in_app_iff. right. apply in_map. exact Hop.
  - destruct (sp_inds s); [exact Hi|]. rewrite Forall_forall in Hi. intros c Hc. apply program_creator_closed; auto. apply K.
Qed.
End Kind.

Lemma program_run_completes t0 Q ev sched h s n a w : gives_numbers ev -> total_on (trees_of t0 Q) ev -> fair sched -> a_trace a = [] ->
  configured h a w s -> supplied t0 (t_root_type t0) -> typed_terminals t0 (t_root_type t0) -> Forall tree_operator (sp_ops s) ->
  node_kind t0 (sp_ops s) Q ->
  match sp_inds s with Some l => genomes_in (trees_of t0 Q) l w | None => Forall (tree_creator t0 (sp_size s)) (sp_creators s) end ->
  printable_terminals t0 ->
  exists a' w', evolve ev sched n (a, w) = (Ok tt, (a', w')) /\
    forall l, In l (evals (a_trace a')) -> length l = sp_size s /\ genomes_in (trees_of t0 Q) l w'.
Proof.
  intros Hn Ht Hf Htr C Hs Htt Ho K Hi P. apply (run_completes _ _ _ h s); auto; [|intros g [G _]; eapply trees_printable; eauto].
  eapply program_run_closed; eauto.
Qed.

(** A number among untyped terminals: all generations are evaluated, but the run ends with an exception. *)
Lemma program_run_numbers t0 Q ev sched h s n a w k ty : gives_numbers ev -> total_on (trees_of t0 Q) ev -> fair sched -> a_trace a = [] ->
  configured h a w s -> supplied t0 (t_root_type t0) -> typed_terminals t0 (t_root_type t0) -> Forall tree_operator (sp_ops s) ->
  node_kind t0 (sp_ops s) Q ->
  match sp_inds s with Some l => genomes_in (trees_of t0 Q) l w | None => Forall (tree_creator t0 (sp_size s)) (sp_creators s) end ->
  untyped_terminal (t_tset t0) -> In (k, ty) (t_tset t0) -> (forall x, k <> TVar x) ->
  exists a' w', evolve ev sched n (a, w) = (Raise TypeError, (a', w')) /\
    forall l, In l (evals (a_trace a')) -> length l = sp_size s /\ genomes_in (trees_of t0 Q) l w'.
Proof.
  intros Hn Ht Hf Htr C Hs Htt Ho K Hi U Hin Hk.
  destruct (run_ends (trees_of t0 Q) ev sched h s n a w Hn Ht Hf Htr C) as (a' & w' & b & i & _ & _ & [Gi _] & E & V).
  { eapply program_run_closed; eauto. }
  exists a', w'. pose proof Gi as (t & _ & Eg & _). rewrite Eg in Gi. apply trees_complete in Gi as [Hc Et]. rewrite <- Et in U, Hin.
  rewrite (show_numbers i t k ty Eg Hc U Hin Hk) in E. auto.
Qed.

(** Functions, variables of the terminal set and finite numbers are such a kind. *)
Lemma program_kind t0 ops : supplied t0 (t_root_type t0) ->
  (forall v a, In (v, a) (t_tset t0) -> forall b x tag, v = TNum b x tag -> is_fin x = true) ->
  (forall lo hi, t_erc t0 = Some (ErcFloat lo hi) -> exists a b, lo = Fin a /\ hi = Fin b /\ (a <= b)%Q) ->
  (forall op mu sigma, In op ops -> op_kind op = OErc mu sigma -> is_fin mu = true /\ is_fin sigma = true) ->
  node_kind t0 ops (program_node t0).
Proof.
  intros (_ & Hv & _) Ht He Ho. split.
  - intros [f|[s|b x tag] a]; cbn [primitive program_node]; auto; intros [(c & Hc)|(e & Ee & En)].
    + apply in_map_iff. exists (TVar s, c). auto.
    + destruct e; destruct En as (x & tag & [=] & _).
    + eapply Ht; eauto.
    + destruct e as [lo hi|lo hi]; destruct En as (y & tg & [= -> -> ->] & Hr).
      * destruct (He lo hi Ee) as (u & v & -> & -> & L). destruct (Hr u v eq_refl eq_refl L) as (q & -> & _). reflexivity.
      * destruct (Hv _ Ee) as (u & v & -> & -> & L). destruct (Hr u v eq_refl eq_refl) as (z & -> & _). reflexivity.
  - intros op mu sigma Hin Hk b x tag a z tag'. cbn [program_node]. destruct (Ho op mu sigma Hin Hk) as [H1 H2].
    destruct x, mu, sigma; try discriminate. reflexivity.
Qed.
