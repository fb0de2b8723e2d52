(** * What subtree crossover and constant mutation can lead to. *)
From Coq Require Import Lia Permutation QArith Sorted.
From Verif.Model Require Import Num Rng Vector Tree World Creators Operators.
From Verif.Spec Require Import WorldSpec VectorSpec TreeSpec SelSpec PressureSpec ReachSpec MoveSpec.
From Verif.Proofs Require Import Lib WorldP VectorP VecOpP VecFinalP VecEffectP VecCreateP TreeP TreeCreateP TreeExecP TreeOpP PressureP ReachP ReachVecP MoveP.
From Verif.Model Require Import Num Rng Vector Tree World Creators Operators.
Open Scope nat_scope.
Open Scope list_scope.

Lemma choosable_picked nt t c : choosable nt t c <-> picked_place nt t c.
Proof.
  unfold choosable, picked_place, picked. split.
  - intros (rt & A & B & C & D & E). split; [reflexivity|]. split; [exact D|]. exists rt. auto.
  - intros (_ & D & rt & A & B & C & E). exists rt. auto.
Qed.

Lemma Forall2_iff {A B} (P Q : A -> B -> Prop) l l' : (forall a b, P a b <-> Q a b) -> Forall2 P l l' <-> Forall2 Q l l'.
Proof. intros H. split; apply Forall2_imp_in; intros a b; apply H. Qed.

Lemma goes_trees {A} inds ts (m : M A) x : steps gkeep m -> (forall w, trees_at w inds ts -> exists w', m w = (Ok x, w') /\ w_rng w' = w_rng w) ->
  goes (fun w => trees_at w inds ts) m [] x (fun w => trees_at w inds ts).
Proof.
  intros K H w Hv _. destruct (H w Hv) as (w' & E & R). exists w'. split; [exact E|]. split; [rewrite R; symmetry; apply advance_0|].
  pose proof (K w) as Kw. rewrite E in Kw. cbn in Kw. eapply trees_keep; eauto.
Qed.

Lemma reset_goes inds ts : goes (fun w => trees_at w inds ts) (iterM set_fitness_not_evaluated inds) [] tt (fun w => trees_at w inds ts).
Proof.
  apply goes_iterM. intros o Ho. apply goes_trees; [apply gk_modify; reflexivity|].
  intros w Hw. destruct (trees_present _ _ _ Hw o Ho) as (i & Hi).
  unfold set_fitness_not_evaluated. rewrite (modify_at _ _ _ _ Hi). eexists. split; reflexivity.
Qed.

Lemma pick_goes (P : world -> Prop) nt o t c : (forall w, P w -> tree_at w o t) -> (forall w g, P w -> P (with_rng w g)) -> complete_tree t -> choosable nt t c ->
  exists ds, goes P (pick_subtree nt o) ds (Some (flatten (p_sub c))) P.
Proof.
  intros HP HR Hc (rt & Hs & E & Hsub & Hf & He). destruct (emits_subtree t rt nt _ _ _ Hc Hs E Hsub Hf He) as (ds & E1).
  exists ds. unfold pick_subtree. eapply goes_bind0 with (x := t) (Q := P).
  - intros w Hw _. destruct (HP w Hw) as (i & Hi & Hg). exists w. rewrite (load_tree_at _ _ _ _ Hi Hg). split; [reflexivity|]. split; [symmetry; apply advance_0|exact Hw].
  - apply goes_liftR; [exact HR|exact E1].
Qed.

Lemma picks_goes (P : world -> Prop) nt (HR : forall w g, P w -> P (with_rng w g)) inds : forall ts cs, Forall complete_tree ts -> Forall2 (choosable nt) ts cs ->
  (forall w, P w -> trees_at w inds ts) ->
  exists ds rs, goes P (mapM (pick_subtree nt) inds) ds rs P /\ all_somes rs = Some (map (fun c => flatten (p_sub c)) cs) \/ 
    (forall w, ~ P w).
Proof.
  induction inds as [|o inds IH]; intros ts cs Hc F Ht.
  - exists [], []. destruct ts as [|t ts]; [|right; intros w Hw; specialize (Ht w Hw); inversion Ht].
    left. inversion F; subst. split; [apply goes_ret|reflexivity].
  - destruct ts as [|t ts]; [exists [], []; right; intros w Hw; specialize (Ht w Hw); inversion Ht|].
    inversion F as [|? c ? cs' Hc1 F']; subst. inversion Hc as [|? ? Hct Hcts]; subst.
    destruct (pick_goes P nt o t c) as (d1 & G1); auto.
    { intros w Hw. specialize (Ht w Hw). inversion Ht; auto. }
    destruct (IH ts cs' Hcts F') as (d2 & rs & [[G2 E2]|N]).
    { intros w Hw. specialize (Ht w Hw). inversion Ht; auto. }
    + exists (d1 ++ d2), (Some (flatten (p_sub c)) :: rs). left. split.
      * cbn [mapM]. eapply goes_bind; [exact G1|]. eapply goes_bind1; [exact G2|]. apply goes_ret.
      * cbn [all_somes]. rewrite E2. reflexivity.
    + exists [], []. right. exact N.
Qed.

Lemma subtrees_goes inds ts t rest c cs : ts = t :: rest -> Forall complete_tree ts -> choosable None t c ->
  Forall2 (choosable (delivers (label (p_sub c)))) rest cs -> length inds = length ts ->
  exists ds, goes (fun w => trees_at w inds ts) (pick_subtrees inds) ds (Some (map (fun c => flatten (p_sub c)) (c :: cs))) (fun w => trees_at w inds ts).
Proof.
  intros -> Hc Hp F L. destruct inds as [|o inds]; [discriminate|]. inversion Hc as [|? ? Hct Hcts]; subst.
  set (P := fun w => trees_at w (o :: inds) (t :: rest)).
  assert (HR : forall w g, P w -> P (with_rng w g)). { intros w g H. eapply trees_at_heap; [|exact H]. reflexivity. }
  destruct (pick_goes P None o t c) as (d1 & G1); auto. { intros w H. inversion H; auto. }
  destruct (picks_goes P (delivers (label (p_sub c))) HR inds rest cs Hcts F) as (d2 & rs & [[G2 E2]|N]).
  { intros w H. inversion H; auto. }
  2:{ exists []. intros w Hw. destruct (N w Hw). }
  exists (d1 ++ d2). unfold pick_subtrees. eapply goes_bind; [exact G1|]. cbv beta.
  destruct (flatten_hd (p_sub c)) as (r & Er). rewrite Er.
  rewrite (picked_label None t _ c Hct (proj1 (choosable_picked None t c) Hp)).
  eapply goes_bind1; [exact G2|]. cbv beta. rewrite E2. cbn [map]. rewrite Er. apply goes_ret.
Qed.

Lemma exchange op inds ts ts' w : op_kind op = OSubtreeXO -> op_arity op = length inds -> 1 <= op_attempts op -> nle (Fin 1) (op_prob op) = true ->
  NoDup inds -> inds <> [] -> trees_at w inds ts -> Forall complete_tree ts -> matchable ts ->
  (exchanged ts ts' <-> exists g w', apply_operator op inds (with_rng w g) = (Ok inds, w') /\ trees_at w' inds ts').
Proof.
  intros Hk Har Hat Hp Hnd Hne Ht Hc Hm. split.
  - intros (t & rest & c & cs & Ets & Hch & F & ->).
    assert (L : length inds = length ts) by (apply Forall2_len in Ht; auto).
    destruct (subtrees_goes inds ts t rest c cs Ets Hc Hch F L) as (ds & G).
    set (P := fun w => trees_at w inds ts) in *.
    set (g := seeded_with ([0%N] ++ ds)). exists g.
    assert (H0 : P (with_rng w g)) by (eapply trees_at_heap; [|exact Ht]; reflexivity).
    assert (G0 : goes P (u <- liftR random_unit ;; (iterM set_fitness_not_evaluated inds ;;; pick_subtrees inds)) ([0%N] ++ ds)
      (Some (map (fun c => flatten (p_sub c)) (c :: cs))) P).
    { eapply goes_bind; [apply goes_liftR; [intros v g' H; eapply trees_at_heap; [|exact H]; reflexivity|apply unit_zero]|].
      cbv beta. eapply goes_bind0; [apply reset_goes|exact G]. }
    destruct (G0 _ H0 (seeded_ahead _)) as (w1 & E1 & _ & H1).
    mb E1 as u w2 Eu. mb E1 as v w3 Ev.
    assert (u = Fin (0 # two53)).
    { apply liftR_ok in Eu as (g1 & Eu & _). pose proof (unit_zero g (proj1 (ahead_app _ _ _ (seeded_ahead ([0%N] ++ ds))))) as Z.
      change (w_rng (with_rng w g)) with g in Eu. congruence. }
    subst u.
    destruct (swap_subtrees_spec inds ts (c :: cs) w1 Hnd H1) as (w4 & E4 & H4).
    { apply picked_all_places. subst ts. cbn [picked_all]. split; [apply choosable_picked; exact Hch|]. eapply Forall2_iff; [|exact F]. intros. symmetry. apply choosable_picked. }
    destruct (records_ok (okind_name (op_kind op)) inds inds w4 (trees_present _ _ _ H4) (trees_present _ _ _ H4)) as (w5 & E5 & K5).
    exists w5. split; [|eapply trees_keep; eauto].
    unfold apply_operator, with_probability. rewrite (bind_eq_ok _ _ _ _ _ Eu).
    rewrite (happens _) by (unfold can_happen; destruct (op_prob op) as [q| | |]; auto; rewrite nle_fin in *; eapply Qle_trans; [|exact Hp]; discriminate).
    rewrite (bind_eq_ok _ _ _ _ _ Ev).
    assert (Ea : op_apply op inds w3 = (Ok (Some inds), w4)).
    { unfold op_apply. rewrite Hk. unfold failable_apply. destruct (op_attempts op) as [|k]; [lia|]. rewrite failable_step.
      unfold xo_attempt. rewrite Har, Nat.eqb_refl. cbn [negb]. rewrite (bind_eq_ok _ _ _ _ _ E1). rewrite (bind_eq_ok _ _ _ _ _ E4). reflexivity. }
    rewrite (bind_eq_ok _ _ _ _ _ Ea). rewrite (bind_eq_ok _ _ _ _ _ E5). reflexivity.
  - intros (g & w' & E & H').
    assert (S : exists ts1, trees_at w' inds ts1 /\ exchanged ts ts1).
    { apply (operator_acts op (xo_attempt (op_arity op) inds) inds (fun w => trees_at w inds ts) (fun w => exists ts1, trees_at w inds ts1 /\ exchanged ts ts1) (with_rng w g) w'); auto.
      - intros w1. unfold op_apply. rewrite Hk. reflexivity.
      - intros w1 w2 K. apply trees_keep, K.
      - intros w1 w2 K (t1 & H1 & H2). exists t1. split; [eapply trees_keep; eauto|exact H2].
      - intros w1 H1. eapply trees_present; eauto.
      - intros w1 (t1 & H1 & _). eapply trees_present; eauto.
      - intros w1 H1. rewrite Har. destruct (xo_attempt_spec inds ts w1 Hnd Hne H1 Hc) as (b & w2 & E2 & Hb). rewrite E2.
        destruct b; [|tauto]. destruct Hb as (cs & Hcs & Hb). exists (filled_all ts cs (rotate (map p_sub cs))). split; [exact Hb|].
        destruct ts as [|t rest], cs as [|c cs]; cbn in Hcs; try tauto. destruct Hcs as [A B]. exists t, rest, c, cs. split; [reflexivity|].
        split; [apply choosable_picked; exact A|]. split; [|reflexivity]. eapply Forall2_iff; [|exact B]. intros. apply choosable_picked. }
    destruct S as (t1 & H1 & H2). assert (ts' = t1) as ->; [|exact H2].
    clear - H' H1. revert t1 H1. induction H' as [|o t os ts Ho F IH]; intros t1 H1; inversion H1; subst; [reflexivity|].
    f_equal; [eapply tree_at_fun; eauto|auto].
Qed.

(** ** Noise on a constant *)

(** Random numbers with the given integers and normal deviates ahead. *)
Definition drawn_ahead (l : list draw) : rng := mkRng (fun _ i => nth i l (mkDraw 0 0)) (fun _ _ => mkDraw 0 0) 0 0 0 0.

Lemma erc_move op mu sigma o t t' w : op_kind op = OErc mu sigma -> 1 <= op_attempts op -> nle (Fin 1) (op_prob op) = true ->
  tree_at w o t -> has_number t ->
  (noised mu sigma t t' <-> exists g w', apply_operator op [o] (with_rng w g) = (Ok [o], w') /\ tree_at w' o t').
Proof.
  intros Hk Hat Hp Ht Hn. split.
  - intros (before & b & x & tag & a & after & z & tag' & E & ->).
    assert (Hin : In (length before) (positions_from is_numeric_node 0 (t_nodes t))).
    { apply positions_from_In. exists (length before), (TNode (TNum b x tag) a). split; [lia|]. split; [|reflexivity].
      rewrite E, nth_error_app2, Nat.sub_diag by lia. reflexivity. }
    destruct (In_nth_error _ _ Hin) as (j & Hj).
    assert (Lj : j < length (positions_from is_numeric_node 0 (t_nodes t))) by (apply nth_error_Some; congruence).
    set (g := drawn_ahead [mkDraw 0 0; mkDraw (N.of_nat j) 0; mkDraw 0 z; mkDraw tag' 0]).
    set (g1 := mkRng (r_py g) (r_np g) 0 1 0 0). set (g2 := mkRng (r_py g) (r_np g) 0 2 0 0). set (g4 := mkRng (r_py g) (r_np g) 0 4 0 0).
    destruct Ht as (i & Hi & Hg). exists g. 
    assert (E0 : random_unit g = (Ok (Fin (0 # two53)), g1)) by reflexivity.
    assert (E1 : get_random_numeric_node t g1 = (Ok (Some (length before)), g2)).
    { unfold get_random_numeric_node. destruct (positions_from is_numeric_node 0 (t_nodes t)) as [|p ps] eqn:Ep; [destruct Hin|].
      unfold choice, randbelow. unfold bind at 1 2 3. change (next_draw g1) with (Ok (mkDraw (N.of_nat j) 0), g2). cbn [d_n].
      unfold ret at 1. rewrite N.mod_small, Nnat.Nat2N.id, Hj by lia. reflexivity. }
    set (w0 := mkWorld (w_heap w) (w_next_id w) g1).
    set (i1 := set_fit (set_not_evaluated (i_fit i)) i).
    set (w1 := put_at w0 o i1).
    assert (Hi0 : at_ w0 o = Some i) by exact Hi.
    assert (Hi1 : at_ w1 o = Some i1) by (eapply at_put_same; exact Hi0).
    set (w2 := mkWorld (w_heap w1) (w_next_id w1) g2). set (w4 := mkWorld (w_heap w1) (w_next_id w1) g4).
    assert (Hi2 : at_ w2 o = Some i1) by exact Hi1. assert (Hi4 : at_ w4 o = Some i1) by exact Hi1.
    set (t' := with_nodes t (before ++ TNode (TNum true (nadd x (nadd mu (nmul (Fin z) sigma))) tag') a :: after)).
    set (w5 := put_at w4 o (set_genome (GTree t') i1)).
    assert (H5 : tree_at w5 o t') by (eexists; split; [eapply at_put_same; exact Hi4|reflexivity]).
    assert (P5 : present [o] w5). { intros o' [<-|[]]. destruct H5 as (k & Hk5 & _). eauto. }
    destruct (records_ok (okind_name (op_kind op)) [o] [o] w5 P5 P5) as (w6 & E6 & K6).
    exists w6. split; [|eapply tree_keep; eauto].
    unfold apply_operator, with_probability.
    assert (Eu : liftR random_unit (with_rng w g) = (Ok (Fin (0 # two53)), w0)) by reflexivity.
    rewrite (bind_eq_ok _ _ _ _ _ Eu).
    rewrite (happens _) by (unfold can_happen; destruct (op_prob op) as [q| | |]; auto; rewrite nle_fin in *; eapply Qle_trans; [|exact Hp]; discriminate).
    assert (Er : iterM set_fitness_not_evaluated [o] w0 = (Ok tt, w1)).
    { cbn [iterM]. unfold set_fitness_not_evaluated. rewrite (bind_eq_ok _ _ _ _ _ (modify_at _ _ _ _ Hi0)). reflexivity. }
    rewrite (bind_eq_ok _ _ _ _ _ Er).
    assert (Ea : op_apply op [o] w1 = (Ok (Some [o]), w5)).
    { unfold op_apply. rewrite Hk. unfold failable_apply. destruct (op_attempts op) as [|k]; [lia|]. rewrite failable_step.
      assert (El : mapM (fun o => t <- load_tree o ;; liftR (get_random_numeric_node t)) [o] w1 = (Ok [Some (length before)], w2)).
      { cbn [mapM]. assert (Hg1 : i_genome i1 = GTree t) by exact Hg. unfold bind at 1 2. rewrite (load_tree_at _ _ _ _ Hi1 Hg1).
        rewrite (liftR_eq _ w1 _ _ E1). reflexivity. }
      unfold erc_attempt. rewrite (bind_eq_ok _ _ _ _ _ El). cbn [all_somes combine].
      assert (Eo : erc_one mu sigma (o, length before) w2 = (Ok tt, w5)).
      { unfold erc_one. assert (Hg1 : i_genome i1 = GTree t) by exact Hg. rewrite (bind_eq_ok _ _ _ _ _ (load_tree_at _ _ _ _ Hi2 Hg1)).
        assert (Egs : liftR (gauss mu sigma) w2 = (Ok (nadd mu (nmul (Fin z) sigma)), mkWorld (w_heap w1) (w_next_id w1) (mkRng (r_py g) (r_np g) 0 3 0 0))) by reflexivity.
        rewrite (bind_eq_ok _ _ _ _ _ Egs).
        assert (End : liftR next_draw (mkWorld (w_heap w1) (w_next_id w1) (mkRng (r_py g) (r_np g) 0 3 0 0)) = (Ok (mkDraw tag' 0), w4)) by reflexivity.
        rewrite (bind_eq_ok _ _ _ _ _ End).
        assert (Nn : nth_error (t_nodes t) (length before) = Some (TNode (TNum b x tag) a)) by (rewrite E, nth_error_app2, Nat.sub_diag by lia; reflexivity).
        rewrite Nn. unfold put_genome. rewrite (modify_at _ _ _ _ Hi4). unfold w5, t'. do 5 f_equal.
        rewrite E. cbn [d_n add_noise]. generalize (TNode (TNum true (nadd x (nadd mu (nmul (Fin z) sigma))) tag') a). intros n'.
        clear. induction before as [|y l IH]; cbn [length app list_set]; [reflexivity|]. now rewrite IH. }
      cbn [iterM]. unfold bind. rewrite Eo. reflexivity. }
    rewrite (bind_eq_ok _ _ _ _ _ Ea). rewrite (bind_eq_ok _ _ _ _ _ E6). reflexivity.
  - intros (g & w' & E & H'). destruct (erc_op_sure op mu sigma [o] [t] (with_rng w g) Hk Hp) as (w2 & ts & E2 & H2 & F); auto.
    + repeat constructor; auto.
    + constructor; [exact Ht|constructor].
    + assert (w2 = w') by congruence. subst w2. inversion F as [|? t1 ? ? N F']; subst. inversion F'; subst. inversion H2 as [|? ? ? ? A1 _]; subst.
      rewrite (tree_at_fun _ _ _ _ H' A1). exact N.
Qed.
