(** * Runs with vectors complete. *)
From Coq Require Import Lia.
From Verif.Proofs Require Export CompleteP VecFinalP VecCreateP VectorP.
From Verif.Model Require Import Vector World Evolution.
From Verif.Spec Require Import VectorSpec CompleteSpec.
Open Scope nat_scope.
Open Scope list_scope.

Lemma identity_closed G op : op_kind op = OIdentity -> closed_operator G op.
Proof.
  intros K l w _ _ Hg. unfold apply_operator.
  apply (with_probability_ok _ _ _ l w (genomes_in G l)); [intros; eapply genomes_gkeep; eauto|intros; eapply genomes_present; eauto| |exact Hg].
  intros w1 H1. exists w1. unfold op_apply. rewrite K. split; [reflexivity|exact H1].
Qed.

Lemma vectors_at k b len o w : genomes_in (vectors k b len) [o] w <->
  exists v, vec_at w o v /\ sound_vec v /\ v_kind v = k /\ v_bounds v = b /\ vsize v = len.
Proof.
  split.
  - intros H. destruct (H o (or_introl eq_refl)) as (i & A & v & E & S). exists v. split; [exists i; auto|exact S].
  - intros (v & (i & A & E) & S) o' [<-|[]]. exists i. split; [exact A|]. exists v. auto.
Qed.

Lemma genomes_each G l w : genomes_in G l w <-> forall o, In o l -> genomes_in G [o] w.
Proof.
  split; intros H o Ho.
  - intros o' [<-|[]]. auto.
  - apply (H o Ho). left. reflexivity.
Qed.

Lemma vector_closed k b len op : vector_operator k b len op -> closed_operator (vectors k b len) op.
Proof.
  intros H l w Hl Hn Hg. unfold vector_operator in H. destruct (op_kind op) as [p|m n| | | |] eqn:K; try contradiction.
  - destruct H as [Ha Hp]. rewrite Ha in Hl. destruct l as [|a [|c [|]]]; try discriminate Hl.
    rewrite genomes_each in Hg.
    destruct (proj1 (vectors_at _ _ _ _ _) (Hg a (or_introl eq_refl))) as (va & Aa & Sa & Ka & Ba & La).
    destruct (proj1 (vectors_at _ _ _ _ _) (Hg c (or_intror (or_introl eq_refl)))) as (vc & Ac & Sc & Kc & Bc & Lc).
    destruct (crossover_op op p a c [] w va vc K) as (ca & cc & w' & E & Wa & Wc & Mix); auto.
    { intros ->. inversion Hn as [|? ? N _]. apply N. left. reflexivity. }
    { intros o []. }
    { congruence. }
    { congruence. }
    exists w'. split; [exact E|]. destruct Mix as (M1 & M2 & M3).
    assert (Mx : position_mix (v_cells va) (v_cells vc) ca cc) by (split; [|split]; assumption).
    destruct Sa as (Sa1 & Sa2 & Sa3 & Sa4 & Sa5). destruct Sc as (Sc1 & Sc2 & Sc3 & Sc4 & Sc5).
    rewrite Ba in Sa5. rewrite Bc in Sc5. destruct (mix_in_box _ _ _ _ _ Mx Sa5 Sc5) as [Ia Ic].
    rewrite genomes_each. intros o [<-|[<-|[]]]; apply vectors_at.
    + exists (with_cells va ca). split; [exact Wa|]. unfold sound_vec, vsize in *. cbn [v_cells v_length v_bounds v_kind with_cells]. rewrite M1.
      split; [|auto]. rewrite Ba in *. auto 10.
    + exists (with_cells vc cc). split; [exact Wc|]. unfold sound_vec, vsize in *. cbn [v_cells v_length v_bounds v_kind with_cells]. rewrite M2.
      split; [|auto]. rewrite Bc in *. auto 10.
  - assert (Hs : all_sound l w).
    { intros o Ho. destruct (proj1 (vectors_at _ _ _ _ _) (proj1 (genomes_each _ _ _) Hg o Ho)) as (v & A & S & _). eauto. }
    assert (Hf : finite_params m).
    { destruct H as [(_ & D & _)|(_ & F & _)]; [|exact F]. destruct m; try exact I; destruct D. }
    assert (E : exists w', apply_operator op l w = (Ok l, w')).
    { destruct H as [(Ha & D & En)|(Gm & F & Nn & ->)].
      - destruct (inside_never_fails op m n l w K Ha Hf) as (w' & E & _); [|eauto].
        intros o Ho. destruct (proj1 (vectors_at _ _ _ _ _) (proj1 (genomes_each _ _ _) Hg o Ho)) as (v & A & S & Kv & Bv & Lv).
        exists v. split; [exact A|]. split; [exact S|]. split.
        + unfold draws_inside in *. cbn [v_kind v_bounds] in D. rewrite Kv, Bv. exact D.
        + unfold enough. rewrite Lv. exact En.
      - destruct (gauss_total op m n l w K Gm F (proj1 Nn)) as (w' & E & _); [|eauto].
        intros o Ho. destruct (proj1 (vectors_at _ _ _ _ _) (proj1 (genomes_each _ _ _) Hg o Ho)) as (v & A & S & Kv & Bv & Lv).
        exists v. split; [exact A|]. split; [exact S|]. split; [exact Kv|]. rewrite Lv. lia. }
    destruct E as (w' & E). exists w'. split; [exact E|]. rewrite genomes_each. intros o Ho. apply vectors_at.
    destruct (proj1 (vectors_at _ _ _ _ _) (proj1 (genomes_each _ _ _) Hg o Ho)) as (v & A & S & Kv & Bv & Lv).
    destruct (mutation_sound op m n l w o v K Hf Hs A S) as (v' & A' & S' & E1 & E2 & E3 & E4). rewrite E in A'. cbn [snd] in A'.
    exists v'. split; [exact A'|]. split; [exact S'|]. split; [congruence|]. split; congruence.
  - apply (identity_closed _ op K); assumption.
Qed.

Lemma vector_creator_closed k b len n h c : vector_creator k b len c -> closed_creator (vectors k b len) n h c.
Proof.
  destruct c as [len' b' k' fc upd| |]; try contradiction. intros (-> & -> & -> & C & Nb) w.
  destruct (creators_ok len b k fc upd n h w C) as (l & w' & E & Ln & _ & _ & _ & H). exists l, w'. split; [exact E|].
  rewrite genomes_each. intros o Ho. apply vectors_at. destruct (H o Ho) as (_ & v & A & Kv & Bv & Lv & Sv & Bx & _).
  exists v. split; [exact A|]. split; [|auto].
  destruct C as (C1 & C2 & C3). unfold sound_vec. rewrite Kv, Bv, Lv, Sv. auto.
Qed.

Lemma vector_run_completes k b len ev sched h s n a w : gives_numbers ev -> total_on (vectors k b len) ev -> fair sched -> a_trace a = [] ->
  configured h a w s -> Forall (vector_operator k b len) (sp_ops s) ->
  match sp_inds s with Some l => genomes_in (vectors k b len) l w | None => Forall (vector_creator k b len) (sp_creators s) end ->
  exists a' w', evolve ev sched n (a, w) = (Ok tt, (a', w')) /\
    forall l, In l (evals (a_trace a')) -> length l = sp_size s /\ genomes_in (vectors k b len) l w'.
Proof.
  intros Hn Ht Hf Htr C Ho Hi. apply (run_completes _ _ _ h s); auto; [split|intros g (v & -> & _); exact I].
  - eapply Forall_impl; [|exact Ho]. intros op. apply vector_closed.
  - destruct (sp_inds s); [exact Hi|]. rewrite Forall_forall in Hi. intros c Hc. apply vector_creator_closed. auto.
Qed.
