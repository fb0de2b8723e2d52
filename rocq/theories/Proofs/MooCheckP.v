(** Proofs about termination checks of multi-objective runs (C60, C61). *)
From Coq Require Import Lia Lqa QArith.
From Verif.Proofs Require Export CornerP.
From Verif.Model Require Import Num Fitness Tree World Nsga2.
Open Scope nat_scope.
Open Scope list_scope.

Lemma pure_list o w i l : at_ w o = Some i -> ft_class (i_fit i) = KNSGA2 -> ft_evaluated (i_fit i) = true -> ft_value (i_fit i) = VList l ->
  pure_fitness o w = (Ok (VList l), w).
Proof.
  intros Hi C E V. unfold pure_fitness. rewrite (bind_eq_ok _ _ _ i w) by (unfold load; unfold at_ in Hi; rewrite Hi; reflexivity).
  unfold lift, get_pure_fitness, is_fitness_evaluated. rewrite ?C, E, V. destruct (ft_relative (i_fit i)); reflexivity.
Qed.

Lemma threshold_on_lists opt th cs a w b i l : a_checkers a = CkThreshold opt th :: cs -> a_best_run a = Some b ->
  at_ w b = Some i -> ft_class (i_fit i) = KNSGA2 -> ft_evaluated (i_fit i) = true -> ft_value (i_fit i) = VList l ->
  fst (should_terminate (a, w)) = Raise TypeError.
Proof.
  intros Hc Hb Hi C E V. unfold should_terminate. rewrite (bind_eq_ok _ _ _ a (a, w)) by reflexivity. rewrite Hb, Hc.
  assert (R : run_checkers (a_pop a) b (a_gen_num a) (CkThreshold opt th :: cs) w = (Raise TypeError, w)).
  { unfold run_checkers. apply bind_eq_raise. cbn [mapM]. apply bind_eq_raise. cbn [run_checker].
    rewrite (bind_eq_ok _ _ _ _ _ (pure_list b w i l Hi C E V)). reflexivity. }
  rewrite (bind_eq_raise _ _ _ TypeError (a, w)); [reflexivity|]. unfold liftM. simpl snd. rewrite R. reflexivity.
Qed.

(** ** Crowding distances *)

Lemma distance_number c : distance c -> is_nan c = false.
Proof. intros [->|(q & -> & _)]; reflexivity. Qed.

Lemma nlt_PInf c : nlt PInf c = false. Proof. destruct c; reflexivity. Qed.

Lemma max_crowding_spec cs : (forall c, In c cs -> distance c) ->
  let g := max_crowding cs in distance g /\
  (g = PInf <-> forall c, In c cs -> c = PInf) /\
  (g <> PInf -> In g cs) /\ (forall c, In c cs -> c <> PInf -> nlt g c = false).
Proof.
  intros H. unfold max_crowding.
  assert (Hf : forall c, In c (filter (fun c => negb (neq_num c PInf)) cs) <-> In c cs /\ c <> PInf).
  { intros c. rewrite filter_In. split; intros [H1 H2]; (split; [exact H1|]).
    - intros ->. discriminate.
    - destruct (H c H1) as [->|(q & -> & _)]; [congruence|reflexivity]. }
  destruct (filter (fun c => negb (neq_num c PInf)) cs) as [|x l] eqn:El.
  - assert (A : forall c, In c cs -> c = PInf).
    { intros c Hc. destruct (H c Hc) as [E|(q & E & _)]; [exact E|]. exfalso. apply (proj2 (Hf c)). split; [exact Hc|congruence]. }
    simpl. split; [left; reflexivity|]. split; [split; auto|]. split; [congruence|]. intros c Hc Hn. exfalso. apply Hn, A, Hc.
  - assert (Hx : forall c, In c (x :: l) -> is_nan c = false) by (intros c Hc; apply distance_number, H, Hf, Hc).
    destruct (fold_max l x) as (M1 & M2 & M3 & M4); [apply Hx; simpl; auto|intros c Hc; apply Hx; simpl; auto|].
    set (g := fold_left max_num l x) in *. assert (Hg : In g (x :: l)) by (destruct M1 as [->|]; simpl; auto).
    apply Hf in Hg. destruct Hg as [Hg1 Hg2]. simpl. split; [apply H; exact Hg1|]. split; [split; [congruence|intros A; apply A; exact Hg1]|].
    split; [auto|]. intros c Hc Hn. assert (Hc' : In c (x :: l)) by (apply Hf; auto). destruct Hc' as [<-|Hc']; [exact M3|apply M4; exact Hc'].
Qed.

Lemma crowding_check t pops : pops <> [] -> (forall cs c, In cs pops -> In c cs -> distance c) ->
  exists b, crowding_terminate t pops = Ok b /\
  (b = true <->
     (forall cs, In cs pops -> exists c, In c cs /\ c <> PInf) /\
     (forall cs c, In cs pops -> In c cs -> c <> PInf -> nlt c t = true) /\
     (exists cs c, In cs pops /\ In c cs /\ c <> PInf /\ neq_num c (Fin 0) = false)).
Proof.
  intros Hne Hd. unfold crowding_terminate. destruct pops as [|p pops]; [congruence|]. clear Hne. cbn [map].
  eexists. split; [reflexivity|].
  assert (Hs : forall cs, In cs (p :: pops) -> distance (max_crowding cs)) by (intros cs Hc; apply max_crowding_spec; intros c; apply Hd; exact Hc).
  destruct (fold_max (map max_crowding pops) (max_crowding p)) as (M1 & M2 & M3 & M4).
  { apply distance_number, Hs. simpl. auto. }
  { intros x Hx. apply in_map_iff in Hx. destruct Hx as (cs & <- & Hc). apply distance_number, Hs. simpl. auto. }
  set (g := fold_left max_num (map max_crowding pops) (max_crowding p)) in *.
  assert (G1 : exists cs, In cs (p :: pops) /\ g = max_crowding cs).
  { destruct M1 as [->|M1]; [exists p; simpl; auto|]. apply in_map_iff in M1. destruct M1 as (cs & E & Hc). exists cs. simpl. auto. }
  assert (G2 : forall cs, In cs (p :: pops) -> nlt g (max_crowding cs) = false).
  { intros cs [<-|Hc]; [exact M3|]. apply M4. apply in_map. exact Hc. }
  clear M1 M3 M4. destruct G1 as (cs0 & Hcs0 & Eg). rewrite andb_true_iff, negb_true_iff. split.
  - intros [Ht Hz]. assert (Gp : g <> PInf) by (intros E; rewrite E, nlt_PInf in Ht; discriminate).
    assert (Gf : forall cs, In cs (p :: pops) -> max_crowding cs <> PInf).
    { intros cs Hc E. specialize (G2 cs Hc). rewrite E in G2. destruct (Hs cs0 Hcs0) as [E0|(q & E0 & _)]; [congruence|]. rewrite Eg, E0 in G2. discriminate. }
    split; [|split].
    + intros cs Hc. destruct (max_crowding_spec cs) as (_ & _ & I & _); [intros c; apply Hd; exact Hc|]. exists (max_crowding cs). split; [apply I|]; apply Gf; exact Hc.
    + intros cs c Hc Hi Hn. destruct (max_crowding_spec cs) as (D & _ & _ & U); [intros c'; apply Hd; exact Hc|]. specialize (U c Hi Hn). specialize (G2 cs Hc).
      assert (Dc := Hd cs c Hc Hi). assert (nlt g c = false) by (apply (nlt_negtrans g (max_crowding cs) c); [exact M2|apply distance_number; exact D|apply distance_number; exact Dc|exact G2|exact U]).
      destruct (Hs cs0 Hcs0) as [E0|(q & E0 & _)]; [congruence|]. rewrite <- Eg in E0. destruct Dc as [->|(r & -> & _)]; [congruence|]. rewrite E0 in *.
      simpl in H. apply Qlt_b_false in H. destruct t as [u| | |]; simpl in *; try discriminate; [|reflexivity]. apply Qlt_b_spec. apply Qlt_b_spec in Ht. lra.
    + exists cs0, g. split; [exact Hcs0|]. destruct (max_crowding_spec cs0) as (_ & _ & I & _); [intros c; apply Hd; exact Hcs0|]. rewrite Eg in *. split; [apply I; exact Gp|]. auto.
  - intros (A1 & A2 & cs1 & c1 & Hcs1 & Hc1 & Hn1 & Hz1).
    assert (Gp : g <> PInf).
    { destruct (A1 cs0 Hcs0) as (c & Hc & Hn). intros E. destruct (max_crowding_spec cs0) as (_ & I & _); [intros c'; apply Hd; exact Hcs0|]. rewrite <- Eg in I. apply Hn. apply (proj1 I E). exact Hc. }
    destruct (max_crowding_spec cs0) as (_ & _ & I & _); [intros c'; apply Hd; exact Hcs0|]. rewrite <- Eg in I. specialize (I Gp). split; [apply (A2 cs0); assumption|].
    destruct (max_crowding_spec cs1) as (D & _ & _ & U); [intros c'; apply Hd; exact Hcs1|]. specialize (U c1 Hc1 Hn1). specialize (G2 cs1 Hcs1).
    assert (Dc := Hd cs1 c1 Hcs1 Hc1). assert (L : nlt g c1 = false) by (apply (nlt_negtrans g (max_crowding cs1) c1); [exact M2|apply distance_number; exact D|apply distance_number; exact Dc|exact G2|exact U]).
    destruct Dc as [->|(r & -> & Hr)]; [congruence|]. destruct (Hs cs0 Hcs0) as [E0|(q & E0 & Hq)]; [congruence|]. rewrite <- Eg in E0. rewrite E0 in *. simpl in *.
    apply Qlt_b_false in L. apply not_true_iff_false. intros E. apply Qeq_bool_iff in E. apply not_true_iff_false in Hz1. apply Hz1. apply Qeq_bool_iff. lra.
Qed.

Lemma crowdings_read w l : (forall o, In o l -> exists c, crowded_by w o c) ->
  exists cs, rmap (crowding_attr (w_heap w)) l = Ok cs /\ Forall2 (crowded_by w) l cs.
Proof.
  induction l as [|o l IH]; intros H; [exists []; split; [reflexivity|constructor]|].
  destruct IH as (cs & E & F); [intros x Hx; apply H; simpl; auto|]. destruct (H o (or_introl eq_refl)) as (c & i & A & K & V).
  exists (c :: cs). cbn [rmap]. unfold crowding_attr at 1. unfold at_ in A. rewrite A, K. cbn [rbind]. rewrite E. cbn [rbind]. rewrite V.
  split; [reflexivity|]. constructor; [exists i; auto|exact F].
Qed.

Lemma populations_read w pop : (forall s o, In s pop -> In o (inds_of s) -> exists c, crowded_by w o c) ->
  exists css, rmap (fun s => rmap (crowding_attr (w_heap w)) (inds_of s)) pop = Ok css /\
    Forall2 (fun s cs => Forall2 (crowded_by w) (inds_of s) cs) pop css.
Proof.
  induction pop as [|s pop IH]; intros H; [exists []; split; [reflexivity|constructor]|].
  destruct IH as (css & E & F); [intros x o Hx; apply H; simpl; auto|].
  destruct (crowdings_read w (inds_of s)) as (cs & E1 & F1); [intros o; apply H; simpl; auto|].
  exists (cs :: css). cbn [rmap]. rewrite E1. cbn [rbind]. rewrite E. split; [reflexivity|]. constructor; assumption.
Qed.

Lemma F2_left {X Y} (R : X -> Y -> Prop) l m : Forall2 R l m -> forall x, In x l -> exists y, In y m /\ R x y.
Proof. intros F. induction F as [|a b l m Hab F IH]; intros x []; [subst; simpl; eauto|]. destruct (IH x H) as (y & Hy & Ry). simpl. eauto. Qed.

Lemma F2_right {X Y} (R : X -> Y -> Prop) l m : Forall2 R l m -> forall y, In y m -> exists x, In x l /\ R x y.
Proof. intros F. induction F as [|a b l m Hab F IH]; intros x []; [subst; simpl; eauto|]. destruct (IH x H) as (y & Hy & Ry). simpl. eauto. Qed.

Lemma crowded_unique w o c d : crowded_by w o c -> crowded_by w o d -> c = d.
Proof. intros (i & A & _ & <-) (j & B & _ & <-). congruence. Qed.

Lemma crowding_stops t m a w best :
  a_checkers a = [CkUser (crowding_checker t) m] -> a_best_run a = Some best -> a_pop a <> [] ->
  (forall s o, In s (a_pop a) -> In o (inds_of s) -> exists c, crowded_by w o c /\ distance c) ->
  exists st a', should_terminate (a, w) = (Ok st, (a', w)) /\ a_checkers a' = a_checkers a /\
    (st = true <->
       (forall s, In s (a_pop a) -> exists o c, In o (inds_of s) /\ crowded_by w o c /\ c <> PInf) /\
       (forall s o c, In s (a_pop a) -> In o (inds_of s) -> crowded_by w o c -> c <> PInf -> nlt c t = true) /\
       (exists s o c, In s (a_pop a) /\ In o (inds_of s) /\ crowded_by w o c /\ c <> PInf /\ neq_num c (Fin 0) = false)).
Proof.
  intros Hc Hb Hp Hd. destruct (populations_read w (a_pop a)) as (css & E & F).
  { intros s o Hs Ho. destruct (Hd s o Hs Ho) as (c & Hcr & _). eauto. }
  destruct (crowding_check t css) as (b & Eb & Hiff).
  { intros ->. inversion F. congruence. }
  { intros cs c Hcs Hcc. destruct (F2_right _ _ _ F cs Hcs) as (s & Hs & F1). destruct (F2_right _ _ _ F1 c Hcc) as (o & Ho & Cr).
    destruct (Hd s o Hs Ho) as (c' & Cr' & D). rewrite (crowded_unique _ _ _ _ Cr Cr'). exact D. }
  assert (R : run_checkers (a_pop a) best (a_gen_num a) [CkUser (crowding_checker t) m] w = (Ok ([b], [CkUser (crowding_checker t) m]), w)).
  { unfold run_checkers. cbn [mapM run_checker]. unfold bind, get, lift, ret, crowding_checker. rewrite E. cbn [rbind]. rewrite Eb. reflexivity. }
  exists b. eexists. split.
  { unfold should_terminate. erewrite bind_eq_ok; [|reflexivity]. cbn [fst]. rewrite Hb, Hc.
    erewrite bind_eq_ok; [|unfold liftM; cbn [fst snd]; rewrite R; reflexivity]. cbn [fst snd existsb]. rewrite orb_false_r. reflexivity. }
  split; [cbn; congruence|]. rewrite Hiff. split.
  - intros (A1 & A2 & cs & c & Hcs & Hcc & Hn & Hz). split; [|split].
    + intros s Hs. destruct (F2_left _ _ _ F s Hs) as (ds & Hds & F1). destruct (A1 ds Hds) as (d & Hd1 & Hd2).
      destruct (F2_right _ _ _ F1 d Hd1) as (o & Ho & Cr). eauto.
    + intros s o d Hs Ho Cr Hn'. destruct (F2_left _ _ _ F s Hs) as (ds & Hds & F1). destruct (F2_left _ _ _ F1 o Ho) as (d' & Hd' & Cr').
      apply (A2 ds); auto. rewrite (crowded_unique _ _ _ _ Cr Cr'). exact Hd'.
    + destruct (F2_right _ _ _ F cs Hcs) as (s & Hs & F1). destruct (F2_right _ _ _ F1 c Hcc) as (o & Ho & Cr). exists s, o, c. auto.
  - intros (A1 & A2 & s & o & c & Hs & Ho & Cr & Hn & Hz). split; [|split].
    + intros ds Hds. destruct (F2_right _ _ _ F ds Hds) as (s' & Hs' & F1). destruct (A1 s' Hs') as (o' & c' & Ho' & Cr' & Hn').
      destruct (F2_left _ _ _ F1 o' Ho') as (d & Hd' & Cr2). exists d. split; [exact Hd'|]. rewrite (crowded_unique _ _ _ _ Cr2 Cr'). exact Hn'.
    + intros ds d Hds Hdd Hn'. destruct (F2_right _ _ _ F ds Hds) as (s' & Hs' & F1). destruct (F2_right _ _ _ F1 d Hdd) as (o' & Ho' & Cr'). eauto.
    + destruct (F2_left _ _ _ F s Hs) as (ds & Hds & F1). destruct (F2_left _ _ _ F1 o Ho) as (d & Hd' & Cr'). exists ds, d.
      rewrite <- (crowded_unique _ _ _ _ Cr Cr'). split; [exact Hds|]. split; [rewrite (crowded_unique _ _ _ _ Cr Cr'); exact Hd'|]. auto.
Qed.

Lemma doubling_elites s w h : sp_hib s = HL h -> 0 < sp_n_elite s -> fst (nsga2_breed_subpop s w) = Raise TypeError.
Proof.
  intros Hh Hn. unfold nsga2_breed_subpop. assert (E : (0 <? sp_n_elite s) = true) by (apply Nat.ltb_lt; exact Hn).
  rewrite E, Hh. reflexivity.
Qed.
