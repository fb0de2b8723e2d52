(** Proofs about whole multi-objective runs (C68). *)
From Coq Require Import Lia Lqa Permutation Sorted QArith.
From Verif.Proofs Require Export Nsga2P EvalP BestP.
From Verif.Model Require Import Num Fitness Tree World Nsga2.
Open Scope nat_scope.
Open Scope list_scope.

(** ** The best of each objective survives *)

Lemma beaten_by_first h v l x : In x l -> exists y, front h v l 0 y /\ (y = x \/ beats h v y x).
Proof.
  intros Hx. destruct (every_front h v l x Hx) as (j & Hj). revert x Hx Hj.
  induction j as [j IH] using lt_wf_ind. intros x Hx Hj. destruct j as [|j]; [exists x; auto|].
  pose proof Hj as Hj0. destruct Hj as [[_ (p & Hp & B)] _]. assert (Hpl : In p l) by (eapply left_in; eauto).
  destruct (every_front h v l p Hpl) as (i & Hi).
  assert (L : i < S j) by (eapply beats_rank; [exact B|exact Hi|exact Hj0]).
  destruct (IH i L p Hpl Hi) as (y & Hy & [->|By]); [exists p; auto|].
  exists y. split; [exact Hy|]. right. unfold beats in *.
  eapply pareto_trans; [apply values_numbers|apply values_numbers|apply values_numbers|apply values_length|apply values_length|apply values_length|exact By|exact B].
Qed.

Lemma values_nth h v o k d : nth_error h k = Some d -> nth_error (values h v o) k = Some (Fin (v k o)).
Proof.
  intros H. unfold values. assert (L : k < length h) by (apply nth_error_Some; congruence).
  rewrite nth_error_map. replace (nth_error (seq 0 (length h)) k) with (Some k); [reflexivity|].
  symmetry. rewrite (nth_error_nth' _ 0) by (rewrite seq_length; exact L). rewrite seq_nth by exact L. reflexivity.
Qed.

Definition worst_first (d : bool) (x y : Q) : Prop := if d then (y <= x)%Q else (x <= y)%Q.
Lemma not_better d x y : worst_first d y x <-> ~ better_score d (Fin x) (Fin y).
Proof.
  unfold worst_first, better_score. destruct d; simpl; rewrite not_true_iff_false, Qlt_b_false; reflexivity.
Qed.

Definition ends (f : list oid) : list oid := match f with [] => [] | x :: r => [x; last f x] end.
Lemma ends_in f x : at_end f x -> In x (ends f).
Proof.
  intros [(r & ->)|(r & ->)]; [simpl; auto|]. destruct r as [|y r]; [simpl; auto|]. right. left.
  change ((y :: r) ++ [x]) with (y :: (r ++ [x])). cbn [last]. destruct (r ++ [x]) eqn:E; [destruct r; discriminate|].
  rewrite <- E. apply last_last.
Qed.
Lemma ends_length f : length (ends f) <= 2.
Proof. destruct f; simpl; lia. Qed.

Lemma few_infinite m v F c l : crowded m v F c -> NoDup l -> incl l F -> (forall x, In x l -> c x = PInf) -> length l <= 2 * m.
Proof.
  intros (orders & L & H1 & H2) Hn Hi Hc.
  assert (I : incl l (flat_map ends orders)).
  { intros x Hx. destruct (H2 x (Hi x Hx)) as [_ Hf]. destruct (end_of_dec orders x) as [(f & Hf1 & Hf2)|Hno].
    - apply in_flat_map. exists f. split; [exact Hf1|apply ends_in; exact Hf2].
    - destruct (Hf Hno) as (qs & s & _ & Ec & _). rewrite Hc in Ec by exact Hx. discriminate. }
  apply NoDup_incl_length in I; [|exact Hn]. etransitivity; [exact I|]. clear - L. revert m L.
  induction orders as [|f orders IH]; intros m L; simpl in *; [lia|]. rewrite app_length. pose proof (ends_length f). destruct m as [|m]; [discriminate|].
  specialize (IH m). lia.
Qed.

Lemma survivors_extreme w h v l size d w' : survivors w h v l size d w' -> 2 * length h <= size -> 0 < size ->
  forall o k b, In o l -> nth_error h k = Some b -> exists z, In z d /\ ~ better_score b (Fin (v k o)) (Fin (v k z)).
Proof.
  intros [Sl Sn So (m & _ & _ & Hc & H1 & H2 & H3 & _)] Hs Hpos o k b Ho Hb.
  assert (Hm : 0 < m). { destruct d as [|x d]; [simpl in Sl; lia|]. destruct (H2 x) as (j & Hj & _); [simpl; auto|lia]. }
  destruct (Hc 0 Hm) as (F & c & NF & NeF & HF & CF & Cr).
  assert (Hk : k < length h) by (apply nth_error_Some; congruence).
  assert (E : exists z, In z F /\ c z = PInf /\ forall y, In y F -> worst_first b (v k z) (v k y)).
  { destruct (crowded_extremes _ _ _ _ k CF NeF Hk) as [E1 E2]. destruct b; [exact E2|exact E1]. }
  destruct E as (z & Hz & Cz & Ez).
  assert (Hzo : ~ better_score b (Fin (v k o)) (Fin (v k z))).
  { apply not_better. destruct (beaten_by_first h v l o Ho) as (y & Hy & [->|B]); [apply Ez, HF; exact Hy|].
    apply HF in Hy. specialize (Ez y Hy). destruct B as [B _]. specialize (B k b _ _ Hb (values_nth h v y k b Hb) (values_nth h v o k b Hb)).
    apply not_better in B. unfold worst_first in *. destruct b; lra. }
  destruct (in_dec Nat.eq_dec z d) as [Hd|Hd]; [exists z; auto|]. exfalso.
  assert (m = 1). { destruct (Nat.eq_dec m 1); [assumption|]. exfalso. apply Hd, (H1 0); [lia|apply HF; exact Hz]. }
  subst m. assert (Hdf : forall x, In x d -> In x F /\ c x = PInf).
  { intros x Hx. destruct (H2 x Hx) as (j & Hj & Fx). assert (j = 0) by lia. subst j.
    pose proof (proj2 (HF x) Fx) as HxF. split; [exact HxF|].
    destruct (H3 0 x z Fx (proj1 (HF z) Hz) Hx Hd) as (cx & cz & Hcx & Hcz & N).
    destruct (Cr x HxF) as (i & Hi & Ei). destruct (Cr z Hz) as (j & Hj' & Ej).
    destruct Hcx as (i' & Hi' & Ei'). destruct Hcz as (j' & Hj'' & Ej').
    assert (Xc : cx = c x) by congruence. assert (Xz : cz = PInf) by congruence. rewrite Xc, Xz in N.
    destruct (crowded_bounds _ _ _ _ x CF HxF) as [Q|(q & Q & _)]; [congruence|]. rewrite Q in N. discriminate. }
  assert (length (z :: d) <= 2 * length h).
  { apply (few_infinite _ _ _ _ (z :: d) CF); [constructor; assumption| |].
    - intros x [<-|Hx]; [exact Hz|apply Hdf; exact Hx].
    - intros x [<-|Hx]; [exact Cz|apply Hdf; exact Hx]. }
  simpl in H. lia.
Qed.

Lemma select_extremes setorder w h v l n : measured w h v l -> NoDup l -> any_order setorder ->
  (if n =? 0 then length l / 2 else n) <= length l -> 2 * length h <= (if n =? 0 then length l / 2 else n) ->
  exists d w', nsga2_select setorder l n w = (Ok d, w') /\
    forall o k b, In o l -> nth_error h k = Some b -> exists z, In z d /\ ~ better_score b (Fin (v k o)) (Fin (v k z)).
Proof.
  intros Hm Hn Ha Hs Hb. destruct (nsga2_select_ok setorder w h v l n Hm Hn Ha Hs) as (d & w' & E & S). exists d, w'. split; [exact E|].
  intros o k b Ho Hk. eapply survivors_extreme; eauto. assert (k < length h) by (apply nth_error_Some; congruence). lia.
Qed.

(** ** Evaluation *)

Lemma directed_fit h f g : fit_same f g -> ft_class f = KNSGA2 /\ directed (ft_hib f) h -> ft_class g = KNSGA2 /\ directed (ft_hib g) h.
Proof. intros (A & _ & _ & D) [H1 H2]. rewrite A, D. auto. Qed.

Lemma set_moo_ok h f v qs f' : ft_class f = KNSGA2 -> directed (ft_hib f) h -> length qs = length h -> v = VList (map Fin qs) ->
  set_fitness f v = (Ok tt, f') -> ft_evaluated f = false /\ objectives f' h (map Fin qs).
Proof.
  intros C D L -> H. unfold set_fitness in H. rewrite C in H. destruct (ft_evaluated f); [discriminate|]. split; [reflexivity|].
  assert (N : Forall (fun x => is_nan x = false) (map Fin qs)) by (apply Forall_forall; intros x Hx; apply in_map_iff in Hx; destruct Hx as (q & <- & _); reflexivity).
  destruct D as [D|(d & D & R)]; rewrite D in H; injection H as <-; constructor; simpl; auto; try (rewrite map_length; exact L).
  rewrite map_length, L, <- R. reflexivity.
Qed.

Section Moo.
Variable ev : genome -> res fval.
Variable h : list bool.
Hypothesis EV : gives_objectives ev (length h).

(** What evaluation leaves: the objectives of the genome, whatever else. *)
Definition assessed (w w' : world) (o : oid) : Prop :=
  exists i j qs, at_ w o = Some i /\ at_ w' o = Some j /\ i_genome j = i_genome i /\
    ev (i_genome i) = Ok (VList (map Fin qs)) /\ length qs = length h /\ objectives (i_fit j) h (map Fin qs).

Lemma assign_moo inds : forall gs w u w', Forall2 (genome_at w) inds gs -> (forall o, In o inds -> moo_at w h o) ->
  assign_results inds (map ev gs) w = (Ok u, w') ->
  NoDup inds /\ (forall o, In o inds -> assessed w w' o) /\ (forall o, ~ In o inds -> at_ w' o = at_ w o) /\
  (forall o i, In o inds -> at_ w o = Some i -> ft_evaluated (i_fit i) = false).
Proof.
  induction inds as [|o inds IH]; intros gs w u w' F Hm H; inversion F as [|? g ? gs' Hg F']; subst; simpl in H.
  { mr H. split; [constructor|]. split; [intros o []|]. split; [auto|intros o i []]. }
  mb H as v s E. unfold lift in E. injection E as E <-. mb H as x w1 E1. 
  destruct (EV g v E) as (qs & Lq & ->).
  destruct (Hm o) as (i & Hi & Ci & Di); [simpl; auto|]. destruct Hg as (i' & Hi' & <-). assert (i' = i) by congruence. subst i'.
  unfold ind_set_fitness in E1. rewrite (bind_eq_ok _ _ _ _ _ (load_at _ _ _ Hi)) in E1.
  destruct (set_fitness (i_fit i) (VList (map Fin qs))) as [r f] eqn:Es. cbn [fst snd] in E1. cbv zeta in E1.
  rewrite (bind_eq_ok _ _ _ _ _ (store_at o (set_fit f i) i w Hi)) in E1. unfold lift in E1. injection E1 as -> <-.
  destruct x. destruct (set_moo_ok h _ _ qs f Ci Di Lq eq_refl Es) as [Ue Ob].
  set (j := set_fit f i) in *. set (w1 := put_at w o j) in *.
  assert (A1 : at_ w1 o = Some j) by (eapply at_put_same; eauto).
  assert (A2 : forall p, p <> o -> at_ w1 p = at_ w p) by (intros p Hp; apply at_put_other; congruence).
  assert (Gj : i_genome j = i_genome i) by reflexivity.
  assert (F1 : Forall2 (genome_at w1) inds gs').
  { clear - F' A1 A2 Gj Hi. induction F' as [|p g l gs (k & Hk & Gk) F IH]; constructor; [|exact IH].
    destruct (Nat.eq_dec p o) as [->|Hp]; [exists j; split; [exact A1|congruence]|exists k; rewrite A2 by exact Hp; auto]. }
  assert (M1 : forall p, In p inds -> moo_at w1 h p).
  { intros p Hp. destruct (Nat.eq_dec p o) as [->|Hpo].
    - exists j. split; [exact A1|]. split; [apply Ob|left; apply Ob].
    - destruct (Hm p) as (k & Hk & Ck); [simpl; auto|]. exists k. rewrite A2 by exact Hpo. auto. }
  destruct (IH gs' w1 u w' F1 M1 H) as (Nd & As & Ot & Un).
  assert (Hno : ~ In o inds). { intros Hin. pose proof (Un o j Hin A1) as X. pose proof (ob_evaluated _ _ _ Ob) as Y. change (i_fit j) with f in X. congruence. }
  split; [constructor; assumption|]. split; [|split].
  - intros p [<-|Hp].
    + exists i, j, qs. rewrite Ot by exact Hno. exact (conj Hi (conj A1 (conj Gj (conj E (conj Lq Ob))))).
    + assert (p <> o) by (intros ->; contradiction). destruct (As p Hp) as (k & j' & qs' & Hk & R). rewrite A2 in Hk by assumption. exists k, j', qs'. auto.
  - intros p Hp. rewrite Ot, A2; [reflexivity|intros ->; apply Hp; simpl; auto|intros Hq; apply Hp; simpl; auto].
  - intros p k [<-|Hp] Hk; [congruence|]. apply (Un p); [exact Hp|]. rewrite A2; [exact Hk|intros ->; contradiction].
Qed.

Lemma scan_heap l w r w' : best_scan l w = (r, w') -> w_heap w' = w_heap w.
Proof.
  set (Rh := fun w w' : world => w_heap w' = w_heap w).
  assert (PR : PreOrder Rh) by (split; [intros x; reflexivity|intros x y z Hx Hy; unfold Rh in *; congruence]).
  assert (S : steps Rh (best_scan l)).
  { destruct l as [|a l']; [apply (st_raise Rh)|]. apply (st_foldM Rh). intros b x _. apply (st_bind Rh); [|intros; apply (st_ret Rh)].
    apply (g_better Rh). intros v g. reflexivity. }
  intros H. specialize (S w). rewrite H in S. exact S.
Qed.

Definition value_in (w : world) (k : nat) (o : oid) : Q :=
  match at_ w o with
  | Some i => match ft_value (i_fit i) with VList l => match nth_error l k with Some (Fin q) => q | _ => 0%Q end | _ => 0%Q end
  | None => 0%Q
  end.

Lemma map_nth_values (f : nat -> num) (l : list Q) : (forall k q, nth_error l k = Some q -> f k = Fin q) -> map f (seq 0 (length l)) = map Fin l.
Proof.
  revert f. induction l as [|q l IH]; intros f H; [reflexivity|]. simpl. f_equal; [apply H; reflexivity|].
  rewrite <- seq_shift, map_map. apply IH. intros k q' Hk. apply H. exact Hk.
Qed.

Lemma evaluate_moo sched l w b w' : fair sched -> (forall o, In o l -> moo_at w h o) ->
  evaluate_inds ev sched ByMap true l w = (Ok b, w') ->
  NoDup l /\ (forall o, In o l -> assessed w w' o) /\ (forall o, ~ In o l -> at_ w' o = at_ w o).
Proof.
  intros F Hm H. unfold evaluate_inds in H. mb H as gs w1 E. apply load_genomes_ok in E. destruct E as (-> & _ & G).
  rewrite (executor_map_fair ev sched gs F) in H. unfold lift in H. mb H as rs w2 E. injection E as <- <-.
  mb H as u w3 E. apply scan_heap in H. destruct (assign_moo _ _ _ _ _ G Hm E) as (N & A & O & _).
  assert (X : forall o, at_ w' o = at_ w3 o) by (intros o; unfold at_; rewrite H; reflexivity).
  split; [exact N|]. split; intros o Ho; [|rewrite X; auto].
  destruct (A o Ho) as (i & j & qs & Hi & Hj & R). exists i, j, qs. rewrite X. auto.
Qed.

Lemma assessed_measured l w w' : (forall o, In o l -> assessed w w' o) -> measured w' h (value_in w') l.
Proof.
  intros A o Ho. destruct (A o Ho) as (i & j & qs & Hi & Hj & Gj & Ev & Lq & Ob). exists j. split; [exact Hj|].
  replace (values h (value_in w') o) with (map Fin qs); [exact Ob|]. symmetry. unfold values. rewrite <- Lq. apply map_nth_values.
  intros k q Hk. f_equal. unfold value_in. rewrite Hj, (ob_value _ _ _ Ob), nth_error_map, Hk. reflexivity.
Qed.

(** ** Breeding *)

Definition flags (w w' : world) : Prop := forall o i, at_ w o = Some i -> exists j, at_ w' o = Some j /\ fit_same (i_fit i) (i_fit j).
Global Instance flags_pre : PreOrder flags.
Proof.
  split; [intros w o i H; exists i; split; [exact H|apply fit_same_refl]|].
  intros a b c Hab Hbc o i H. destruct (Hab o i H) as (j & Hj & A1 & A2 & A3 & A4). destruct (Hbc o j Hj) as (k & Hk & B1 & B2 & B3 & B4).
  exists k. split; [exact Hk|]. repeat split; congruence.
Qed.
Lemma flags_rng w g : flags w (mkWorld (w_heap w) (w_next_id w) g).
Proof. intros o i H. exists i. split; [exact H|apply fit_same_refl]. Qed.
Lemma flags_ext w w' : ext w w' -> flags w w'.
Proof. intros X o i H. exists i. split; [eapply ext_at; eauto|apply fit_same_refl]. Qed.
Lemma flags_clone o : steps flags (clone o).
Proof.
  intros w. destruct (at_ w o) as [i|] eqn:E.
  - rewrite (clone_at _ _ _ E). apply flags_ext. eexists. reflexivity.
  - unfold clone, bind, load. unfold at_ in E. rewrite E. reflexivity.
Qed.
Lemma flags_put w o i j : True -> at_ w o = Some i -> kept0 w i j -> flags w (put_at w o j).
Proof.
  intros _ E (_ & _ & _ & K & _) p k Hk. destruct (Nat.eq_dec o p) as [->|Hn].
  - exists j. split; [eapply at_put_same; eauto|]. replace k with i by congruence. exact K.
  - exists k. rewrite at_put_other by exact Hn. split; [exact Hk|apply fit_same_refl].
Qed.
Lemma flags_clone_selected name o : steps flags (clone_selected name o).
Proof.
  apply (st_bind flags); [apply flags_clone|]. intros c. apply (st_bind flags); [|intros; apply (st_ret flags)].
  apply (x_modify_plain flags (fun _ => True) flags_put); [exact I|]. intros i. repeat split.
Qed.
Lemma flags_elitism n rev src dest : steps flags (elitism_select n rev src dest).
Proof. apply (x_elitism flags); auto using flags_clone_selected. Qed.
Lemma flags_operators ops : forall l, steps flags (apply_operators ops l).
Proof.
  intros l. unfold apply_operators. apply (st_foldM flags). intros cur op _. destruct (op_arity op =? 0); [apply (st_raise flags)|].
  generalize (length cur) as fuel. intros fuel. revert cur. induction fuel as [|fuel IH]; intros cur; simpl; [apply (st_ret flags)|].
  destruct cur as [|x cur]; [apply (st_ret flags)|]. apply (st_bind flags).
  - apply (x_apply flags (fun _ => True) flags_rng flags_clone flags_put). apply all_true.
  - intros r. apply (st_bind flags); [apply IH|]. intros; apply (st_ret flags).
Qed.
Lemma flags_reset o : steps flags (set_fitness_not_evaluated o).
Proof. apply (x_reset flags (fun _ => True) flags_put). exact I. Qed.
Lemma flags_moo w w' o : flags w w' -> moo_at w h o -> moo_at w' h o.
Proof.
  intros F (i & Hi & C & D). destruct (F o i Hi) as (j & Hj & K). exists j. split; [exact Hj|]. eapply directed_fit; [exact K|auto].
Qed.

Lemma clones_moo l : forall w cs w', (forall o, In o l -> moo_at w h o) -> mapM clone l w = (Ok cs, w') -> forall c, In c cs -> moo_at w' h c.
Proof.
  induction l as [|o l IH]; intros w cs w' Hm H c Hc; simpl in H; [mr H; destruct Hc|].
  mb H as x w1 E. mb H as xs w2 E1. unfold ret in H. injection H as <- <-.
  assert (F1 : flags w w1) by (pose proof (flags_clone o w) as X; rewrite E in X; exact X).
  assert (F2 : flags w1 w2) by (pose proof (st_mapM flags clone l (fun a _ => flags_clone a) w1) as X; rewrite E1 in X; exact X).
  destruct Hc as [<-|Hc]; [|eapply IH; [|exact E1|exact Hc]; intros p Hp; eapply flags_moo; [exact F1|apply Hm; simpl; auto]].
  eapply flags_moo; [exact F2|]. destruct (Hm o) as (i & Hi & Ci); [simpl; auto|]. rewrite (clone_at _ _ _ Hi) in E. injection E as <- <-.
  eexists. split; [exact (at_push_new (bump w) _)|]. eapply directed_fit; [apply fit_same_getstate|exact Ci].
Qed.

Lemma doubling_moo s w s' w' : (forall o, In o (inds_of s) -> moo_at w h o) -> nsga2_breed_subpop s w = (Ok s', w') ->
  forall o, In o (inds_of s') -> moo_at w' h o.
Proof.
  intros Hm H. destruct (sp_sels s) as [|[size rep a|hi a] sels] eqn:Es.
  - exfalso. unfold nsga2_breed_subpop in H. rewrite Es in H. mb H as u w1 E0. mb H as old w2 E1. mb H as new w3 E2. mb H as u2 w4 E3. discriminate.
  - unfold nsga2_breed_subpop in H. rewrite Es in H. mb H as u w1 E0. mb H as old w2 E1. mb H as new w3 E2. mb H as u2 w4 E3. mb H as r w5 E4.
    unfold ret in H. injection H as <- <-.
    pose proof (operators_same _ _ _ _ _ E2) as ->. pose proof (mapM_length _ _ _ _ _ E1) as L1. simpl in E4. apply tournament_none in E4; [|rewrite app_length; lia]. destruct E4 as [-> ->].
    rewrite with_inds_of.
    assert (F1 : flags w w1).
    { destruct (0 <? sp_n_elite s); [|mr E0; reflexivity]. mb E0 as rev wa Ea. unfold lift in Ea. injection Ea as _ <-.
      mb E0 as el wb Eb. unfold ret in E0. injection E0 as _ <-. pose proof (flags_elitism (sp_n_elite s) rev (inds_of s) [] w) as X. rewrite Eb in X. exact X. }
    assert (F2 : flags w1 w2) by (pose proof (st_mapM flags clone (inds_of s) (fun a _ => flags_clone a) w1) as X; rewrite E1 in X; exact X).
    assert (F3 : flags w2 w3) by (pose proof (flags_operators (sp_ops s) (inds_of s) w2) as X; rewrite E2 in X; exact X).
    assert (F4 : flags w3 w4) by (pose proof (st_iterM flags set_fitness_not_evaluated (old ++ inds_of s) (fun a _ => flags_reset a) w3) as X; rewrite E3 in X; exact X).
    assert (F24 : flags w2 w4) by (etransitivity; eauto).
    assert (Hm1 : forall o, In o (inds_of s) -> moo_at w1 h o) by (intros o Ho; eapply flags_moo; eauto).
    intros o Ho. apply in_app_or in Ho. destruct Ho as [Ho|Ho].
    + eapply flags_moo; [exact F24|]. eapply clones_moo; [exact Hm1|exact E1|exact Ho].
    + eapply flags_moo; [exact F24|]. eapply flags_moo; [exact F2|]. auto.
  - exfalso. apply (doubling_fp s w hi a sels Es s'). rewrite H. reflexivity.
Qed.
End Moo.

(** ** One generation *)

Lemma liftM_ok' {X} (m : M X) a w x s : liftM m (a, w) = (Ok x, s) -> exists w', s = (a, w') /\ m w = (Ok x, w').
Proof. intros H. destruct s as [a' w']. apply liftM_ok in H. destruct H as [-> H]. eauto. Qed.

Section MooRun.
Variable ev : genome -> res fval.
Variable h : list bool.
Hypothesis EV : gives_objectives ev (length h).
Variable sched : nat -> list nat.
Hypothesis FAIR : fair sched.
Variable so : nat -> list nat -> list nat.
Hypothesis ANY : any_order so.

Lemma assessed_objective w w' o k d : assessed ev h w w' o -> nth_error h k = Some d ->
  objective ev w o k (Fin (value_in w' k o)) /\ objective ev w' o k (Fin (value_in w' k o)).
Proof.
  intros (i & j & qs & Hi & Hj & Gj & Ev & Lq & Ob) Hk.
  assert (exists q, nth_error qs k = Some q) as (q & Hq).
  { assert (k < length h) by (apply nth_error_Some; congruence). destruct (nth_error qs k) eqn:E; [eauto|]. apply nth_error_None in E. lia. }
  assert (V : value_in w' k o = q) by (unfold value_in; rewrite Hj, (ob_value _ _ _ Ob), nth_error_map, Hq; reflexivity).
  rewrite V. split; [exists i|exists j]; exists (map Fin qs); (split; [assumption|]); (split; [congruence|]); rewrite nth_error_map, Hq; reflexivity.
Qed.

Lemma objective_unique w o k x y : objective ev w o k x -> objective ev w o k y -> x = y.
Proof. intros (i & v & Hi & Ev & Hx) (j & u & Hj & Eu & Hy). congruence. Qed.

(** The parts of a generation: the doubled and evaluated population, of which the survivors are selected. *)
Record parts (s : subpop) (w : world) (a' : algo) (w' : world) (s1 : subpop) (w1 w4 : world) (d : list oid) : Prop := {
  pt_method : a_method a' = ByMap;
  pt_pop : a_pop a' = [with_inds s1 d];
  pt_assessed : forall o, In o (inds_of s1) -> assessed ev h w1 w4 o;
  pt_survivors : survivors w4 h (value_in w4) (inds_of s1) (length (inds_of s)) d w';
  pt_incl : incl d (inds_of s1);
  pt_clones : forall o, In o (inds_of s) -> exists c i j, In c (inds_of s1) /\ at_ w o = Some i /\ at_ w1 c = Some j /\ i_genome j = i_genome i
}.

Lemma generation_parts a w u a' w' s : a_pop a = [s] -> a_method a = ByMap -> (forall o, In o (inds_of s) -> moo_at w h o) ->
  nsga2_generation ev sched so true (a, w) = (Ok u, (a', w')) ->
  exists s1 w1 w4 d, parts s w a' w' s1 w1 w4 d.
Proof.
  intros Ep Hmt Hm H. unfold nsga2_generation in H. mb H as a0 st E. unfold algo_get in E. injection E as <- <-. simpl in H.
  mb H as pop st E. destruct st as [a1 w1]. la E. rewrite Ep in E. simpl in E. mb E as s1 v1 Eb. mr E.
  mb H as u1 st E1. destruct st as [a2 w2]. unfold algo_mod in E1. injection E1 as _ <- <-.
  mb H as u2 st E2. destruct st as [a3 w3]. unfold algo_mod in E2. injection E2 as _ <- <-. mb H as b st E3. destruct st as [a4 w4].
  apply eval_ok in E3. destruct E3 as [E3 ->]. cbn [a_pop a_method a_alive set_pop add_trace] in E3. simpl in E3. rewrite Hmt in E3.
  mb H as pop' st E4. destruct st as [a5 w5]. la E4. unfold algo_mod in H. injection H as _ <- <-.
  unfold select_for_population in E4. simpl in E4. mb E4 as s2 v2 Es. mb Es as d v3 Ed. mr Es. mr E4. 
  pose proof (doubling_moo h s w s1 w1 Hm Eb) as Hm1.
  assert (Al : a_alive a = true).
  { eapply (eval_alive ev); [|exact E3]. intros o Ho. destruct (Hm1 o Ho) as (i & Hi & _). eauto. }
  rewrite Al in E3. destruct (evaluate_moo ev h EV sched _ _ _ _ FAIR Hm1 E3) as (Nd & As & Ot).
  pose proof (assessed_measured ev h _ _ _ As) as Me.
  pose proof (doubling_len s w s1 w1 Eb) as L1.
  assert (Sz : length (inds_of s1) / 2 = length (inds_of s)) by (rewrite L1, Nat.mul_comm; apply Nat.div_mul; discriminate).
  destruct (nsga2_select_ok so w4 h (value_in w4) (inds_of s1) 0 Me Nd ANY) as (d' & w' & Ed' & Sv); [cbn [Nat.eqb]; rewrite Sz; lia|].
  rewrite Ed in Ed'. injection Ed' as <- <-. cbn [Nat.eqb] in Sv. rewrite Sz in Sv. pose proof Sv as Sv0. destruct Sv as [Sl Sn (_ & _ & _ & So) (m & _ & _ & _ & _ & H2 & _ & _)].
  assert (Inc : incl d (inds_of s1)) by (intros x Hx; destruct (H2 x Hx) as (k & _ & [Hl _]); eapply left_in; eauto).
  exists s1, w1, w4, d. constructor; [exact Hmt|reflexivity|exact As|exact Sv0|exact Inc|].
  intros o Ho. destruct (sp_sels s) as [|[size rep ar|hi ar] sels] eqn:Ess.
  - exfalso. unfold nsga2_breed_subpop in Eb. rewrite Ess in Eb. mb Eb as z0 z1 z2. mb Eb as z3 z4 z5. mb Eb as z6 z7 z8. mb Eb as z9 z10 z11. discriminate.
  - destruct (doubling_breed s w s1 w1 size rep ar sels) as (cs & -> & _ & _ & _ & Fc & _); [intros p Hp; destruct (Hm p Hp) as (i & Hi & _); eauto|exact Ess|exact Eb|].
    rewrite with_inds_of.
    assert (X : exists c i j, In c cs /\ at_ w o = Some i /\ at_ w1 c = Some j /\ i_genome j = i_genome i);
      [|destruct X as (c & i & j & Hc & X); exists c, i, j; split; [apply in_or_app; auto|exact X]].
    clear - Fc Ho. induction Fc as [|p c l cs (i & j & Hi & Hj & Hg & _) Fc IH]; [destruct Ho|].
    destruct Ho as [->|Ho]; [exists c, i, j; simpl; auto|]. destruct (IH Ho) as (c' & i' & j' & Hc & X). exists c', i', j'. simpl. auto.
  - exfalso. apply (doubling_fp s w hi ar sels Ess s1). rewrite Eb. reflexivity.
Qed.

Lemma generation_moo a w u a' w' s : a_pop a = [s] -> a_method a = ByMap -> (forall o, In o (inds_of s) -> moo_at w h o) ->
  nsga2_generation ev sched so true (a, w) = (Ok u, (a', w')) ->
  a_method a' = ByMap /\ exists s', a_pop a' = [s'] /\ length (inds_of s') = length (inds_of s) /\ NoDup (inds_of s') /\
    (forall o, In o (inds_of s') -> moo_at w' h o) /\
    (2 * length h <= length (inds_of s) -> reached_again ev h w (inds_of s) w' (inds_of s')).
Proof.
  intros Ep Hmt Hm H. destruct (generation_parts a w u a' w' s Ep Hmt Hm H) as (s1 & w1 & w4 & d & [Hmt' Ep' As Sv0 Inc Cl]).
  pose proof (assessed_measured ev h _ _ _ As) as Me. pose proof Sv0 as Sv. destruct Sv as [Sl Sn (_ & _ & _ & So) _].
  split; [exact Hmt'|]. exists (with_inds s1 d). split; [exact Ep'|]. rewrite with_inds_of. split; [lia|]. split; [exact Sn|]. split.
  - intros o Ho. destruct (Me o (Inc o Ho)) as (i & Hi & Ob). destruct (So o i Hi) as (c & r & Hj & _). eexists. split; [exact Hj|].
    split; [apply Ob|left; apply Ob].
  - intros Hb o k b0 x Ho Hk Hx. destruct (Cl o Ho) as (c & i0 & j0 & Hc & Hi0 & Hj0 & Eg).
    assert (Hcx : objective ev w1 c k x) by (destruct Hx as (i & v & Hi & Ev & Hv); exists j0, v; split; [exact Hj0|]; split; [congruence|exact Hv]).
    assert (Xc : x = Fin (value_in w4 k c)) by (eapply objective_unique; [exact Hcx|apply (assessed_objective w1 w4 c k b0 (As c Hc) Hk)]).
    assert (Kl : k < length h) by (apply nth_error_Some; congruence).
    destruct (survivors_extreme _ _ _ _ _ _ _ Sv0) with (o := c) (k := k) (b := b0) as (z & Hz & Bz); [lia|lia|exact Hc|exact Hk|].
    exists z, (Fin (value_in w4 k z)). split; [exact Hz|]. split; [|rewrite Xc; exact Bz].
    destruct (assessed_objective w1 w4 z k b0 (As z (Inc z Hz)) Hk) as [_ (i & v & Hi & Ev & Hv)].
    destruct (So z i Hi) as (cc & r & Hj & _). eexists. exists v. split; [exact Hj|]. split; [exact Ev|exact Hv].
Qed.

Definition reach (w : world) (l : list oid) (w' : world) (l' : list oid) : Prop := 2 * length h <= length l -> reached_again ev h w l w' l'.

Lemma regen_objective w w' o k x : regen w w' -> objective ev w o k x -> objective ev w' o k x.
Proof. intros Rg (i & v & Hi & Ev & Hv). destruct (Rg o i Hi) as (n & Hn). eexists. exists v. split; [exact Hn|]. split; [exact Ev|exact Hv]. Qed.
Lemma regen_back w w' l o k x : regen w w' -> In o l -> (forall p, In p l -> moo_at w h p) -> objective ev w' o k x -> objective ev w o k x.
Proof.
  intros Rg Ho Hm (i & v & Hi & Ev & Hv). destruct (Hm o Ho) as (j & Hj & _). destruct (Rg o j Hj) as (n & Hn). rewrite Hi in Hn. injection Hn as ->.
  exists j, v. split; [exact Hj|]. split; [exact Ev|exact Hv].
Qed.
Lemma regen_moo w w' o : regen w w' -> moo_at w h o -> moo_at w' h o.
Proof. intros Rg (i & Hi & C). destruct (Rg o i Hi) as (n & Hn). eexists. split; [exact Hn|exact C]. Qed.

Lemma reached_trans w l w1 l1 w2 l2 : reached_again ev h w l w1 l1 -> reached_again ev h w1 l1 w2 l2 -> gives_objectives ev (length h) -> reached_again ev h w l w2 l2.
Proof.
  intros A B G o k d x Ho Hk Hx. destruct (A o k d x Ho Hk Hx) as (o1 & y & H1 & Hy & Ny). destruct (B o1 k d y H1 Hk Hy) as (o2 & z & H2 & Hz & Nz).
  exists o2, z. split; [exact H2|]. split; [exact Hz|].
  assert (Fi : forall w o t, objective ev w o k t -> exists q, t = Fin q).
  { intros w0 o0 t (i & v & _ & Ev & Hv). destruct (G _ _ Ev) as (qs & _ & Eq). injection Eq as ->. rewrite nth_error_map in Hv.
    destruct (nth_error qs k); [|discriminate]. injection Hv as <-. eauto. }
  destruct (Fi _ _ _ Hx) as (p & ->). destruct (Fi _ _ _ Hy) as (q & ->). destruct (Fi _ _ _ Hz) as (r & ->).
  apply not_better in Ny, Nz. apply not_better. unfold worst_first in *. destruct d; lra.
Qed.

Lemma body_moo gen a w st a' w' s : a_pop a = [s] -> a_method a = ByMap -> (forall o, In o (inds_of s) -> moo_at w h o) ->
  body (nsga2_generation ev sched so true) gen (a, w) = (Ok st, (a', w')) ->
  a_method a' = ByMap /\ exists s', a_pop a' = [s'] /\ length (inds_of s') = length (inds_of s) /\ NoDup (inds_of s') /\
    (forall o, In o (inds_of s') -> moo_at w' h o) /\ reach w (inds_of s) w' (inds_of s').
Proof.
  intros Ep Hmt Hm H. apply body_ok in H. destruct H as (w1 & a2 & w2 & Rg & _ & E & T). apply terminate_ok in T.
  destruct T as (-> & best & ans & cs & _ & _ & -> & _).
  assert (Hm1 : forall o, In o (inds_of s) -> moo_at w1 h o) by (intros o Ho; eapply regen_moo; eauto).
  match type of E with nsga2_generation _ _ _ _ (?b, _) = _ => destruct (generation_moo b w1 tt a2 w2 s Ep Hmt Hm1 E) as (M & s' & P & L & N & Mo & Re) end.
  split; [exact M|]. exists s'. split; [exact P|]. split; [exact L|]. split; [exact N|]. split; [exact Mo|].
  intros Hb o k d x Ho Hk Hx. apply (Re Hb o k d x Ho Hk). eapply regen_objective; eauto.
Qed.

Lemma reached_refl w l : reached_again ev h w l w l.
Proof.
  intros o k d x Ho Hk Hx. exists o, x. split; [exact Ho|]. split; [exact Hx|]. intros B. unfold better_score in B. destruct d; rewrite nlt_irrefl in B; discriminate.
Qed.

Lemma loop_moo todo : forall gen a w a' w' s, a_pop a = [s] -> a_method a = ByMap -> (forall o, In o (inds_of s) -> moo_at w h o) ->
  main_loop (nsga2_generation ev sched so true) todo gen (a, w) = (Ok tt, (a', w')) ->
  exists s', a_pop a' = [s'] /\ length (inds_of s') = length (inds_of s) /\
    (forall o, In o (inds_of s') -> moo_at w' h o) /\ reach w (inds_of s) w' (inds_of s').
Proof.
  induction todo as [|todo IH]; intros gen a w a' w' s Ep Hmt Hm H.
  { simpl in H. unfold ret in H. injection H as <- <-. exists s. split; [exact Ep|]. split; [reflexivity|]. split; [exact Hm|]. intros _. apply reached_refl. }
  rewrite main_loop_body in H. mb H as st z E. destruct z as [a1 w1]. destruct (body_moo _ _ _ _ _ _ _ Ep Hmt Hm E) as (M & s1 & P & L & N & Mo & Re). destruct st.
  - mb H as u z E1. unfold algo_mod in E1. simpl in E1. injection E1 as _ <-. rewrite publish_eq in H. injection H as <- <-. exists s1. auto.
  - mb H as u z E1. rewrite publish_eq in E1. injection E1 as _ <-.
    match type of H with main_loop _ _ ?g (?b, _) = _ => destruct (IH g b w1 a' w' s1 P M Mo H) as (s' & P' & L' & Mo' & Re') end. exists s'. split; [exact P'|]. split; [lia|]. split; [exact Mo'|].
    intros Hb. eapply reached_trans; [exact (Re Hb)|apply Re'; lia|exact EV].
Qed.

Lemma create_moo len b k upd n hb w l w' : directed hb h -> create_individuals (CVector len b k KNSGA2 upd) n hb w = (Ok l, w') ->
  forall o, In o l -> moo_at w' h o.
Proof.
  intros D H. cbn [create_individuals] in H. unfold create_vectors in H. mb H as inds w1 E. mb H as u w2 E1. intros o Ho. mr H.
  assert (F : flags w1 w').
  { assert (K : steps flags (iterM (fun o => v <- load_vec o ;; v' <- liftR (create_vector len v) ;; put_genome o (GVec v')) l)).
    { apply (st_iterM flags). intros x _. apply (st_bind flags); [apply (x_load_vec flags)|]. intros t.
      apply (st_bind flags); [apply (x_liftR flags flags_rng)|]. intros g. apply (x_put_genome flags (fun _ => True) flags_put). exact I. }
    specialize (K w1). rewrite E1 in K. exact K. }
  eapply flags_moo; [exact F|]. clear E1 F. revert w l w1 E o Ho. induction n as [|n IH]; intros w l w1 E o Ho; simpl in E; [mr E; destruct Ho|].
  mb E as x v1 Ex. mb E as xs v2 Exs. unfold ret in E. injection E as <- <-. destruct Ho as [<-|Ho]; [|eapply IH; eauto].
  assert (F : flags v1 v2).
  { match type of Exs with repeatM _ ?m _ = _ => assert (K : steps flags (repeatM n m)) end.
    { apply (st_repeatM flags). apply (st_bind flags); [apply (st_lift flags)|]. intros v w0. apply flags_ext. eexists. reflexivity. }
    specialize (K v1). rewrite Exs in K. exact K. }
  eapply flags_moo; [exact F|]. mb Ex as g v3 Eg. unfold lift in Eg. injection Eg as _ <-.
  unfold new_individual, bind, fresh_id, alloc in Ex. simpl in Ex. injection Ex as <- <-.
  eexists. split; [unfold at_; simpl; rewrite nth_error_app2, Nat.sub_diag by lia; reflexivity|]. split; [reflexivity|exact D].
Qed.

Lemma init_moo n a w a' w' : a_method a = ByMap -> moo_population w h (a_pop a) -> initialize ev sched n (a, w) = (Ok tt, (a', w')) ->
  a_method a' = ByMap /\ exists s, a_pop a' = [s] /\ forall o, In o (inds_of s) -> moo_at w' h o.
Proof.
  intros Hmt (s & Es & Hp) E. apply init_ok in E. destruct E as (pop & w1 & best & E1 & E2 & ->).
  rewrite Es in E1. simpl in E1. mb E1 as s' w2 E3. mr E1.
  assert (S' : forall o, In o (inds_of s') -> moo_at w1 h o).
  { unfold create_subpopulation in E3. destruct (sp_inds s) as [l|] eqn:El.
    - unfold ret in E3. injection E3 as <- <-. unfold inds_of. rewrite El. intros o Ho. destruct (Hp o Ho) as (i & Hi & S). exists i. split; [exact Hi|exact S].
    - destruct Hp as [Hh Hc]. mb E3 as c w3 E4. mb E3 as l w4 E5. intros o Ho. mr E3. unfold inds_of in Ho. simpl in Ho.
      assert (Ic : In c (sp_creators s)) by (apply liftR_ok in E4; destruct E4 as (g & E4 & _); eapply choices_weighted_In; eauto).
      destruct (Hc c Ic) as (len & b & k & upd & ->). eapply create_moo; eauto. }
  simpl in E2. rewrite Hmt in E2.
  assert (Al : a_alive a = true) by (eapply (eval_alive ev); [|exact E2]; intros o Ho; destruct (S' o Ho) as (i & Hi & _); eauto).
  rewrite Al in E2. destruct (evaluate_moo ev h EV sched _ _ _ _ FAIR S' E2) as (Nd & As & _).
  split; [exact Hmt|]. exists s'. split; [reflexivity|]. intros o Ho. destruct (As o Ho) as (i & j & qs & _ & Hj & _ & _ & _ & Ob).
  exists j. split; [exact Hj|]. split; [apply Ob|left; apply Ob].
Qed.

Lemma run_moo n a w u a' w' : a_method a = ByMap -> moo_population w h (a_pop a) ->
  nsga2_evolve ev sched so true n (a, w) = (Ok u, (a', w')) ->
  exists a1 w1 s s', initialize ev sched n (a, w) = (Ok tt, (a1, w1)) /\ a_pop a1 = [s] /\ a_pop a' = [s'] /\
    length (inds_of s') = length (inds_of s) /\
    (2 * length h <= length (inds_of s) -> reached_again ev h w1 (inds_of s) w' (inds_of s')).
Proof.
  intros Hmt Hp H. apply evolve_ok in H. destruct H as (a1 & w1 & st & a2 & a3 & w3 & Ei & Et & Em & Ef).
  destruct (init_moo _ _ _ _ _ Hmt Hp Ei) as (M1 & s & P1 & Mo).
  apply terminate_ok in Et. destruct Et as (_ & best & ans & cs & _ & _ & -> & _).
  assert (Fin_ : forall a0 w0, nsga2_finish (a0, w0) = (Ok u, (a', w')) -> a' = a0 /\ w' = w0).
  { intros a0 w0 F. unfold nsga2_finish in F. mb F as x z E1. destruct z as [b0 v0]. apply show_best_ok in E1. destruct E1 as (-> & -> & _).
    mb F as b z E2. unfold algo_get in E2. injection E2 as <- <-. simpl in F. destruct (a_best_run a0); [|discriminate]. mb F as y z E2. destruct z as [b1 v1]. la E2.
    unfold ret in F. injection F as _ <- <-. split; [reflexivity|]. unfold pure_fitness in E2. mb E2 as i v2 E3. apply load_ok in E3. destruct E3 as [-> _].
    unfold lift in E2. injection E2 as _ <-. reflexivity. }
  apply Fin_ in Ef. destruct Ef as [-> ->].
  exists a1, w1, s. destruct st.
  - destruct Em as [-> ->]. exists s. split; [exact Ei|]. split; [exact P1|]. split; [exact P1|]. split; [reflexivity|]. intros _. apply reached_refl.
  - match type of Em with main_loop _ ?t ?g (?b, _) = _ => destruct (loop_moo t g b w1 a3 w3 s P1 M1 Mo Em) as (s' & P' & L' & _ & Re) end.
    exists s'. split; [exact Ei|]. split; [exact P1|]. split; [exact P'|]. split; [exact L'|exact Re].
Qed.
End MooRun.
