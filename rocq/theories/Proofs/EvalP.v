(** Proofs about evaluation of a population, and about the best, worst and average individual. *)
From Verif.Proofs Require Export BreedP.
From Verif.Spec Require Export EvoSpec.
From Verif.Model Require Import Tree World Evolution.
From Coq Require Import Lqa.
Open Scope nat_scope.

Lemma Forall2_imp {A B} (P Q : A -> B -> Prop) l m : (forall a b, P a b -> Q a b) -> Forall2 P l m -> Forall2 Q l m.
Proof. intros H. induction 1; constructor; auto. Qed.

(** ** The executor *)

Lemma result_of_in (ev : genome -> res fval) (gs : list genome) i g L : nth_error gs i = Some g -> In i L ->
  result_of i (flat_map (fun i => match nth_error gs i with Some g => [(i, ev g)] | None => [] end) L) = ev g.
Proof.
  intros Hg. induction L as [|j L IH]; simpl; [intros []|]. intros [->|Hi].
  - rewrite Hg. simpl. rewrite Nat.eqb_refl. reflexivity.
  - destruct (nth_error gs j) as [gj|] eqn:Ej; simpl; [|auto]. destruct (Nat.eqb_spec i j) as [->|]; [congruence|auto].
Qed.

Lemma fair_in sched n i : fair sched -> i < n -> In i (sched n).
Proof. intros F H. apply (Permutation_in _ (Permutation_sym (F n))). apply in_seq. lia. Qed.

Lemma fair_result ev sched gs i g : fair sched -> nth_error gs i = Some g ->
  result_of i (completed ev sched gs) = ev g.
Proof. intros F Hg. apply result_of_in; [exact Hg|]. apply fair_in; [exact F|]. apply nth_error_Some. congruence. Qed.

Lemma map_nth_seq {A} (f : nat -> A) (l : list A) : (forall i x, nth_error l i = Some x -> f i = x) ->
  map f (seq 0 (length l)) = l.
Proof.
  enough (G : forall k, (forall i x, nth_error l i = Some x -> f (k + i) = x) -> map f (seq k (length l)) = l) by (apply (G 0)).
  induction l as [|x l IH]; intros k H; simpl; [reflexivity|]. f_equal.
  - rewrite <- (Nat.add_0_r k). apply H. reflexivity.
  - apply IH. intros i y Hi. specialize (H (S i) y Hi). rewrite <- H. f_equal. lia.
Qed.

Lemma executor_map_fair ev sched gs : fair sched -> executor_map ev sched true gs = Ok (map ev gs).
Proof.
  intros F. unfold executor_map. destruct gs as [|g gs]; [reflexivity|]. f_equal. 
  rewrite <- (map_length ev). apply map_nth_seq.
  intros i x H. rewrite nth_error_map in H. destruct (nth_error (g :: gs) i) as [gi|] eqn:E; [|discriminate].
  injection H as <-. apply fair_result; assumption.
Qed.

Definition genome_at (w : world) (o : oid) (g : genome) : Prop := exists i, at_ w o = Some i /\ i_genome i = g.

Lemma load_genomes inds w : present inds w ->
  exists gs, mapM (fun o => i <- load o ;; ret (i_genome i)) inds w = (Ok gs, w) /\ Forall2 (genome_at w) inds gs.
Proof.
  induction inds as [|o inds IH]; intros H; simpl; [exists []; split; [reflexivity|constructor]|].
  destruct (H o) as (i & Hi); [left; reflexivity|]. destruct IH as (gs & E & F); [intros p Hp; apply H; right; exact Hp|].
  exists (i_genome i :: gs). split; [|constructor; [exists i; auto|exact F]].
  rewrite (bind_eq_ok _ _ _ (i_genome i) w); [|rewrite (bind_eq_ok _ _ _ _ _ (load_at _ _ _ Hi)); reflexivity].
  rewrite (bind_eq_ok _ _ _ _ _ E). reflexivity.
Qed.

Lemma load_genomes_ok inds w gs w' : mapM (fun o => i <- load o ;; ret (i_genome i)) inds w = (Ok gs, w') ->
  w' = w /\ present inds w /\ Forall2 (genome_at w) inds gs.
Proof.
  revert gs. induction inds as [|o inds IH]; intros gs H; simpl in H; [mr H; repeat split; [intros ? []|constructor]|].
  mb H as g w1 E. mb E as i w2 E1. apply load_ok in E1. destruct E1 as [-> Hi]. mr E. mb H as gs' w2 E. mr H.
  destruct (IH _ E) as (-> & P & F). split; [reflexivity|]. split; [intros p [<-|Hp]; eauto|]. constructor; [exists i; auto|exact F].
Qed.

(** ** Storing the results *)

Definition post (ev : genome -> res fval) (i : ind) : ind :=
  match ev (i_genome i) with Ok v => set_fit (with_value (i_fit i) v true) i | Raise _ => i end.

Lemma post_idem ev i : post ev (post ev i) = post ev i.
Proof. unfold post. destruct (ev (i_genome i)) eqn:E; simpl; rewrite E; reflexivity. Qed.


Lemma set_fitness_at w o i v : at_ w o = Some i -> is_simple_class (ft_class (i_fit i)) = true ->
  ind_set_fitness o v w = (Ok tt, put_at w o (set_fit (with_value (i_fit i) v true) i)).
Proof.
  intros H C. unfold ind_set_fitness. rewrite (bind_eq_ok _ _ _ _ _ (load_at _ _ _ H)).
  assert (E : set_fitness (i_fit i) v = (Ok tt, with_value (i_fit i) v true)).
  { unfold set_fitness. destruct (ft_class (i_fit i)); [reflexivity|reflexivity|discriminate]. }
  rewrite E. simpl. rewrite (bind_eq_ok _ _ _ _ _ (store_at _ _ _ _ H)). reflexivity.
Qed.

Lemma simple_put w o i j p : at_ w o = Some i -> ft_class (i_fit j) = ft_class (i_fit i) -> simple_at w p -> simple_at (put_at w o j) p.
Proof.
  intros H C (k & Hk & Sk). destruct (Nat.eq_dec o p) as [<-|Hn].
  - exists j. split; [eapply at_put_same; eauto|]. rewrite C. congruence.
  - exists k. rewrite at_put_other by exact Hn. auto.
Qed.

Lemma genome_put w o i j p g : at_ w o = Some i -> i_genome j = i_genome i -> genome_at w p g -> genome_at (put_at w o j) p g.
Proof.
  intros H C (k & Hk & Sk). destruct (Nat.eq_dec o p) as [<-|Hn].
  - exists j. split; [eapply at_put_same; eauto|]. rewrite C. congruence.
  - exists k. rewrite at_put_other by exact Hn. auto.
Qed.


Lemma assign_all ev inds : forall gs w, Forall2 (genome_at w) inds gs -> (forall o, In o inds -> simple_at w o) ->
  (forall g, In g gs -> exists v, ev g = Ok v) ->
  exists w', assign_results inds (map ev gs) w = (Ok tt, w') /\ same_but_heap w w' /\
    (forall p, In p inds -> at_ w' p = option_map (post ev) (at_ w p)) /\
    (forall p, ~ In p inds -> at_ w' p = at_ w p).
Proof.
  induction inds as [|o inds IH]; intros gs w F Hs Hv; inversion F as [|? g ? gs' Hg F']; subst; simpl.
  - exists w. repeat split; auto. intros p [].
  - destruct (Hv g) as (v & Ev); [left; reflexivity|]. rewrite Ev.
    destruct (Hs o) as (i & Hi & Ci); [left; reflexivity|]. destruct Hg as (i' & Hi' & Gi). rewrite Hi in Hi'. injection Hi' as <-.
    assert (Ep : post ev i = set_fit (with_value (i_fit i) v true) i) by (unfold post; rewrite Gi, Ev; reflexivity).
    set (w1 := put_at w o (post ev i)).
    assert (Kp : ft_class (i_fit (post ev i)) = ft_class (i_fit i)) by (rewrite Ep; reflexivity).
    assert (Kg : i_genome (post ev i) = i_genome i) by (rewrite Ep; reflexivity).
    destruct (IH gs' w1) as (w' & E & (N & Rg & L) & Hin & Hout).
    + eapply Forall2_imp; [|exact F']. intros p q. apply genome_put with i; assumption.
    + intros p Hp. apply simple_put with i; auto. apply Hs. right. exact Hp.
    + intros q Hq. apply Hv. right. exact Hq.
    + exists w'. split; [|split; [|split]].
      * unfold bind at 1, lift. rewrite (bind_eq_ok _ _ _ _ _ (set_fitness_at _ _ _ v Hi Ci)). rewrite <- Ep. exact E.
      * split; [exact N|]. split; [exact Rg|]. rewrite L. apply put_at_len.
      * assert (A1 : at_ w1 o = Some (post ev i)) by (eapply at_put_same; eauto).
        intros p Hp. destruct (in_dec Nat.eq_dec p inds) as [Hi2|Hi2].
        -- rewrite Hin by exact Hi2. destruct (Nat.eq_dec o p) as [<-|Hn].
           ++ rewrite A1, Hi. simpl. rewrite post_idem. reflexivity.
           ++ unfold w1. rewrite at_put_other by exact Hn. reflexivity.
        -- destruct Hp as [<-|Hp]; [|contradiction]. rewrite Hout by exact Hi2. rewrite A1, Hi. reflexivity.
      * intros p Hp. rewrite Hout by (intros Q; apply Hp; right; exact Q). apply at_put_other. intros ->. apply Hp. left. reflexivity.
Qed.

(** The first individual whose fitness function raises decides. *)
Lemma assign_raises ev pre : forall o rest gs w i e, Forall2 (genome_at w) (pre ++ o :: rest) gs -> (forall p, In p (pre ++ o :: rest) -> simple_at w p) ->
  (forall p g, In p pre -> genome_at w p g -> exists v, ev g = Ok v) -> at_ w o = Some i -> ev (i_genome i) = Raise e ->
  exists w', assign_results (pre ++ o :: rest) (map ev gs) w = (Raise e, w') /\ same_but_heap w w' /\
    (forall p, In p pre -> at_ w' p = option_map (post ev) (at_ w p)) /\
    (forall p, ~ In p pre -> at_ w' p = at_ w p).
Proof.
  induction pre as [|q pre IH]; intros o rest gs w i e F Hs Hv Hi Ei; inversion F as [|? g ? gs' Hg F']; subst; simpl.
  - destruct Hg as (i' & Hi' & Gi). rewrite Hi in Hi'. injection Hi' as <-. subst g. exists w. rewrite Ei. repeat split; auto. intros p [].
  - destruct (Hv q g) as (v & Ev); [left; reflexivity|exact Hg|]. rewrite Ev.
    destruct (Hs q) as (k & Hk & Ck); [left; reflexivity|]. destruct Hg as (k' & Hk' & Gk). rewrite Hk in Hk'. injection Hk' as <-.
    assert (Ep : post ev k = set_fit (with_value (i_fit k) v true) k) by (unfold post; rewrite Gk, Ev; reflexivity).
    set (w1 := put_at w q (post ev k)).
    assert (Kp : ft_class (i_fit (post ev k)) = ft_class (i_fit k)) by (rewrite Ep; reflexivity).
    assert (Kg : i_genome (post ev k) = i_genome k) by (rewrite Ep; reflexivity).
    assert (Hi1 : at_ w1 o = Some i).
    { unfold w1. destruct (Nat.eq_dec q o) as [<-|Hn]; [|rewrite at_put_other by exact Hn; exact Hi].
      rewrite Hk in Hi. injection Hi as <-. congruence. }
    destruct (IH o rest gs' w1 i e) as (w' & E & (N & Rg & L) & Hin & Hout); auto.
    + eapply Forall2_imp; [|exact F']. intros p p'. apply genome_put with k; assumption.
    + intros p Hp. apply simple_put with k; auto. apply Hs. right. exact Hp.
    + intros p g' Hp (j & Hj & Gj). destruct (Nat.eq_dec q p) as [<-|Hn].
      * unfold w1 in Hj. rewrite (at_put_same _ _ _ _ Hk) in Hj. injection Hj as <-. exists v. rewrite <- Gj, Kg, Gk. exact Ev.
      * unfold w1 in Hj. rewrite at_put_other in Hj by exact Hn. apply (Hv p); [right; exact Hp|]. exists j. auto.
    + exists w'. split; [|split; [|split]].
      * unfold bind at 1, lift. rewrite (bind_eq_ok _ _ _ _ _ (set_fitness_at _ _ _ v Hk Ck)). rewrite <- Ep. exact E.
      * split; [exact N|]. split; [exact Rg|]. rewrite L. apply put_at_len.
      * assert (A1 : at_ w1 q = Some (post ev k)) by (eapply at_put_same; eauto).
        intros p Hp. destruct (in_dec Nat.eq_dec p pre) as [Hi2|Hi2].
        -- rewrite Hin by exact Hi2. destruct (Nat.eq_dec q p) as [<-|Hn].
           ++ rewrite A1, Hk. simpl. rewrite post_idem. reflexivity.
           ++ unfold w1. rewrite at_put_other by exact Hn. reflexivity.
        -- destruct Hp as [<-|Hp]; [|contradiction]. rewrite Hout by exact Hi2. rewrite A1, Hk. reflexivity.
      * intros p Hp. rewrite Hout by (intros Q; apply Hp; right; exact Q). apply at_put_other. intros ->. apply Hp. left. reflexivity.
Qed.

(** ** Scores *)

Lemma scalar_simple w h o : scalar_at w h o -> simple_at w o.
Proof. intros (i & H & C & _). exists i. auto. Qed.

Lemma scalar_present w h l : (forall o, In o l -> scalar_at w h o) -> present l w.
Proof. intros H o Ho. destruct (H o Ho) as (i & Hi & _). eauto. Qed.

Lemma aug_number f size x h : scalar_fit h f -> get_pure_fitness f = Ok (VNum x) -> is_nan x = false ->
  exists a, scores f size a.
Proof.
  intros (C & _ & W) P N. unfold get_pure_fitness in P. destruct (ft_evaluated f) eqn:E; [|discriminate]. injection P as P.
  unfold scores, get_augmented_fitness, get_pure_fitness. rewrite E. simpl. rewrite P.
  destruct (ft_class f) as [|bw|]; [exists x; auto| |discriminate].
  destruct (neq_num bw (Fin 0)); [exists x; auto|].
  destruct bw as [q| | |]; try discriminate W.
  destruct (hib_truthy (ft_hib f)); eexists; (split; [reflexivity|]); (split; [reflexivity|]); (split; [reflexivity|]);
    destruct x; try discriminate N; reflexivity.
Qed.

Definition score_of (w : world) (o : oid) : num :=
  match at_ w o with
  | Some i => match get_augmented_fitness (i_fit i) (isize i) with Ok (VNum a) => a | _ => NaN end
  | None => NaN
  end.

Lemma scored_score w o a : scored w o a -> score_of w o = a.
Proof. intros (i & H & _ & _ & E & _). unfold score_of. rewrite H, E. reflexivity. Qed.

Lemma scored_at w h o ev : gives_numbers ev -> scalar_at w h o -> has_value ev w o -> scored w o (score_of w o) /\ oriented w h o.
Proof.
  intros G (i & Hi & S) (i' & v & Hi' & E & P). rewrite Hi in Hi'. injection Hi' as <-.
  destruct (G _ _ E) as (x & -> & N). destruct (aug_number _ (isize i) _ _ S P N) as (a & A).
  assert (Sc : scored w o a) by (exists i; auto). rewrite (scored_score _ _ _ Sc). split; [exact Sc|]. exists i. split; [exact Hi|apply S].
Qed.

(** ** Evaluation with [map] *)

Lemma all_or_first_raise (ev : genome -> res fval) (w : world) inds : present inds w ->
  (forall o i, In o inds -> at_ w o = Some i -> exists v, ev (i_genome i) = Ok v) \/
  exists pre o rest i e, inds = pre ++ o :: rest /\ at_ w o = Some i /\ ev (i_genome i) = Raise e /\
    forall p j, In p pre -> at_ w p = Some j -> exists v, ev (i_genome j) = Ok v.
Proof.
  induction inds as [|o inds IH]; intros H; [left; intros o i []|].
  destruct (H o) as (i & Hi); [left; reflexivity|]. destruct (ev (i_genome i)) as [v|e] eqn:E.
  - destruct IH as [A|(pre & p & rest & j & e & -> & Hj & Ej & A)]; [intros p Hp; apply H; right; exact Hp| |].
    + left. intros p j [<-|Hp] Hj; [|eauto]. rewrite Hi in Hj. injection Hj as <-. eauto.
    + right. exists (o :: pre), p, rest, j, e. split; [reflexivity|]. split; [exact Hj|]. split; [exact Ej|].
      intros q k [<-|Hq] Hk; [|eauto]. rewrite Hi in Hk. injection Hk as <-. eauto.
  - right. exists [], o, inds, i, e. repeat split; auto. intros p j [].
Qed.

Lemma simple_present w l : (forall o, In o l -> simple_at w o) -> present l w.
Proof. intros H o Ho. destruct (H o Ho) as (i & Hi & _). eauto. Qed.

Lemma Forall2_In_exists {A B} (P : A -> B -> Prop) l m y : Forall2 P l m -> In y m -> exists x, In x l /\ P x y.
Proof. induction 1 as [|a b l m Hab F IH]; intros []; [subst; exists a; simpl; auto|]. destruct IH as (x & Hx & Px); auto. exists x. simpl. auto. Qed.

(** All values are stored, in any completion order. *)
Lemma evaluate_stores ev sched inds w : fair sched -> (forall o, In o inds -> simple_at w o) ->
  (forall o i, In o inds -> at_ w o = Some i -> exists v, ev (i_genome i) = Ok v) ->
  exists w', same_but_heap w w' /\
    (forall o i, In o inds -> at_ w o = Some i -> exists j, at_ w' o = Some j /\ evaluated_into ev i j) /\
    (forall o, ~ In o inds -> at_ w' o = at_ w o) /\
    evaluate_inds ev sched ByMap true inds w = best_scan inds w'.
Proof.
  intros F Hs Hv. destruct (load_genomes inds w (simple_present _ _ Hs)) as (gs & E & G).
  destruct (assign_all ev inds gs w G Hs) as (w' & Ea & Sb & Hin & Hout).
  - intros g Hg. destruct (Forall2_In_exists _ _ _ _ G Hg) as (o & Ho & i & Hi & <-). eauto.
  - exists w'. split; [exact Sb|]. split; [|split; [exact Hout|]].
    + intros o i Ho Hi. exists (post ev i). rewrite (Hin o Ho), Hi. split; [reflexivity|].
      destruct (Hv o i Ho Hi) as (v & Ev). exists v. split; [exact Ev|]. unfold post. rewrite Ev. reflexivity.
    + unfold evaluate_inds. rewrite (bind_eq_ok _ _ _ _ _ E), (executor_map_fair ev sched gs F).
      unfold bind at 1, lift. rewrite (bind_eq_ok _ _ _ _ _ Ea). reflexivity.
Qed.

Lemma evaluated_has_value ev i j w' o : at_ w' o = Some j -> evaluated_into ev i j -> has_value ev w' o.
Proof. intros H (v & Ev & ->). exists (set_fit (with_value (i_fit i) v true) i), v. split; [exact H|]. split; [exact Ev|reflexivity]. Qed.

Lemma evaluated_scalar ev h i j : evaluated_into ev i j -> scalar_fit h (i_fit i) -> scalar_fit h (i_fit j).
Proof. intros (v & _ & ->) H. exact H. Qed.

(** C40 *)
Lemma evaluate_map ev sched inds w h : fair sched -> gives_numbers ev -> inds <> [] ->
  (forall o, In o inds -> scalar_at w h o) ->
  (forall o i, In o inds -> at_ w o = Some i -> exists v, ev (i_genome i) = Ok v) ->
  exists b w' score, evaluate_inds ev sched ByMap true inds w = (Ok b, w') /\ same_but_heap w w' /\
    (forall o i, In o inds -> at_ w o = Some i -> exists j, at_ w' o = Some j /\ evaluated_into ev i j) /\
    (forall o, ~ In o inds -> at_ w' o = at_ w o) /\
    (forall o, In o inds -> scored w' o (score o)) /\ first_best h score inds b.
Proof.
  intros F G Hn Hs Hv.
  destruct (evaluate_stores ev sched inds w F (fun o Ho => scalar_simple _ _ _ (Hs o Ho)) Hv) as (w' & Sb & Hin & Hout & E).
  assert (A : forall o, In o inds -> scored w' o (score_of w' o) /\ oriented w' h o).
  { intros o Ho. destruct (Hs o Ho) as (i & Hi & Si). destruct (Hin o i Ho Hi) as (j & Hj & Ej).
    apply scored_at with ev; [exact G| |eapply evaluated_has_value; eauto]. exists j. split; [exact Hj|]. eapply evaluated_scalar; eauto. }
  destruct (winner_first_best h (score_of w') w' inds Hn A) as (b & Eb & Fb).
  exists b, w', (score_of w'). rewrite E. split; [exact Eb|]. split; [exact Sb|]. split; [exact Hin|]. split; [exact Hout|].
  split; [intros o Ho; apply A; exact Ho|exact Fb].
Qed.

Lemma evaluate_raises ev sched pre o rest w i e : fair sched ->
  (forall p, In p (pre ++ o :: rest) -> simple_at w p) -> at_ w o = Some i -> ev (i_genome i) = Raise e ->
  (forall p j, In p pre -> at_ w p = Some j -> exists v, ev (i_genome j) = Ok v) ->
  exists w', evaluate_inds ev sched ByMap true (pre ++ o :: rest) w = (Raise e, w').
Proof.
  intros F Hs Hi Ei Hv. destruct (load_genomes _ w (simple_present _ _ Hs)) as (gs & E & G).
  destruct (assign_raises ev pre o rest gs w i e G Hs) as (w' & Ea & _); auto.
  - intros p g Hp (j & Hj & <-). eauto.
  - exists w'. unfold evaluate_inds. rewrite (bind_eq_ok _ _ _ _ _ E), (executor_map_fair ev sched gs F).
    unfold bind at 1, lift. rewrite (bind_eq_raise _ _ _ _ _ Ea). reflexivity.
Qed.

(** The schedule does not matter at all. *)
Lemma evaluate_any_schedule ev s1 s2 inds w : fair s1 -> fair s2 ->
  evaluate_inds ev s1 ByMap true inds w = evaluate_inds ev s2 ByMap true inds w.
Proof.
  intros F1 F2. apply bind_ext. intros gs w1. rewrite !executor_map_fair by assumption. reflexivity.
Qed.

(** From the outcome: a completed evaluation stored all values. *)
Lemma evaluate_ok ev sched inds w h b w' : fair sched -> gives_numbers ev ->
  (forall o, In o inds -> scalar_at w h o) -> evaluate_inds ev sched ByMap true inds w = (Ok b, w') ->
  inds <> [] /\ same_but_heap w w' /\
  (forall o i, In o inds -> at_ w o = Some i -> exists j, at_ w' o = Some j /\ evaluated_into ev i j) /\
  (forall o, ~ In o inds -> at_ w' o = at_ w o) /\
  exists score, (forall o, In o inds -> scored w' o (score o)) /\ first_best h score inds b.
Proof.
  intros F G Hs H. destruct (all_or_first_raise ev w inds (scalar_present _ _ _ Hs)) as [Hv|(pre & o & rest & i & e & -> & Hi & Ei & Hv)].
  - destruct inds as [|a inds].
    { destruct (evaluate_stores ev sched [] w F (fun o Ho => scalar_simple _ _ _ (Hs o Ho)) Hv) as (w1 & _ & _ & _ & E).
      rewrite E in H. discriminate. }
    split; [discriminate|].
    destruct (evaluate_map ev sched (a :: inds) w h F G) as (b' & w1 & score & E & Sb & Hin & Hout & Sc & Fb); auto; [discriminate|].
    rewrite H in E. injection E as <- <-. repeat (split; [assumption|]). exists score. auto.
  - destruct (evaluate_raises ev sched pre o rest w i e F) as (w1 & E); auto.
    + intros p Hp. eapply scalar_simple. apply Hs. exact Hp.
    + congruence.
Qed.

(** ** What fitness objects keep *)

Definition kinds (w w' : world) : Prop :=
  forall o i, at_ w o = Some i -> exists j, at_ w' o = Some j /\ fit_kind (i_fit i) (i_fit j).

Global Instance kinds_pre : PreOrder kinds.
Proof.
  split; [intros w o i H; exists i; split; [exact H|apply fit_kind_refl]|].
  intros a b c H1 H2 o i H. destruct (H1 o i H) as (j & Hj & K1). destruct (H2 o j Hj) as (k & Hk & K2).
  exists k. split; [exact Hk|]. eapply fit_kind_trans; eauto.
Qed.

Lemma kinds_ext w w' : ext w w' -> kinds w w'.
Proof. intros E o i H. exists i. split; [eapply ext_at; eauto|apply fit_kind_refl]. Qed.

Lemma kinds_rng w g : kinds w (mkWorld (w_heap w) (w_next_id w) g).
Proof. apply kinds_ext. apply ext_same. reflexivity. Qed.

Lemma kinds_put w o i j : True -> at_ w o = Some i -> kept w i j -> kinds w (put_at w o j).
Proof.
  intros _ H (_ & _ & _ & K & _) p k Hk. destruct (Nat.eq_dec o p) as [<-|Hn].
  - exists j. split; [eapply at_put_same; eauto|]. congruence.
  - exists k. rewrite at_put_other by exact Hn. split; [exact Hk|apply fit_kind_refl].
Qed.

Lemma kinds_clone o : steps kinds (clone o).
Proof.
  intros w. destruct (at_ w o) as [i|] eqn:E.
  - rewrite (clone_at _ _ _ E). simpl. apply kinds_ext. eexists. reflexivity.
  - unfold clone, bind, load. unfold at_ in E. rewrite E. reflexivity.
Qed.

Lemma kinds_apply op l : steps kinds (apply_operator op l).
Proof. apply (g_apply kinds (fun _ => True) kinds_rng kinds_clone kinds_put). apply all_true. Qed.

Lemma kinds_chunks op a : (forall l, steps kinds (op l)) -> forall fuel l, steps kinds (apply_chunks fuel op a l).
Proof.
  intros Ho fuel. induction fuel as [|fuel IH]; intros l; simpl; [apply (st_ret kinds)|].
  destruct l as [|x l]; [apply (st_ret kinds)|]. apply (st_bind kinds); [apply Ho|]. intros r.
  apply (st_bind kinds); [apply IH|]. intros; apply (st_ret kinds).
Qed.

Lemma kinds_operators ops l : steps kinds (apply_operators ops l).
Proof.
  apply (st_foldM kinds). intros cur op _. destruct (op_arity op =? 0); [apply (st_raise kinds)|].
  apply kinds_chunks. intros; apply kinds_apply.
Qed.

Lemma kinds_set_fitness o v : steps kinds (ind_set_fitness o v).
Proof. apply (g_set_fitness kinds (fun _ => True) kinds_put). exact I. Qed.

Lemma kinds_scalar w w' h o : kinds w w' -> scalar_at w h o -> scalar_at w' h o.
Proof.
  intros K (i & Hi & C & H & W). destruct (K o i Hi) as (j & Hj & Kc & _ & _ & Kh).
  exists j. split; [exact Hj|]. unfold scalar_fit. rewrite Kc, Kh by exact C. auto.
Qed.

Lemma kinds_simple w w' o : kinds w w' -> simple_at w o -> simple_at w' o.
Proof.
  intros K (i & Hi & C). destruct (K o i Hi) as (j & Hj & Kc & _). exists j. split; [exact Hj|]. rewrite Kc. exact C.
Qed.

(** ** Evaluation with [submit] *)

Lemma run_workers_kinds inds done : steps kinds (run_workers inds done).
Proof.
  apply (st_mapM kinds). intros [i r] _. simpl. destruct (nth_error inds i) as [o|]; [|apply (st_ret kinds)].
  apply (st_bind kinds); [|intros; apply (st_ret kinds)].
  unfold worker. destruct r as [v|e]; [|apply (st_ret kinds)]. intros w. pose proof (kinds_set_fitness o v w) as K.
  destruct (ind_set_fitness o v w). exact K.
Qed.

Lemma set_objects inds : forall w u w', (forall o, In o inds -> simple_at w o) ->
  iterM (fun o => ind_set_fitness o (VObj o)) inds w = (Ok u, w') ->
  (forall o, In o inds -> exists i, at_ w' o = Some i /\ is_simple_class (ft_class (i_fit i)) = true /\
     ft_evaluated (i_fit i) = true /\ ft_value (i_fit i) = VObj o) /\
  (forall o, ~ In o inds -> at_ w' o = at_ w o).
Proof.
  induction inds as [|o inds IH]; intros w u w' Hs H; simpl in H; [mr H; split; [intros o []|reflexivity]|].
  mb H as x w1 E. destruct (Hs o) as (i & Hi & Ci); [left; reflexivity|].
  rewrite (set_fitness_at _ _ _ (VObj o) Hi Ci) in E. injection E as _ <-.
  edestruct IH as [A B]; [|exact H|].
  - intros p Hp. apply simple_put with i; auto. apply Hs. right. exact Hp.
  - split.
    + intros p Hp. destruct (in_dec Nat.eq_dec p inds) as [Hi2|Hi2]; [auto|]. destruct Hp as [<-|Hp]; [|contradiction].
      rewrite B by exact Hi2. rewrite (at_put_same _ _ _ _ Hi). eexists. split; [reflexivity|]. auto.
    + intros p Hp. rewrite B by (intros Q; apply Hp; right; exact Q). apply at_put_other. intros ->. apply Hp. left. reflexivity.
Qed.

(** With two individuals or more the evaluation never succeeds; with one, the fitness is the individual itself. *)
Lemma submit_broken ev sched inds w b w' : (forall o, In o inds -> simple_at w o) ->
  evaluate_inds ev sched BySubmit true inds w = (Ok b, w') ->
  inds = [b] /\ exists i, at_ w' b = Some i /\ get_pure_fitness (i_fit i) = Ok (VObj b).
Proof.
  intros Hs H. unfold evaluate_inds in H. mb H as gs w1 E1. apply load_genomes_ok in E1. destruct E1 as (-> & _ & _).
  mb H as rs w2 E2. unfold lift in E2. injection E2 as _ <-. mb H as outs w3 E3. mb H as us w4 E4.
  unfold lift in E4. injection E4 as _ <-. mb H as u w5 E5.
  assert (K : kinds w w3) by (pose proof (run_workers_kinds inds (completed ev sched gs) w) as K; rewrite E3 in K; exact K).
  destruct (set_objects inds w3 u w5) as [A _]; [intros o Ho; eapply kinds_simple; eauto|exact E5|].
  destruct inds as [|a [|a2 inds]]; [discriminate| |].
  - simpl in H. mr H. split; [reflexivity|]. destruct (A b) as (i & Hi & _ & Ev & Vv); [left; reflexivity|].
    exists i. split; [exact Hi|]. unfold get_pure_fitness. rewrite Ev, Vv. reflexivity.
  - exfalso. unfold best_scan in H. cbn [foldM] in H. mb H as x w6 E6. mb E6 as r w7 E7.
    destruct (A a) as (i & Hi & Ci & Ei & Vi); [left; reflexivity|].
    destruct (A a2) as (j & Hj & Cj & Ej & Vj); [right; left; reflexivity|].
    unfold ind_better_than in E7. rewrite (bind_eq_ok _ _ _ _ _ (load_at _ _ _ Hj)), (bind_eq_ok _ _ _ _ _ (load_at _ _ _ Hi)) in E7.
    unfold liftR in E7.
    assert (N : exists e, better_than (i_fit j) (isize j) (i_fit i) (isize i) (w_rng w5) = (Raise e, w_rng w5)).
    { unfold better_than, simple_better_than, check_comparable, is_fitness_evaluated. rewrite Ci, Ei, Ej.
      unfold get_augmented_fitness, get_pure_fitness. rewrite Ei, Ej, Vi, Vj. unfold lift. simpl.
      destruct (ft_class (i_fit j)) as [|bw|]; [| |discriminate Cj];
        destruct (ft_relative (i_fit j)), (ft_relative (i_fit i)); simpl;
        try destruct (neq_num bw (Fin 0)); simpl; eauto;
        (destruct (ft_class (i_fit i)) as [|bw'|]; [| |discriminate Ci]); simpl;
        try destruct (neq_num bw' (Fin 0)); simpl; eauto;
        destruct (hib_truthy (ft_hib (i_fit j))); simpl; eauto. }
    destruct N as (e & N). rewrite N in E7. discriminate.
Qed.

(** A failing evaluation is noticed with "submit" as well. *)
Lemma submit_checks ev sched o w b w' : fair sched -> evaluate_inds ev sched BySubmit true [o] w = (Ok b, w') ->
  exists i v, at_ w o = Some i /\ ev (i_genome i) = Ok v.
Proof.
  intros F H. unfold evaluate_inds in H. mb H as gs w1 E1. apply load_genomes_ok in E1. destruct E1 as (-> & _ & G).
  inversion G as [|? g ? ? (i & Hi & Eg) G']; subst. inversion G'; subst.
  mb H as rs w2 E2. mb H as outs w3 E3. mb H as us w4 E4. exists i.
  unfold completed in E3. cbn [length] in E3. rewrite (Permutation_length_1_inv (Permutation_sym (F 1))) in E3. cbn in E3.
  destruct (ev (i_genome i)) as [v|e] eqn:Ev; [exists v; auto|].
  exfalso. unfold worker, bind, ret in E3. cbn in E3. injection E3 as <- <-.
  cbn in E4. unfold lift in E4. discriminate.
Qed.

(** C42: a dead executor *)
Lemma evaluate_dead ev sched m inds w : present inds w -> inds <> [] ->
  evaluate_inds ev sched m false inds w = (Raise RuntimeError, w).
Proof.
  intros P N. destruct (load_genomes inds w P) as (gs & E & F). unfold evaluate_inds. rewrite (bind_eq_ok _ _ _ _ _ E).
  destruct gs as [|g gs]; [inversion F; subst; congruence|]. reflexivity.
Qed.

(** ** Best and worst *)

Lemma sort_head h score l : (forall o : oid, In o l -> is_nan (score o) = false) -> l <> [] ->
  exists o r, sort_stable (fun a b => better_b h (score a) (score b)) l = o :: r /\ first_best h score l o.
Proof.
  induction l as [|x l IH]; intros Hn Hl; [congruence|]. clear Hl. simpl.
  destruct l as [|x2 l]; [exists x, []; split; [reflexivity|]; exists [], []; repeat split; intros p []|].
  destruct IH as (o & r & E & pre & pos & El & Hpre & Hpos); [intros p Hp; apply Hn; right; exact Hp|discriminate|].
  rewrite E. simpl. destruct (better_b h (score o) (score x)) eqn:B.
  - exists o, (insert_stable (fun a b => better_b h (score a) (score b)) x r). split; [reflexivity|].
    exists (x :: pre), pos. rewrite El. split; [reflexivity|]. split; [|exact Hpos].
    intros p [<-|Hp]; [apply better_b_iff; exact B|auto].
  - exists x, (o :: r). split; [reflexivity|]. exists [], (x2 :: l). split; [reflexivity|]. split; [intros p []|].
    intros p Hp. apply better_b_false in B.
    assert (No : ~ better_score h (score p) (score o)).
    { rewrite El in Hp. apply in_app_or in Hp. destruct Hp as [Hp|[<-|Hp]]; [|unfold better_score; destruct h; rewrite nlt_irrefl; discriminate|auto].
      specialize (Hpre p Hp). unfold better_score in *. intros C.
      assert (Np : is_nan (score p) = false) by (apply Hn; right; rewrite El; apply in_or_app; left; exact Hp).
      destruct h; pose proof (nlt_trans _ _ _ Hpre C) as Z; rewrite nlt_irrefl in Z; discriminate. }
    assert (Np : is_nan (score p) = false) by (apply Hn; right; exact Hp).
    assert (Nx : is_nan (score x) = false) by (apply Hn; left; reflexivity).
    assert (Noo : is_nan (score o) = false) by (apply Hn; right; rewrite El; apply in_or_app; right; left; reflexivity).
    unfold better_score in *. intros C. destruct h.
    + destruct (nlt (score o) (score p)) eqn:X; [congruence|]. destruct (nlt (score x) (score o)) eqn:Y; [congruence|].
      rewrite (nlt_negtrans (score x) (score o) (score p) Nx Noo Np Y X) in C. discriminate.
    + destruct (nlt (score p) (score o)) eqn:X; [congruence|]. destruct (nlt (score o) (score x)) eqn:Y; [congruence|].
      rewrite (nlt_negtrans (score p) (score o) (score x) Np Noo Nx X Y) in C. discriminate.
Qed.

Lemma first_best_unique h score l a b : first_best h score l a -> first_best h score l b -> a = b.
Proof.
  intros (p & q & -> & Hp & Hq) (p' & q' & E & Hp' & Hq').
  revert p' E Hp'. induction p as [|x p IH]; intros [|x' p'] E Hp'; simpl in E; injection E as E1 E2.
  - congruence.
  - subst x'. exfalso. apply (Hq b); [rewrite E2; apply in_or_app; right; left; reflexivity|]. apply Hp'. left. reflexivity.
  - subst x. exfalso. apply (Hq' a); [rewrite <- E2; apply in_or_app; right; left; reflexivity|]. apply Hp. left. reflexivity.
  - subst x'. apply IH with p'; auto.
    + intros r Hr. apply Hp. right. exact Hr.
    + intros r Hr. apply Hp'. right. exact Hr.
Qed.

Lemma best_individual s w h score : sp_hib s = HB h -> inds_of s <> [] -> (forall o, In o (inds_of s) -> scored w o (score o)) ->
  exists o, get_best_individual s w = (Ok o, w) /\ first_best h score (inds_of s) o.
Proof.
  intros Hh Hn Hs. destruct (sort_head h score (inds_of s)) as (o & r & E & F); [intros o Ho; eapply scored_not_nan; eauto|exact Hn|].
  exists o. split; [|exact F]. unfold get_best_individual. rewrite Hh. simpl. unfold bind at 1, lift.
  rewrite (bind_eq_ok _ _ _ _ _ (sorted_scored h _ w score Hs)). rewrite E. reflexivity.
Qed.

Lemma worst_individual s w score : inds_of s <> [] -> (forall o, In o (inds_of s) -> scored w o (score o)) ->
  exists o, get_worst_individual s w = (Ok o, w) /\ first_best (negb (hib_truthy (sp_hib s))) score (inds_of s) o.
Proof.
  intros Hn Hs. set (h := negb (hib_truthy (sp_hib s))).
  destruct (sort_head h score (inds_of s)) as (o & r & E & F); [intros o Ho; eapply scored_not_nan; eauto|exact Hn|].
  exists o. split; [|exact F]. unfold get_worst_individual. fold h.
  rewrite (bind_eq_ok _ _ _ _ _ (sorted_scored h _ w score Hs)). rewrite E. reflexivity.
Qed.

(** ** Average *)

Lemma nsum_fin (q : oid -> Q) l : forall acc, exists s, fold_left nadd (map (fun o => Fin (q o)) l) (Fin acc) = Fin s /\
  (forall lo, (forall o, In o l -> lo <= q o) -> acc + lo * inject_Z (Z.of_nat (length l)) <= s)%Q /\
  (forall hi, (forall o, In o l -> q o <= hi) -> s <= acc + hi * inject_Z (Z.of_nat (length l)))%Q /\
  (s == acc + fold_right (fun o x => q o + x) 0 l)%Q.
Proof.
  induction l as [|a l IH]; intros acc; simpl.
  - exists acc. split; [reflexivity|]. repeat split; intros; unfold inject_Z; lra.
  - destruct (IH (acc + q a)%Q) as (s & E & L & H & T). exists s. split; [exact E|].
    assert (Z1 : (inject_Z (Z.of_nat (S (length l))) == 1 + inject_Z (Z.of_nat (length l)))%Q).
    { rewrite Nat2Z.inj_succ. unfold Z.succ. rewrite inject_Z_plus. unfold inject_Z at 2. lra. }
    split; [|split].
    + intros lo Hl. specialize (L lo (fun o Ho => Hl o (or_intror Ho))). specialize (Hl a (or_introl eq_refl)).
      change (Z.pos (Pos.of_succ_nat (length l))) with (Z.of_nat (S (length l))). rewrite Z1. lra.
    + intros hi Hh. specialize (H hi (fun o Ho => Hh o (or_intror Ho))). specialize (Hh a (or_introl eq_refl)).
      change (Z.pos (Pos.of_succ_nat (length l))) with (Z.of_nat (S (length l))). rewrite Z1. lra.
    + rewrite T. lra.
Qed.

Lemma pure_value w o i v : at_ w o = Some i -> get_pure_fitness (i_fit i) = Ok v -> pure_fitness o w = (Ok v, w).
Proof. intros H E. unfold pure_fitness. rewrite (bind_eq_ok _ _ _ _ _ (load_at _ _ _ H)). rewrite E. reflexivity. Qed.

Lemma average_fitness s w (q : oid -> Q) : inds_of s <> [] ->
  (forall o, In o (inds_of s) -> exists i, at_ w o = Some i /\ get_pure_fitness (i_fit i) = Ok (VNum (Fin (q o)))) ->
  exists a, get_average_fitness s w = (Ok (Fin a), w) /\
    (a * inject_Z (Z.of_nat (length (inds_of s))) == fold_right (fun o x => q o + x) 0 (inds_of s))%Q /\
    (forall lo, (forall o, In o (inds_of s) -> lo <= q o) -> lo <= a)%Q /\
    (forall hi, (forall o, In o (inds_of s) -> q o <= hi) -> a <= hi)%Q.
Proof.
  intros Hn Hq. set (l := inds_of s) in *. destruct (nsum_fin q l 0) as (t & E & L & H & T).
  assert (Z0 : (0 < inject_Z (Z.of_nat (length l)))%Q).
  { destruct l; [congruence|]. unfold inject_Z, Qlt. simpl. lia. }
  exists (t / inject_Z (Z.of_nat (length l)))%Q. split; [|split; [|split]].
  - unfold get_average_fitness. fold l.
    assert (Em : mapM pure_fitness l w = (Ok (map (fun o => VNum (Fin (q o))) l), w)).
    { apply mapM_pure. intros o Ho. destruct (Hq o Ho) as (i & Hi & Pi). eapply pure_value; eauto. }
    rewrite (bind_eq_ok _ _ _ _ _ Em).
    assert (Er : rmap as_num (map (fun o => VNum (Fin (q o))) l) = Ok (map (fun o => Fin (q o)) l)).
    { clear. induction l as [|x l IH]; simpl; [reflexivity|]. rewrite IH. reflexivity. }
    rewrite Er. unfold bind, lift, nsum. rewrite E, map_length. destruct l as [|x l']; [congruence|]. simpl map.
    unfold nof_nat, ndiv. destruct (Qeq_bool _ 0) eqn:Z; [|reflexivity]. apply Qeq_bool_eq in Z. lra.
  - rewrite T. field. lra.
  - intros lo Hl. apply Qle_shift_div_l; [exact Z0|]. specialize (L lo Hl). lra.
  - intros hi Hh. apply Qle_shift_div_r; [exact Z0|]. specialize (H hi Hh). lra.
Qed.
