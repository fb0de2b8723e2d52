(** * A configured run completes. *)
From Coq Require Import Lia Permutation QArith.
From Verif.Proofs Require Export OnceP EvoFinalP ShowP.
From Verif.Model Require Import Tree World Evolution.
From Verif.Spec Require Export CompleteSpec ShowSpec.
Open Scope nat_scope.
Open Scope list_scope.

(** ** Genomes of a class *)

Lemma genomes_frame (X : oid -> Prop) G l w w' : frame X w w' -> (forall o, In o l -> ~ X o) -> genomes_in G l w -> genomes_in G l w'.
Proof.
  intros [_ F] D H o Ho. destruct (H o Ho) as (i & A & Gi). exists i. split; [|exact Gi].
  rewrite F; [exact A|eapply at_lt; eauto|auto].
Qed.

Lemma genomes_gkeep G l w w' : gkeep w w' -> genomes_in G l w -> genomes_in G l w'.
Proof.
  intros K H o Ho. destruct (H o Ho) as (i & A & Gi). destruct (K o i A) as (j & B & E). exists j. split; [exact B|].
  rewrite E. exact Gi.
Qed.

Lemma genomes_app G l m w : genomes_in G l w -> genomes_in G m w -> genomes_in G (l ++ m) w.
Proof. intros H K o Ho. apply in_app_iff in Ho as [Ho|Ho]; auto. Qed.

Lemma genomes_incl G l m w : incl m l -> genomes_in G l w -> genomes_in G m w.
Proof. intros I H o Ho. auto. Qed.

Lemma genomes_present G l w : genomes_in G l w -> present l w.
Proof. intros H o Ho. destruct (H o Ho) as (i & A & _). eauto. Qed.

Lemma copies_genomes G name l w cs w' : copies name l w cs w' -> genomes_in G l w -> genomes_in G cs w'.
Proof.
  intros (-> & js & Hh & F) H c Hc. apply in_seq in Hc.
  destruct (nth_error_ex l (c - length (w_heap w))) as (o & Ho); [lia|].
  pose proof (Forall2_len _ _ _ F) as Hl.
  destruct (nth_error_ex js (c - length (w_heap w))) as (j & Hj); [lia|].
  destruct (Forall2_nth _ _ _ _ _ _ F Ho Hj) as (i & A & C).
  destruct (H o (nth_error_In _ _ Ho)) as (i' & A' & Gi). rewrite A in A'. injection A' as <-.
  exists j. split; [|rewrite (co_genome _ _ _ C); exact Gi].
  unfold at_. rewrite Hh, nth_error_app2 by lia. exact Hj.
Qed.

(** ** Operators *)

Lemma chunks_total G op : closed_operator G op -> op_arity op <> 0 -> forall fuel l w, length l <= fuel ->
  Nat.divide (op_arity op) (length l) -> NoDup l -> genomes_in G l w ->
  exists w', apply_chunks fuel (apply_operator op) (op_arity op) l w = (Ok l, w') /\ genomes_in G l w'.
Proof.
  intros C Na fuel. induction fuel as [|fuel IH]; intros l w Hf Hd Hn Hg.
  - destruct l; [|simpl in Hf; lia]. exists w. split; [reflexivity|exact Hg].
  - destruct l as [|x l0]; [exists w; split; [reflexivity|exact Hg]|].
    cbn [apply_chunks]. remember (x :: l0) as l eqn:El.
    assert (Hlen : op_arity op <= length l) by (apply Nat.divide_pos_le; [subst; simpl; lia|exact Hd]).
    rewrite <- (firstn_skipn (op_arity op) l) in Hn, Hg.
    assert (Dis : forall o, In o (firstn (op_arity op) l) -> ~ In o (skipn (op_arity op) l)).
    { intros o H1 H2. revert Hn H1 H2. generalize (firstn (op_arity op) l) (skipn (op_arity op) l). intros u v Hn.
      induction u as [|y u IHu]; simpl; [tauto|]. simpl in Hn. apply NoDup_cons_iff in Hn as [Ny Hn]. intros [->|K1] K2.
      - apply Ny. apply in_app_iff. auto.
      - apply IHu; auto. }
    destruct (C (firstn (op_arity op) l) w) as (w1 & E1 & G1).
    { apply firstn_length_le. exact Hlen. }
    { apply NoDup_app_l in Hn. exact Hn. }
    { eapply genomes_incl; [|exact Hg]. intros o Ho. apply in_app_iff. auto. }
    assert (F1 : frame (fun o => In o (firstn (op_arity op) l)) w w1).
    { pose proof (fr_apply (fun o => In o (firstn (op_arity op) l)) op (firstn (op_arity op) l)) as F.
      specialize (F ltac:(apply Forall_forall; auto) w). rewrite E1 in F. exact F. }
    destruct (IH (skipn (op_arity op) l) w1) as (w2 & E2 & G2).
    { rewrite skipn_length. clear - Hf Na. lia. }
    { rewrite skipn_length. apply Nat.divide_sub_r; [exact Hd|apply Nat.divide_refl]. }
    { clear - Hn. revert Hn. generalize (firstn (op_arity op) l). intros u. induction u; simpl; [auto|]. intros H. inversion H; auto. }
    { apply (genomes_frame _ _ _ _ _ F1).
      - intros o Ho Hx. exact (Dis o Hx Ho).
      - eapply genomes_incl; [|exact Hg]. intros o Ho. apply in_app_iff. auto. }
    assert (F2 : frame (fun o => In o (skipn (op_arity op) l)) w1 w2).
    { pose proof (fr_chunks (fun o => In o (skipn (op_arity op) l)) (apply_operator op) (op_arity op)
        (fun l Hl => fr_apply _ op l Hl) fuel (skipn (op_arity op) l)) as F.
      specialize (F ltac:(apply Forall_forall; auto) w1). rewrite E2 in F. exact F. }
    exists w2. rewrite (bind_eq_ok _ _ _ _ _ E1). rewrite (bind_eq_ok _ _ _ _ _ E2). unfold ret.
    rewrite firstn_skipn. split; [reflexivity|].
    rewrite <- (firstn_skipn (op_arity op) l). apply genomes_app; [|exact G2].
    apply (genomes_frame _ _ _ _ _ F2); [exact Dis|exact G1].
Qed.

Lemma operators_total G ops : Forall (closed_operator G) ops -> forall l w,
  (forall op, In op ops -> op_arity op <> 0 /\ Nat.divide (op_arity op) (length l)) -> NoDup l -> genomes_in G l w ->
  exists w', apply_operators ops l w = (Ok l, w') /\ genomes_in G l w'.
Proof.
  intros F. induction F as [|op ops C F IH]; intros l w Ha Hn Hg; [exists w; split; [reflexivity|exact Hg]|].
  destruct (Ha op (or_introl eq_refl)) as [Na Hd].
  destruct (chunks_total G op C Na (length l) l w) as (w1 & E1 & G1); auto.
  destruct (IH l w1) as (w2 & E2 & G2); auto; [intros; apply Ha; right; assumption|].
  exists w2. split; [|exact G2]. unfold apply_operators. cbn [foldM].
  rewrite (proj2 (Nat.eqb_neq _ _) Na). rewrite (bind_eq_ok _ _ _ _ _ E1). exact E2.
Qed.

(** ** Breeding *)

Lemma arities_check n l : (forall a, In a l -> a <> 0 /\ Nat.divide a n) -> check_arities n l = Ok tt.
Proof.
  induction l as [|a l IH]; intros H; [reflexivity|]. cbn [check_arities].
  destruct (H a (or_introl eq_refl)) as [Na Hd]. rewrite (proj2 (Nat.eqb_neq _ _) Na).
  apply Nat.mod_divide in Hd; [|exact Na]. rewrite Hd. cbn [Nat.eqb]. apply IH. intros; apply H; right; assumption.
Qed.

Lemma ext_frame w w' : ext w w' -> frame none w w'.
Proof. apply frame_ext. Qed.

(** The part of breeding before the operators are applied. *)
Definition selecting (s : subpop) : M (list oid) :=
  lift (check_arities (sp_size s) (map sel_arity (sp_sels s) ++ map op_arity (sp_ops s))) ;;;
  elites <- (if 0 <? sp_n_elite s
             then rev <- lift (rev_flag (sp_hib s)) ;; elitism_select (sp_n_elite s) rev (inds_of s) []
             else ret []) ;;
  match sp_sels s with
  | [] => raise IndexError
  | sel :: _ => select sel (inds_of s) elites
  end.

Lemma breed_selecting s w : breed [s] w = (sd <- selecting s ;; nx <- apply_operators (sp_ops s) sd ;; ret [with_inds s nx]) w.
Proof.
  unfold breed. cbn [mapM]. unfold breed_subpop, selecting. rewrite !bind_assoc. apply bind_ext. intros u w1.
  rewrite !bind_assoc. apply bind_ext. intros ec w2. destruct (sp_sels s) as [|sel sels]; [reflexivity|].
  rewrite !bind_assoc. apply bind_ext. intros sd w3. rewrite !bind_assoc. apply bind_ext. intros nx w4. reflexivity.
Qed.

Lemma selecting_total G h s l w score : sp_inds s = Some l -> sp_hib s = HB h -> length l = sp_size s -> 1 <= sp_size s ->
  (forall n, In n (map sel_arity (sp_sels s) ++ map op_arity (sp_ops s)) -> n <> 0 /\ Nat.divide n (sp_size s)) ->
  (exists sel sels, sp_sels s = sel :: sels /\ tournament_for (sp_size s) sel) -> genomes_in G l w ->
  (forall o, In o l -> scored w o (score o) /\ oriented w h o) ->
  exists sd w', selecting s w = (Ok sd, w') /\ NoDup sd /\ length sd = sp_size s /\ genomes_in G sd w'.
Proof.
  intros Hl Hh Hlen H1 Har (sel & sels & Hs & Ht) Hg Hsc. destruct sel as [k rep a|]; [|contradiction].
  destruct Ht as (Hk & Hrep & ->).
  assert (E : exists ec w1, (if 0 <? sp_n_elite s then rev <- lift (rev_flag (sp_hib s)) ;; elitism_select (sp_n_elite s) rev (inds_of s) [] else ret []) w
      = (Ok ec, w1) /\ ext w w1 /\ length ec <= length l /\ genomes_in G ec w1 /\ NoDup ec /\ (forall o, In o ec -> o < length (w_heap w1))).
  { unfold inds_of. rewrite Hl, Hh. destruct (0 <? sp_n_elite s).
    - destruct (elitism_best (sp_n_elite s) h l [] w score (fun o Ho => proj1 (Hsc o Ho)))
        as (ch & rest & cs & w1 & E1 & C1 & P1 & L1 & _).
      exists cs, w1. split; [exact E1|]. pose proof (copies_ext _ _ _ _ _ C1) as X. split; [exact X|].
      split; [rewrite (copies_len _ _ _ _ _ C1); lia|]. split.
      { eapply copies_genomes; [exact C1|]. eapply genomes_incl; [|exact Hg]. intros o Ho.
        eapply Permutation_in; [symmetry; exact P1|]. apply in_app_iff. auto. }
      split; [destruct C1 as [-> _]; apply seq_NoDup|].
      intros o Ho. pose proof (copies_fresh _ _ _ _ _ _ C1 Ho). lia.
    - exists [], w. split; [reflexivity|]. split; [exists []; rewrite app_nil_r; reflexivity|]. split; [simpl; lia|].
      split; [intros o []|]. split; [constructor|intros o []]. }
  destruct E as (ec & w1 & E1 & X1 & L1 & G1 & N1 & B1).
  destruct (tournament_spec k rep 1 l ec w1 h score) as (tours & winners & cs & w2 & E2 & L2 & D2 & W2 & C2); auto.
  { intros ->. simpl in Hlen. lia. }
  { intros ->. rewrite Hlen. auto. }
  { intros o Ho. destruct (Hsc o Ho) as [A B]. split; [eapply ext_scored; eauto|eapply ext_oriented; eauto]. }
  assert (Hw : incl winners l).
  { intros o Ho. destruct (In_nth_error _ _ Ho) as (i & Hi). pose proof (Forall2_len _ _ _ W2) as Hll.
    destruct (nth_error_ex tours i) as (t & Hti); [rewrite Hll; eapply nth_error_lt; eauto|].
    pose proof (Forall2_nth _ _ _ _ _ _ W2 Hti Hi) as (pre & post0 & Et & _).
    rewrite Forall_forall in D2. destruct (D2 t (nth_error_In _ _ Hti)) as (_ & Inc & _). apply Inc. rewrite Et.
    apply in_app_iff. simpl. auto. }
  assert (Lall : length (ec ++ cs) = sp_size s).
  { rewrite app_length, (copies_len _ _ _ _ _ C2), <- (Forall2_len _ _ _ W2), L2, Nat.div_1_r. lia. }
  exists (ec ++ cs), w2. split; [|split; [|split; [exact Lall|]]].
  - unfold selecting. rewrite (arities_check _ _ Har). erewrite bind_eq_ok; [|reflexivity]. rewrite (bind_eq_ok _ _ _ _ _ E1). rewrite Hs.
    unfold inds_of; rewrite Hl; exact E2.
  - apply NoDup_app_intro; [exact N1|destruct C2 as [-> _]; apply seq_NoDup|].
    intros o Ho Hc. pose proof (B1 o Ho). pose proof (copies_fresh _ _ _ _ _ _ C2 Hc). unfold oid in *. lia.
  - apply genomes_app.
    + eapply genomes_frame; [apply frame_ext; eapply copies_ext; exact C2|intros o _ []|exact G1].
    + eapply copies_genomes; [exact C2|]. eapply genomes_incl; [exact Hw|].
      eapply genomes_frame; [apply frame_ext; exact X1|intros o _ []|exact Hg].
Qed.

Lemma breed_total G h s l w score : sp_inds s = Some l -> sp_hib s = HB h -> length l = sp_size s -> 1 <= sp_size s ->
  (forall n, In n (map sel_arity (sp_sels s) ++ map op_arity (sp_ops s)) -> n <> 0 /\ Nat.divide n (sp_size s)) ->
  (exists sel sels, sp_sels s = sel :: sels /\ tournament_for (sp_size s) sel) ->
  Forall (closed_operator G) (sp_ops s) -> genomes_in G l w ->
  (forall o, In o l -> scored w o (score o) /\ oriented w h o) ->
  exists l' w', breed [s] w = (Ok [with_inds s l'], w') /\ length l' = sp_size s /\ genomes_in G l' w'.
Proof.
  intros Hl Hh Hlen H1 Har Hsel Hop Hg Hsc.
  destruct (selecting_total G h s l w score Hl Hh Hlen H1 Har Hsel Hg Hsc) as (sd & w2 & E2 & N2 & L2 & G2).
  destruct (operators_total G (sp_ops s) Hop sd w2) as (w3 & E3 & G3); [|exact N2|exact G2|].
  { intros op Ho. rewrite L2. apply Har. apply in_app_iff. right. apply in_map. exact Ho. }
  exists sd, w3. split; [|split; [exact L2|exact G3]].
  rewrite breed_selecting, (bind_eq_ok _ _ _ _ _ E2), (bind_eq_ok _ _ _ _ _ E3). reflexivity.
Qed.

(** ** Creation *)

Lemma pick_weighted_total {A} (l : list A) : l <> [] -> forall ws acc x, exists a, pick_weighted l ws acc x = Some a.
Proof.
  induction l as [|a l IH]; intros N ws acc x; [congruence|]. destruct l as [|b l]; [exists a; reflexivity|].
  destruct ws as [|c ws]; [exists a; reflexivity|]. cbn [pick_weighted]. destruct (nlt _ _); [exists a; reflexivity|].
  apply IH. discriminate.
Qed.

Lemma choices_weighted_total {A} (l : list A) ws q g : length l = length ws -> nsum ws = Fin q -> (0 < q)%Q ->
  exists a g', choices_weighted l ws g = (Ok a, g').
Proof.
  intros Hl Hs Hq. unfold choices_weighted. rewrite Hl, Nat.eqb_refl. cbn [negb].
  assert (Nl : l <> []).
  { intros ->. destruct ws; [|discriminate]. injection Hs as <-. discriminate. }
  rewrite <- Hl. destruct (length l =? 0) eqn:E0; [destruct l; [congruence|discriminate]|]. rewrite Hs.
  assert (En : nle (Fin q) (Fin 0) = false).
  { rewrite nle_not_lt by reflexivity. cbn [nlt]. rewrite (proj2 (Qlt_b_spec 0 q) Hq). reflexivity. }
  rewrite En. cbn [is_fin negb].
  destruct (random_unit g) as [[u|e] g1] eqn:Eu; [|cbv in Eu; discriminate].
  rewrite (bind_eq_ok _ _ _ _ _ Eu). destruct (pick_weighted_total l Nl ws (Fin 0) (nmul u (Fin q))) as (a & ->).
  exists a, g1. reflexivity.
Qed.

Lemma with_inds_same s l : sp_inds s = Some l -> with_inds s l = s.
Proof. destruct s. simpl. intros ->. reflexivity. Qed.

Lemma scalar_kinds w w' h l : kinds w w' -> (forall o, In o l -> scalar_at w h o) -> forall o, In o l -> scalar_at w' h o.
Proof. intros K H o Ho. eapply kinds_scalar; eauto. Qed.

Lemma liftR_frame {X} (m : R X) w : frame none w (snd (liftR m w)).
Proof. apply fr_liftR. Qed.

Lemma frame_at w w' o i : frame none w w' -> at_ w o = Some i -> at_ w' o = Some i.
Proof. intros [_ F] A. rewrite F; [exact A|eapply at_lt; eauto|intros []]. Qed.

Lemma frame_scalar w w' h o : frame none w w' -> scalar_at w h o -> scalar_at w' h o.
Proof. intros F (i & A & S). exists i. split; [eapply frame_at; eauto|exact S]. Qed.

Lemma create_total G h a w s : configured h a w s -> closed_under G w s ->
  exists l w', mapM create_subpopulation [s] (snd (liftR (set_seed (a_random_seed a)) w)) = (Ok [with_inds s l], w') /\
    length l = sp_size s /\ genomes_in G l w' /\ forall o, In o l -> scalar_at w' h o.
Proof.
  intros C [Hop Hc]. pose proof (liftR_frame (set_seed (a_random_seed a)) w) as F.
  set (w1 := snd (liftR (set_seed (a_random_seed a)) w)) in *.
  pose proof (cf_inds _ _ _ _ C) as Hi.
  assert (E : exists l w', create_subpopulation s w1 = (Ok (with_inds s l), w') /\ length l = sp_size s /\ genomes_in G l w' /\
     forall o, In o l -> scalar_at w' h o).
  { unfold create_subpopulation. destruct (sp_inds s) as [l|] eqn:El.
    - destruct Hi as [Hlen Hsc]. exists l, w1. rewrite (with_inds_same s l El). split; [reflexivity|]. split; [exact Hlen|].
      split; [eapply genomes_frame; [exact F|intros o _ []|exact Hc]|]. intros o Ho. eapply frame_scalar; eauto.
    - destruct Hi as (Hl & (q & Hq & Hpos) & Hsc).
      destruct (choices_weighted_total (sp_creators s) (sp_pcr s) q (w_rng w1) Hl Hq Hpos) as (c & g' & Ec).
      pose proof (choices_weighted_In _ _ _ _ _ Ec) as Hin.
      rewrite (bind_eq_ok _ _ _ _ _ (liftR_eq _ _ _ _ Ec)).
      destruct (Hc c Hin (mkWorld (w_heap w1) (w_next_id w1) g')) as (l & w2 & E2 & G2).
      exists l, w2. rewrite (bind_eq_ok _ _ _ _ _ E2). split; [reflexivity|].
      split; [apply (create_present _ _ _ _ _ _ E2)|]. split; [exact G2|].
      refine (create_scalar _ _ _ h _ _ _ (Hsc c Hin) _ E2). rewrite (cf_hib _ _ _ _ C). reflexivity. }
  destruct E as (l & w' & E & K). exists l, w'. split; [|exact K].
  cbn [mapM]. rewrite (bind_eq_ok _ _ _ _ _ E). reflexivity.
Qed.

(** ** Evaluation *)

Lemma eval_total G ev sched h s l w : gives_numbers ev -> total_on G ev -> fair sched -> l <> [] -> genomes_in G l w ->
  (forall o, In o l -> scalar_at w h o) ->
  exists b w', evaluate_population ev sched ByMap true [with_inds s l] w = (Ok b, w') /\ In b l /\ gkeep w w' /\
    (forall o, ~ In o l -> at_ w' o = at_ w o) /\ (forall o, In o l -> scalar_at w' h o /\ has_value ev w' o).
Proof.
  intros Hnum Ht Hf Nl Hg Hsc. destruct (evaluate_map ev sched l w h Hf Hnum Nl Hsc) as (b & w' & score & E & _ & Ei & Eo & Es & Fb).
  { intros o i Ho A. destruct (Hg o Ho) as (i' & A' & Gi). rewrite A in A'. injection A' as <-. apply Ht. exact Gi. }
  exists b, w'. split; [exact E|]. split; [destruct Fb as (pre & post0 & -> & _); apply in_app_iff; simpl; auto|].
  split; [|split; [exact Eo|]].
  - intros o i A. destruct (in_dec Nat.eq_dec o l) as [Ho|Ho].
    + destruct (Ei o i Ho A) as (j & B & v & Ev & ->). exists (set_fit (with_value (i_fit i) v true) i). split; [exact B|reflexivity].
    + exists i. split; [rewrite Eo; assumption|reflexivity].
  - intros o Ho. destruct (Hsc o Ho) as (i & A & S). destruct (Ei o i Ho A) as (j & B & Ej). split.
    + exists j. split; [exact B|eapply evaluated_scalar; eauto].
    + eapply evaluated_has_value; eauto.
Qed.

(** ** Termination checkers *)

Lemma value_pure ev w o : gives_numbers ev -> has_value ev w o -> exists x, pure_fitness o w = (Ok (VNum x), w).
Proof.
  intros Hn (i & v & A & E & P). destruct (Hn _ _ E) as (x & -> & _). exists x. eapply pure_value; eauto.
Qed.

Lemma close_total cur best : Forall (fun v => exists x, v = VNum x) cur -> Forall (fun v => exists x, v = VNum x) best ->
  exists bs, close_values cur best = Ok bs.
Proof.
  unfold close_values. intros Hc. revert best. induction Hc as [|v cur (x & ->) Hc IH]; intros best Hb; [exists []; reflexivity|].
  destruct Hb as [|u best (y & ->) Hb]; [exists []; reflexivity|]. destruct (IH best Hb) as (bs & E).
  exists (isclose x y :: bs). simpl combine. cbn [rmap]. cbn [fst snd as_num rbind]. rewrite E. reflexivity.
Qed.

Lemma checker_total ev h s best gen c w : gives_numbers ev -> calm c -> sp_hib s = HB h -> inds_of s <> [] ->
  (forall o, In o (inds_of s) -> scalar_at w h o /\ has_value ev w o) -> has_value ev w best ->
  exists b c', run_checker [s] best gen c w = (Ok (b, c'), w) /\ calm c'.
Proof.
  intros Hn Hc Hh Ni Hi Hb. destruct c as [opt th|limit st count|f stored]; cbn [run_checker].
  - destruct (value_pure ev w best Hn Hb) as (x & E). rewrite (bind_eq_ok _ _ _ _ _ E). unfold threshold_met. cbn [as_num rbind].
    eexists _, _. split; [reflexivity|exact I].
  - destruct (best_individual s w h (score_of w) Hh Ni) as (o & E & Fb).
    { intros o Ho. destruct (Hi o Ho). eapply scored_at; eauto. }
    assert (Ho : In o (inds_of s)) by (destruct Fb as (pre & post0 & -> & _); apply in_app_iff; simpl; auto).
    destruct (value_pure ev w o Hn (proj2 (Hi o Ho))) as (x & Ex).
    assert (E1 : mapM get_best_individual [s] w = (Ok [o], w)) by (cbn [mapM]; rewrite (bind_eq_ok _ _ _ _ _ E); reflexivity).
    assert (E2 : mapM pure_fitness [o] w = (Ok [VNum x], w)) by (cbn [mapM]; rewrite (bind_eq_ok _ _ _ _ _ Ex); reflexivity).
    rewrite (bind_eq_ok _ _ _ _ _ E1), (bind_eq_ok _ _ _ _ _ E2). unfold stagnation_step.
    assert (Hx : Forall (fun v => exists y, v = VNum y) [VNum x]) by (constructor; eauto).
    assert (Es : exists same, match st with None => Ok false | Some [] => Ok false
        | Some b => rbind (close_values [VNum x] b) (fun bs => Ok (forallb (fun x => x) bs)) end = Ok same).
    { destruct st as [[|v0 b0]|]; try (eexists; reflexivity).
      destruct (close_total [VNum x] (v0 :: b0) Hx (Hc _ eq_refl)) as (bs & ->). eexists; reflexivity. }
    destruct Es as (same & ->). cbn [rbind]. destruct same; eexists _, _; (split; [reflexivity|]); cbn [calm].
    + exact Hc.
    + intros l E3. injection E3 as <-. exact Hx.
  - destruct (Hc stored [s] (w_heap w) best gen) as (b & m & E).
    + destruct Hb as (i & v & A & _ & P). exists i, v. auto.
    + cbn [flat_map]. rewrite app_nil_r. intros o Ho. destruct (Hi o Ho) as (_ & i & v & A & _ & P). exists i, v. auto.
    + unfold bind, get, lift, ret. rewrite E. exists b, (CkUser f m). split; [reflexivity|exact Hc].
Qed.

Lemma checkers_total ev h s best gen w : gives_numbers ev -> sp_hib s = HB h -> inds_of s <> [] ->
  (forall o, In o (inds_of s) -> scalar_at w h o /\ has_value ev w o) -> has_value ev w best -> forall cs, Forall calm cs ->
  exists bs cs', run_checkers [s] best gen cs w = (Ok (bs, cs'), w) /\ Forall calm cs'.
Proof.
  intros Hn Hh Ni Hi Hb cs F.
  assert (E : exists rs, mapM (run_checker [s] best gen) cs w = (Ok rs, w) /\ Forall calm (map snd rs)).
  { induction F as [|c cs Hc F IH]; [exists []; split; [reflexivity|constructor]|]. destruct IH as (rs & E & K).
    destruct (checker_total ev h s best gen c w Hn Hc Hh Ni Hi Hb) as (b & c' & Eb & Kb).
    exists ((b, c') :: rs). cbn [mapM]. rewrite (bind_eq_ok _ _ _ _ _ Eb), (bind_eq_ok _ _ _ _ _ E).
    split; [reflexivity|]. constructor; assumption. }
  destruct E as (rs & E & K). exists (map fst rs), (map snd rs). unfold run_checkers. rewrite (bind_eq_ok _ _ _ _ _ E).
  split; [reflexivity|exact K].
Qed.

(** ** The run *)

Section Run.
  Variables (G : genome -> Prop) (ev : genome -> res fval) (sched : nat -> list nat) (h : bool) (s : subpop).
  Hypothesis (Hnum : gives_numbers ev) (Htot : total_on G ev) (Hfair : fair sched).
  Hypothesis (Hhib : sp_hib s = HB h) (Hsize : 1 <= sp_size s).
  Hypothesis Har : forall n, In n (map sel_arity (sp_sels s) ++ map op_arity (sp_ops s)) -> n <> 0 /\ Nat.divide n (sp_size s).
  Hypothesis Hsel : exists sel sels, sp_sels s = sel :: sels /\ tournament_for (sp_size s) sel.
  Hypothesis Hop : Forall (closed_operator G) (sp_ops s).

  Record going (a : algo) (w : world) : Prop := {
    go_pop : exists l, a_pop a = [with_inds s l] /\ length l = sp_size s /\ genomes_in G l w /\
               forall o, In o l -> scalar_at w h o /\ has_value ev w o;
    go_best : exists b, a_best_run a = Some b /\ scalar_at w h b /\ has_value ev w b /\ genomes_in G [b] w;
    go_check : Forall calm (a_checkers a);
    go_method : a_method a = ByMap;
    go_alive : a_alive a = true;
    go_evals : forall l, In l (evals (a_trace a)) -> length l = sp_size s /\ genomes_in G l w
  }.

  Lemma nonempty (l : list oid) : length l = sp_size s -> l <> [].
  Proof. intros Hl ->. simpl in Hl. lia. Qed.

  (** The state after a step that changes neither the population nor what matters about the individuals. *)
  Lemma regen_gkeep w w' : regen w w' -> gkeep w w'.
  Proof. intros R o i A. destruct (R o i A) as (n & B). exists (set_gen n i). split; [exact B|reflexivity]. Qed.
  Lemma regen_scalar w w' o : regen w w' -> scalar_at w h o -> scalar_at w' h o.
  Proof. intros R (i & A & S). destruct (R o i A) as (n & B). exists (set_gen n i). split; [exact B|exact S]. Qed.
  Lemma regen_value w w' o : regen w w' -> has_value ev w o -> has_value ev w' o.
  Proof. intros R (i & v & A & E & P). destruct (R o i A) as (n & B). exists (set_gen n i), v. auto. Qed.

  Lemma going_skip a a' w w' : a_pop a' = a_pop a -> a_best_run a' = a_best_run a -> a_checkers a' = a_checkers a ->
    a_method a' = a_method a -> a_alive a' = a_alive a -> evals (a_trace a') = evals (a_trace a) -> regen w w' -> going a w -> going a' w'.
  Proof.
    intros E1 E2 E3 E4 E5 E6 R [(l & P1 & P2 & P3 & P4) (b & B1 & B2 & B3 & B4) C M AL EV]. constructor.
    - exists l. rewrite E1. split; [exact P1|]. split; [exact P2|]. split; [eapply genomes_gkeep; [apply regen_gkeep; exact R|exact P3]|].
      intros o Ho. destruct (P4 o Ho). split; [eapply regen_scalar; eauto|eapply regen_value; eauto].
    - exists b. rewrite E2. split; [exact B1|]. split; [eapply regen_scalar; eauto|]. split; [eapply regen_value; eauto|].
      eapply genomes_gkeep; [apply regen_gkeep; exact R|exact B4].
    - rewrite E3. exact C.
    - rewrite E4. exact M.
    - rewrite E5. exact AL.
    - rewrite E6. intros l' Hl'. destruct (EV l' Hl') as [K1 K2]. split; [exact K1|].
      eapply genomes_gkeep; [apply regen_gkeep; exact R|exact K2].
  Qed.

  Lemma regen_refl w : regen w w.
  Proof. intros o i A. exists (i_gen i). rewrite set_gen_same. exact A. Qed.

  Lemma going_publish nm a w : going a w -> exists a', publish nm (a, w) = (Ok tt, (a', w)) /\ going a' w.
  Proof.
    intros H. rewrite publish_eq. eexists. split; [reflexivity|]. eapply going_skip; [..|apply regen_refl|exact H]; try reflexivity.
    cbn [a_trace add_trace]. rewrite evals_app. cbn [evals flat_map app]. apply app_nil_r.
  Qed.

  Lemma going_terminate a w : going a w -> exists st a', should_terminate (a, w) = (Ok st, (a', w)) /\ going a' w.
  Proof.
    intros H. destruct (go_pop _ _ H) as (l & P1 & P2 & P3 & P4). destruct (go_best _ _ H) as (b & B1 & B2 & B3 & B4).
    destruct (checkers_total ev h (with_inds s l) b (a_gen_num a) w Hnum Hhib (nonempty l P2) P4 B3 _ (go_check _ _ H))
      as (bs & cs & E & K).
    unfold should_terminate. erewrite bind_eq_ok; [|reflexivity]. cbn [fst]. rewrite B1.
    erewrite bind_eq_ok; [|unfold liftM; cbn [fst snd]; rewrite P1, E; reflexivity].
    eexists _, _. split; [reflexivity|]. cbn [fst snd]. constructor.
    - exists l. auto.
    - exists b. auto.
    - exact K.
    - exact (go_method _ _ H).
    - exact (go_alive _ _ H).
    - cbn [a_trace add_trace set_checkers]. rewrite evals_app. cbn [evals flat_map app]. rewrite app_nil_r. exact (go_evals _ _ H).
  Qed.

  Lemma going_bred a w l' w1 : going a w -> breed (a_pop a) w = (Ok [with_inds s l'], w1) -> length l' = sp_size s -> genomes_in G l' w1 ->
    exists a' w', generation_iteration ev sched (a, w) = (Ok tt, (a', w')) /\ going a' w' /\
      evals (a_trace a') = evals (a_trace a) ++ [l'] /\ gkeep w w' /\ gkeep w1 w' /\ a_gen_seed a' = a_gen_seed a.
  Proof.
    intros H E1 L1 G1. destruct (go_pop _ _ H) as (l & P1 & P2 & P3 & P4). destruct (go_best _ _ H) as (r & B1 & B2 & B3 & B4).
    rewrite P1 in E1.
    destruct (breed_scalar (with_inds s l) w _ w1 h (fun o Ho => proj1 (P4 o Ho)) E1) as (s' & Es & F1 & S1).
    injection Es as <-. change (inds_of (with_inds s l')) with l' in S1.
    destruct (eval_total G ev sched h s l' w1 Hnum Htot Hfair (nonempty l' L1) G1 (fun o Ho => proj1 (S1 o Ho)))
      as (best & w2 & E2 & Ib & K2 & O2 & V2).
    assert (Nr : ~ In r l').
    { intros Hr. destruct B2 as (i & A & _). apply at_lt in A. pose proof (proj2 (S1 r Hr)). unfold oid in *. lia. }
    assert (Ar : at_ w2 r = at_ w r).
    { rewrite (O2 r Nr). destruct B2 as (i & A & _). rewrite A. eapply frame_at; eauto. }
    assert (Sr : scalar_at w2 h r) by (destruct B2 as (i & A & S); exists i; rewrite Ar; auto).
    assert (Vr : has_value ev w2 r) by (destruct B3 as (i & v & A & S); exists i, v; rewrite Ar; auto).
    assert (Eb : exists b, ind_better_than best r w2 = (Ok b, w2)).
    { destruct (V2 best Ib) as [Sb Vb]. destruct (scored_at w2 h best ev Hnum Sb Vb) as [Sb' Ob].
      destruct (scored_at w2 h r ev Hnum Sr Vr) as [Sr' _]. eexists. eapply better_scored; eauto. }
    destruct Eb as (b & Eb).
    destruct (worst_individual (with_inds s l') w2 (score_of w2) (nonempty l' L1)) as (worst & Ew & _).
    { intros o Ho. destruct (V2 o Ho). eapply scored_at; eauto. }
    assert (Kall : gkeep w w2).
    { intros o i A. destruct (K2 o i (frame_at _ _ _ _ F1 A)) as (j & B & E). eauto. }
    assert (Ev : evals (a_trace (after_breeding [with_inds s l'] best b worst a)) = evals (a_trace a) ++ [l']).
    { destruct b; cbn; rewrite !evals_app; cbn; rewrite ?app_nil_r; reflexivity. }
    exists (after_breeding [with_inds s l'] best b worst a), w2. split; [|split; [|split; [exact Ev|split; [exact Kall|split; [exact K2|destruct b; reflexivity]]]]].
    - unfold generation_iteration. erewrite bind_eq_ok; [|reflexivity]. cbn [fst].
      erewrite bind_eq_ok; [|unfold liftM; cbn [fst snd]; rewrite P1, E1; reflexivity].
      erewrite bind_eq_ok; [|reflexivity]. erewrite bind_eq_ok; [|reflexivity].
      erewrite bind_eq_ok.
      2:{ unfold act_evaluator. erewrite bind_eq_ok; [|reflexivity]. cbn [fst snd].
          erewrite bind_eq_ok; [|unfold liftM; cbn [fst snd a_method a_alive a_pop set_pop add_trace];
            rewrite (go_method _ _ H), (go_alive _ _ H), E2; reflexivity].
          reflexivity. }
      erewrite bind_eq_ok; [|reflexivity]. erewrite bind_eq_ok; [|reflexivity]. cbn [fst snd a_best_run set_best_gen add_trace set_pop].
      rewrite B1. erewrite bind_eq_ok; [|unfold liftM; cbn [fst snd]; rewrite Eb; reflexivity].
      destruct b.
      + erewrite bind_eq_ok; [|reflexivity]. cbn [fst snd a_pop set_best_gen add_trace set_pop set_best_run].
        erewrite bind_eq_ok; [|unfold liftM; cbn [fst snd]; rewrite Ew; reflexivity]. reflexivity.
      + erewrite bind_eq_ok; [|reflexivity]. cbn [fst snd a_pop set_best_gen add_trace set_pop set_best_run].
        erewrite bind_eq_ok; [|unfold liftM; cbn [fst snd]; rewrite Ew; reflexivity]. reflexivity.
    - constructor.
      + exists l'. split; [destruct b; reflexivity|]. split; [exact L1|]. split; [exact (genomes_gkeep _ _ _ _ K2 G1)|exact V2].
      + destruct b.
        * exists best. split; [reflexivity|]. split; [apply (V2 best Ib)|]. split; [apply (V2 best Ib)|].
          intros o [<-|[]]. exact (genomes_gkeep _ _ _ _ K2 G1 best Ib).
        * exists r. split; [exact B1|]. split; [exact Sr|]. split; [exact Vr|]. exact (genomes_gkeep _ _ _ _ Kall B4).
      + destruct b; exact (go_check _ _ H).
      + destruct b; exact (go_method _ _ H).
      + destruct b; exact (go_alive _ _ H).
      + intros m Hm. rewrite Ev in Hm. apply in_app_iff in Hm as [Hm|[<-|[]]].
        * destruct (go_evals _ _ H m Hm) as [Q1 Q2]. split; [exact Q1|exact (genomes_gkeep _ _ _ _ Kall Q2)].
        * split; [exact L1|exact (genomes_gkeep _ _ _ _ K2 G1)].
  Qed.

  Lemma going_iteration a w : going a w -> exists a' w', generation_iteration ev sched (a, w) = (Ok tt, (a', w')) /\ going a' w'.
  Proof.
    intros H. destruct (go_pop _ _ H) as (l & P1 & P2 & P3 & P4).
    destruct (breed_total G h (with_inds s l) l w (score_of w)) as (l' & w1 & E1 & L1 & G1); auto.
    { intros o Ho. destruct (P4 o Ho). eapply scored_at; eauto. }
    change (with_inds (with_inds s l) l') with (with_inds s l') in E1. change (sp_size (with_inds s l)) with (sp_size s) in L1.
    rewrite <- P1 in E1. destruct (going_bred a w l' w1 H E1 L1 G1) as (a' & w' & E & H' & _). eauto.
  Qed.

  Lemma iter_gen n l : forall w, present l w -> exists w', iterM (fun o => modify o (set_gen n)) l w = (Ok tt, w') /\ regen w w'.
  Proof.
    induction l as [|o l IH]; intros w Hp; [exists w; split; [reflexivity|apply regen_refl]|].
    destruct (Hp o (or_introl eq_refl)) as (i & A). pose proof (modify_at o (set_gen n) w i A) as E.
    pose proof (regen_set o n w) as R1. rewrite E in R1. cbn [snd] in R1.
    destruct (IH (put_at w o (set_gen n i))) as (w' & E' & R2).
    { intros p Hp'. destruct (Hp p (or_intror Hp')) as (j & B). destruct (R1 p j B) as (m & C). eauto. }
    exists w'. cbn [iterM]. rewrite (bind_eq_ok _ _ _ _ _ E). split; [exact E'|]. etransitivity; eauto.
  Qed.

  Lemma going_body g a w : going a w -> exists st a' w', body (generation_iteration ev sched) g (a, w) = (Ok st, (a', w')) /\ going a' w'.
  Proof.
    intros H. destruct (go_pop _ _ H) as (l & P1 & P2 & P3 & P4).
    destruct (iter_gen g l w (genomes_present _ _ _ P3)) as (w1 & E1 & R1).
    set (z := next_seed (a_gen_seed a)).
    set (w2 := snd (liftR (set_seed z) w1)).
    set (a2 := set_gen_seed z (add_trace (TSeed z) (set_gen_num g a))).
    assert (H2 : going a2 w2).
    { eapply going_skip; [..|exact H]; try reflexivity.
      - cbn. rewrite evals_app. cbn. apply app_nil_r.
      - etransitivity; [exact R1|]. apply regen_frame. apply liftR_frame. }
    destruct (going_iteration a2 w2 H2) as (a3 & w3 & E3 & H3).
    destruct (going_terminate a3 w3 H3) as (st & a4 & E4 & H4).
    exists st, a4, w3. split; [|exact H4]. unfold body.
    erewrite bind_eq_ok; [|reflexivity]. cbn [fst snd].
    erewrite bind_eq_ok.
    2:{ unfold update_gen. erewrite bind_eq_ok; [|reflexivity]. cbn [fst snd a_pop set_gen_num]. rewrite P1.
        cbn [flat_map]. rewrite app_nil_r. unfold liftM. cbn [fst snd]. change (inds_of (with_inds s l)) with l. rewrite E1. reflexivity. }
    erewrite bind_eq_ok; [|reflexivity]. cbn [fst snd a_gen_seed set_gen_num]. fold z.
    erewrite bind_eq_ok.
    2:{ unfold seed_generators. erewrite bind_eq_ok; [|unfold liftM; cbn [fst snd]; reflexivity]. reflexivity. }
    erewrite bind_eq_ok; [|reflexivity]. cbn [fst snd]. erewrite bind_eq_ok; [|exact E3]. exact E4.
  Qed.

  Lemma going_loop todo : forall g a w, going a w ->
    exists a' w', main_loop (generation_iteration ev sched) todo g (a, w) = (Ok tt, (a', w')) /\ going a' w'.
  Proof.
    induction todo as [|todo IH]; intros g a w H; [exists a, w; split; [reflexivity|exact H]|].
    destruct (going_body g a w H) as (st & a1 & w1 & E1 & H1). rewrite main_loop_body, (bind_eq_ok _ _ _ _ _ E1).
    destruct st.
    - destruct (going_publish "after_generation" (set_final (Some g) a1) w1) as (a2 & E2 & H2).
      { eapply going_skip; [..|apply regen_refl|exact H1]; reflexivity. }
      exists a2, w1. split; [|exact H2]. erewrite bind_eq_ok; [|reflexivity]. exact E2.
    - destruct (going_publish "after_generation" a1 w1 H1) as (a2 & E2 & H2).
      destruct (IH (S g) a2 w1 H2) as (a3 & w3 & E3 & H3).
      exists a3, w3. split; [|exact H3]. rewrite (bind_eq_ok _ _ _ _ _ E2). exact E3.
  Qed.
End Run.

Lemma init_going G ev sched h s n a w : gives_numbers ev -> total_on G ev -> fair sched -> a_trace a = [] ->
  configured h a w s -> closed_under G w s ->
  exists a1 w2 l, initialize ev sched n (a, w) = (Ok tt, (a1, w2)) /\ going G ev h s a1 w2 /\ a_pop a1 = [with_inds s l] /\
    evals (a_trace a1) = [l] /\ a_stats a1 = a_stats (add_stats n a) /\ a_gen_num a1 = a_gen_num a /\ a_final a1 = a_final a.
Proof.
  intros Hnum Htot Hfair Htr C K. pose proof (cf_hib _ _ _ _ C) as Hhib. pose proof (cf_size _ _ _ _ C) as Hsize.
  pose proof (cf_arities _ _ _ _ C) as Har. pose proof (cf_sel _ _ _ _ C) as Hsel. pose proof (proj1 K) as Hop.
  destruct (create_total G h a w s C K) as (l & w1 & E1 & L1 & G1 & S1).
  destruct (eval_total G ev sched h s l w1 Hnum Htot Hfair (nonempty s Hsize l L1) G1 S1) as (b & w2 & E2 & Ib & K2 & O2 & V2).
  set (a1 := add_stats n (add_trace (TPublish "init" (a_gen_num a) (Some b) (at_ w2 b))
           (set_best_run (Some b) (add_trace (TEval l) (set_pop [with_inds s l] (add_trace (TSeed (a_random_seed a)) a)))))).
  assert (Ei : initialize ev sched n (a, w) = (Ok tt, (a1, w2))).
  { unfold initialize. erewrite bind_eq_ok; [|reflexivity]. cbn [fst].
    erewrite bind_eq_ok.
    2:{ unfold seed_generators. erewrite bind_eq_ok; [|unfold liftM; cbn [fst snd]; reflexivity]. reflexivity. }
    rewrite (cf_pop _ _ _ _ C). erewrite bind_eq_ok.
    2:{ unfold liftM. cbn [fst snd]. match goal with |- context [mapM _ _ ?x] => change x with (snd (liftR (set_seed (a_random_seed a)) w)) end.
        rewrite E1. reflexivity. }
    erewrite bind_eq_ok; [|reflexivity]. cbn [fst snd].
    erewrite bind_eq_ok.
    2:{ unfold act_evaluator. erewrite bind_eq_ok; [|reflexivity]. cbn [fst snd].
        erewrite bind_eq_ok; [|unfold liftM; cbn [fst snd a_method a_alive a_pop set_pop add_trace];
          rewrite (cf_method _ _ _ _ C), (cf_alive _ _ _ _ C), E2; reflexivity].
        reflexivity. }
    erewrite bind_eq_ok; [|reflexivity]. cbn [fst snd]. rewrite (bind_eq_ok _ _ _ _ _ (publish_eq _ _ _)).
    unfold algo_mod. cbn [fst snd]. unfold a1. cbn [a_gen_num a_best_run set_best_run add_trace set_pop a_pop].
    cbn [flat_map]. change (inds_of (with_inds s l)) with l. rewrite app_nil_r. reflexivity. }
  assert (H1 : going G ev h s a1 w2).
  { constructor.
    - exists l. split; [reflexivity|]. split; [exact L1|]. split; [exact (genomes_gkeep _ _ _ _ K2 G1)|exact V2].
    - exists b. split; [reflexivity|]. split; [apply (V2 b Ib)|]. split; [apply (V2 b Ib)|].
      intros o [<-|[]]. exact (genomes_gkeep _ _ _ _ K2 G1 b Ib).
    - exact (cf_checkers _ _ _ _ C).
    - exact (cf_method _ _ _ _ C).
    - exact (cf_alive _ _ _ _ C).
    - intros m Hm. unfold a1 in Hm. cbn in Hm. rewrite Htr in Hm. cbn in Hm. destruct Hm as [<-|[]].
      split; [exact L1|exact (genomes_gkeep _ _ _ _ K2 G1)]. }
  exists a1, w2, l. split; [exact Ei|]. split; [exact H1|]. split; [reflexivity|].
  split; [unfold a1; cbn; rewrite Htr; reflexivity|]. split; [reflexivity|]. split; reflexivity.
Qed.

Lemma run_ends G ev sched h s n a w : gives_numbers ev -> total_on G ev -> fair sched -> a_trace a = [] ->
  configured h a w s -> closed_under G w s ->
  exists a' w' b i, a_best_run a' = Some b /\ at_ w' b = Some i /\ G (i_genome i) /\
    evolve ev sched n (a, w) = (show i, (a', w')) /\
    forall l, In l (evals (a_trace a')) -> length l = sp_size s /\ genomes_in G l w'.
Proof.
  intros Hnum Htot Hfair Htr C K. pose proof (cf_hib _ _ _ _ C) as Hhib. pose proof (cf_size _ _ _ _ C) as Hsize.
  pose proof (cf_arities _ _ _ _ C) as Har. pose proof (cf_sel _ _ _ _ C) as Hsel. pose proof (proj1 K) as Hop.
  destruct (init_going G ev sched h s n a w Hnum Htot Hfair Htr C K) as (a1 & w2 & l & Ei & H1 & _).
  destruct (going_terminate G ev h s Hnum Hhib Hsize a1 w2 H1) as (st & a2 & E3 & H2).
  assert (E4 : exists a3 w3, (if st then algo_mod (set_final (Some 0)) ;;; publish "after_generation"
       else a <- algo_get ;; main_loop (generation_iteration ev sched) (a_max_gen a) 1) (a2, w2) = (Ok tt, (a3, w3)) /\ going G ev h s a3 w3).
  { destruct st.
    - destruct (going_publish G ev h s "after_generation" (set_final (Some 0) a2) w2) as (a3 & E4 & H3).
      { eapply going_skip; [..|apply regen_refl|exact H2]; reflexivity. }
      exists a3, w2. split; [|exact H3]. erewrite bind_eq_ok; [|reflexivity]. exact E4.
    - destruct (going_loop G ev sched h s Hnum Htot Hfair Hhib Hsize Har Hsel Hop (a_max_gen a2) 1 a2 w2 H2) as (a3 & w3 & E4 & H3).
      exists a3, w3. split; [|exact H3]. erewrite bind_eq_ok; [|reflexivity]. exact E4. }
  destruct E4 as (a3 & w3 & E4 & H3).
  destruct (going_publish G ev h s "evolution_finished" a3 w3 H3) as (a4 & E5 & H4).
  destruct (go_best _ _ _ _ _ _ H4) as (b' & B & _ & _ & Gb). destruct (Gb b' (or_introl eq_refl)) as (i & A & Gi).
  exists (set_alive false a4), w3, b', i. split; [exact B|]. split; [exact A|]. split; [exact Gi|].
  split; [|exact (go_evals _ _ _ _ _ _ H4)].
  unfold evolve, evolve_with. rewrite (bind_eq_ok _ _ _ _ _ Ei), (bind_eq_ok _ _ _ _ _ E3), (bind_eq_ok _ _ _ _ _ E4), (bind_eq_ok _ _ _ _ _ E5).
  unfold finish. erewrite bind_eq_ok; [|reflexivity]. unfold show_best. erewrite bind_eq_ok; [|reflexivity]. cbn [fst snd a_best_run set_alive].
  rewrite B. erewrite bind_eq_ok; [|unfold liftM; cbn [fst snd]; rewrite (load_at _ _ _ A); reflexivity]. reflexivity.
Qed.

Lemma run_completes G ev sched h s n a w : gives_numbers ev -> total_on G ev -> fair sched -> a_trace a = [] ->
  configured h a w s -> closed_under G w s -> (forall g, G g -> printable g) ->
  exists a' w', evolve ev sched n (a, w) = (Ok tt, (a', w')) /\
    forall l, In l (evals (a_trace a')) -> length l = sp_size s /\ genomes_in G l w'.
Proof.
  intros Hn Ht Hf Htr C K P. destruct (run_ends G ev sched h s n a w Hn Ht Hf Htr C K) as (a' & w' & b & i & _ & _ & Gi & E & V).
  exists a', w'. rewrite (show_printable i (P _ Gi)) in E. auto.
Qed.
