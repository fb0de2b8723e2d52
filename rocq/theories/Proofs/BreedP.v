(** Proofs about breeding. *)
From Verif.Proofs Require Export SelP IndP VecOpP.
Open Scope nat_scope.

Definition none (_ : oid) : Prop := False.

Lemma frame_ext w w' : ext w w' -> frame none w w'.
Proof.
  intros [js E]. split; [rewrite E, app_length; lia|]. intros o Ho _. unfold at_. rewrite E, nth_error_app1 by assumption. reflexivity.
Qed.

Lemma frame_present X w w' l : frame X w w' -> present l w -> present l w'.
Proof.
  intros [L F] H o Ho. destruct (H o Ho) as (i & Hi). apply at_lt in Hi.
  destruct (nth_error (w_heap w') o) as [j|] eqn:E; [exists j; exact E|]. apply nth_error_None in E. lia.
Qed.

Lemma fr_clone_selected X name o : steps (frame X) (clone_selected name o).
Proof.
  intros w. apply (frame_weaken none); [intros ? []|].
  destruct (clone_selected name o w) as [[c|e] w'] eqn:E; simpl.
  - apply clone_selected_ok in E. destruct E as (i & j & _ & _ & Hj & _). apply frame_ext. exists [j]. exact Hj.
  - pose proof (clone_selected_raise _ _ _ _ _ E) as N. unfold clone_selected, clone, bind, load in E. unfold at_ in N. rewrite N in E.
    injection E as _ <-. reflexivity.
Qed.

Lemma fr_rng X w g : frame X w (mkWorld (w_heap w) (w_next_id w) g).
Proof. split; [simpl; lia|]. reflexivity. Qed.

Lemma fr_put' (X : oid -> Prop) w o i j : X o -> at_ w o = Some i -> kept w i j -> frame X w (put_at w o j).
Proof. intros H _ _. apply frame_put. exact H. Qed.

Lemma fr_elitism X n rev src dest : steps (frame X) (elitism_select n rev src dest).
Proof. apply g_elitism; [exact _|apply fr_clone_selected]. Qed.

Lemma fr_select X s src dest : steps (frame X) (select s src dest).
Proof. apply g_select; [exact _|apply fr_rng|apply fr_clone_selected]. Qed.

Lemma fr_apply (X : oid -> Prop) op l : Forall X l -> steps (frame X) (apply_operator op l).
Proof. apply g_apply; [exact _|apply fr_rng|apply fr_clone|apply fr_put']. Qed.

(** ** The operator sequence *)

Lemma chunks_same op a : 1 <= a -> (forall l w r w', op l w = (Ok r, w') -> r = l) ->
  forall fuel l w r w', length l <= fuel -> apply_chunks fuel op a l w = (Ok r, w') -> r = l.
Proof.
  intros Ha Ho fuel. induction fuel as [|fuel IH]; intros l w r w' Hl H; simpl in H; [mr H; reflexivity|].
  destruct l as [|x l]; [mr H; reflexivity|].
  mb H as p w1 E1. mb H as q w2 E2. mr H. apply Ho in E1. apply IH in E2.
  - subst. rewrite <- (firstn_skipn a (x :: l)) at 3. reflexivity.
  - rewrite skipn_length. cbn [length] in *. lia.
Qed.

Lemma operators_same ops : forall l w r w', apply_operators ops l w = (Ok r, w') -> r = l.
Proof.
  unfold apply_operators. induction ops as [|op ops IH]; intros l w r w' H; simpl in H; [mr H; reflexivity|].
  mb H as l1 w1 E1. destruct (Nat.eqb_spec (op_arity op) 0) as [|Hn]; [discriminate|].
  apply chunks_same in E1; [|lia|apply apply_operator_same|lia]. subst l1. eauto.
Qed.

Lemma fr_chunks (X : oid -> Prop) op a : (forall l, Forall X l -> steps (frame X) (op l)) ->
  forall fuel l, Forall X l -> steps (frame X) (apply_chunks fuel op a l).
Proof.
  intros Ho fuel. induction fuel as [|fuel IH]; intros l Hl; simpl; [apply (st_ret (frame X))|].
  destruct l as [|x l]; [apply (st_ret (frame X))|]. rewrite <- (firstn_skipn a (x :: l)) in Hl. apply Forall_app in Hl.
  apply (st_bind (frame X)); [apply Ho; tauto|]. intros r. apply (st_bind (frame X)); [apply IH; tauto|]. intros; apply (st_ret (frame X)).
Qed.

Lemma fr_operators (X : oid -> Prop) ops : forall l, Forall X l -> steps (frame X) (apply_operators ops l).
Proof.
  induction ops as [|op ops IH]; intros l Hl w; unfold apply_operators; simpl; [reflexivity|].
  destruct (Nat.eqb_spec (op_arity op) 0) as [|Hn]; [reflexivity|].
  unfold bind. pose proof (fr_chunks X (apply_operator op) (op_arity op) (fr_apply X op) (length l) l Hl w) as F.
  destruct (apply_chunks (length l) (apply_operator op) (op_arity op) l w) as [[l1|e] w1] eqn:E; simpl in F; [|exact F].
  apply chunks_same in E; [|lia|apply apply_operator_same|lia]. subst l1. transitivity w1; [exact F|]. apply IH. exact Hl.
Qed.

(** ** Selection without assumptions on fitness *)

Definition sel_name (s : selection) : string :=
  match s with SelTournament _ _ _ => "TournamentSelection" | SelFP _ _ => "FitnessProportionateSelection" end%string.

Lemma mapM_augmented_heap l w r w' : mapM augmented l w = (r, w') -> w' = w.
Proof.
  intros H. assert (S : steps eq (mapM augmented l)).
  { apply (st_mapM eq). intros o _. apply (st_bind eq); [|intros; apply (st_lift eq)]. intros v. rewrite load_state. reflexivity. }
  specialize (S w). rewrite H in S. simpl in S. auto.
Qed.

Lemma sorted_ok rev l w r w' : sorted_by_fitness rev l w = (Ok r, w') -> w' = w /\ Permutation r l.
Proof.
  unfold sorted_by_fitness. intros H. mb H as ks w1 E. destruct (keys_comparable ks); [|discriminate]. mr H.
  split; [eapply mapM_augmented_heap; eauto|]. apply mapM_length in E.
  transitivity (map snd (combine ks l)); [apply Permutation_map, sort_perm|].
  assert (C : map snd (combine ks l) = l).
  { clear - E. revert l E. induction ks as [|k ks IH]; intros [|x l] E; simpl in *; try discriminate; [reflexivity|]. f_equal. auto. }
  rewrite C. reflexivity.
Qed.

Lemma elitism_ok n rev src dest w l w' : present src w -> elitism_select n rev src dest w = (Ok l, w') ->
  exists chosen cs, l = dest ++ cs /\ copies "ElitismSelection" chosen w cs w' /\ incl chosen src /\
    length chosen = Nat.min n (length src).
Proof.
  intros Hp H. unfold elitism_select in H. mb H as s w1 E. mb H as cs w2 E2. mr H.
  apply sorted_ok in E. destruct E as [-> P]. apply clones_ok in E2.
  - exists (firstn n s), cs. split; [reflexivity|]. split; [exact E2|]. split.
    + intros o Ho. apply firstn_In in Ho. eapply Permutation_in; eauto.
    + rewrite firstn_length, (Permutation_length P). reflexivity.
  - intros o Ho. apply Hp. apply firstn_In in Ho. eapply Permutation_in; eauto.
Qed.

Lemma winner_in t w o w' : tournament_winner t w = (Ok o, w') -> In o t /\ w_heap w' = w_heap w.
Proof.
  destruct t as [|a t]; [discriminate|]. simpl.
  assert (G : forall t b w o w', foldM (fun best p => r <- ind_better_than p best;; ret (if r then p else best)) t b w = (Ok o, w') ->
    (o = b \/ In o t) /\ w_heap w' = w_heap w).
  { clear. induction t as [|p t IH]; intros b w o w' H; simpl in H; [mr H; auto|].
    mb H as c w1 E. mb E as r w2 E2. mr E. unfold ind_better_than in E2. mb E2 as x w3 E3. mb E2 as y w4 E4.
    apply load_ok in E3. apply load_ok in E4. destruct E3 as [-> _], E4 as [-> _].
    apply liftR_ok in E2. destruct E2 as (g & _ & ->). apply IH in H. simpl in H. destruct H as [H1 H2].
    split; [|exact H2]. destruct r, H1 as [->|]; simpl; auto. }
  intros H. apply G in H. destruct H as [[->|H] Hh]; auto.
Qed.

Lemma select_ok s src dest w l w' : present src w -> select s src dest w = (Ok l, w') ->
  exists chosen cs, l = dest ++ cs /\ copies (sel_name s) chosen w cs w' /\ incl chosen src /\
    length chosen = match s with SelTournament _ _ a => (length src - length dest) / a | SelFP _ _ => length src - length dest end.
Proof.
  intros Hp. destruct s as [size replace a|higher a]; simpl.
  - unfold tournament_select. destruct (negb replace && (length src <? size)); [discriminate|].
    destruct (Nat.eqb_spec a 0); [discriminate|]. intros H. mb H as ts w1 E. mb H as cs w2 E2. mr H.
    apply (repeatM_ok (fun x => x)) in E. destruct E as (L & Hh & F).
    assert (Ft : forall t, In t ts -> incl t src).
    { intros t Ht. destruct (F t Ht) as (g & g' & E). destruct replace.
      - apply choices_In in E. tauto.
      - apply sample_spec in E. destruct E as (_ & _ & rest & P). intros x Hx. eapply Permutation_in; [symmetry; exact P|]. apply in_or_app; auto. }
    destruct (picks_ok tournament_winner "TournamentSelection" (fun t o => In o t) w ts w1 cs w') as (os & F2 & _ & C); [apply ext_same; exact Hh| |exact E2|].
    + intros t w3 o w4 Ht _ Ew. apply winner_in in Ew. destruct Ew as [Ho Hh2]. split; [exact Ho|]. split; [|exact Hh2].
      apply Hp. apply (Ft t); assumption.
    + exists os, cs. split; [reflexivity|]. split; [eapply copies_heap; [exact Hh|exact C]|]. split.
      * intros o Ho. clear - F2 Ft Ho. induction F2 as [|t p ts os Htp F2 IH]; [destruct Ho|].
        destruct Ho as [<-|Ho]; [apply (Ft t); [left; reflexivity|exact Htp]|]. apply IH; [intros; apply Ft; right; assumption|exact Ho].
      * rewrite <- (Forall2_len _ _ _ F2). exact L.
  - unfold fp_select. intros H. mb H as ks w1 E. apply mapM_augmented_heap in E. subst w1. mb H as xs w2 E2. unfold lift in E2.
    injection E2 as _ <-. destruct (_ || _); [discriminate|]. mb H as ps w3 E3. mb H as ch w4 E4. mb H as cs w5 E5. mr H.
    apply (repeatM_ok (fun x => x)) in E3. destruct E3 as (L & Hh & _). unfold lift in E4. injection E4 as E4 <-.
    apply rmap_ok in E4.
    assert (I : incl ch src).
    { clear - E4. intros o Ho. induction E4 as [|p q ps ch Hpq F IH]; [destruct Ho|]. destruct Ho as [<-|Ho]; [|auto].
      destruct (nth_error src p) eqn:En; [|discriminate]. injection Hpq as <-. eapply nth_error_In; eauto. }
    exists ch, cs. split; [reflexivity|]. split.
    + eapply copies_heap; [exact Hh|]. apply clones_ok; [|exact E5]. intros o Ho. destruct (Hp o (I o Ho)) as (i & Hi).
      exists i. unfold at_ in *. rewrite Hh. exact Hi.
    + split; [exact I|]. rewrite <- (Forall2_len _ _ _ E4). exact L.
Qed.

(** ** Breeding *)

Definition elite_count (s : subpop) : nat := Nat.min (sp_n_elite s) (length (inds_of s)).

Lemma breed_parts s w s' w' : present (inds_of s) w -> breed_subpop s w = (Ok s', w') ->
  exists sel sels elites chosen w1 w2,
    sp_sels s = sel :: sels /\
    copies "ElitismSelection" elites w (seq (length (w_heap w)) (elite_count s)) w1 /\ length elites = elite_count s /\ incl elites (inds_of s) /\
    copies (sel_name sel) chosen w1 (seq (length (w_heap w) + elite_count s) (length chosen)) w2 /\ incl chosen (inds_of s) /\
    length chosen = match sel with SelTournament _ _ a => (length (inds_of s) - elite_count s) / a
                                 | SelFP _ _ => length (inds_of s) - elite_count s end /\
    s' = with_inds s (seq (length (w_heap w)) (elite_count s + length chosen)) /\
    apply_operators (sp_ops s) (inds_of s') w2 = (Ok (inds_of s'), w') /\
    check_arities (sp_size s) (map sel_arity (sp_sels s) ++ map op_arity (sp_ops s)) = Ok tt /\
    (0 < sp_n_elite s -> exists rev, rev_flag (sp_hib s) = Ok rev /\
       elitism_select (sp_n_elite s) rev (inds_of s) [] w = (Ok (seq (length (w_heap w)) (elite_count s)), w1)).
Proof.
  intros Hp H. unfold breed_subpop in H. mb H as u w0 E0. unfold lift in E0. injection E0 as E0 <-. destruct u.
  mb H as el w1 E1.
  assert (El : exists elites, el = seq (length (w_heap w)) (elite_count s) /\
      copies "ElitismSelection" elites w (seq (length (w_heap w)) (elite_count s)) w1 /\ length elites = elite_count s /\ incl elites (inds_of s) /\
      (0 < sp_n_elite s -> exists rev, rev_flag (sp_hib s) = Ok rev /\
       elitism_select (sp_n_elite s) rev (inds_of s) [] w = (Ok (seq (length (w_heap w)) (elite_count s)), w1))).
  { destruct (Nat.ltb_spec 0 (sp_n_elite s)).
    - mb E1 as rev w2 E2. unfold lift in E2. injection E2 as Er <-. assert (E1' := E1). apply elitism_ok in E1; [|exact Hp].
      destruct E1 as (ch & cs & -> & C & I & L). exists ch. fold (elite_count s) in L. destruct C as (-> & C). rewrite L.
      split; [reflexivity|]. split; [split; [rewrite L; reflexivity|exact C]|]. split; [reflexivity|]. split; [exact I|].
      intros _. exists rev. rewrite L in E1'. split; assumption.
    - mr E1. exists []. assert (Z : elite_count s = 0) by (unfold elite_count; lia). rewrite Z. simpl.
      split; [reflexivity|]. split; [apply copies_nil; reflexivity|]. split; [reflexivity|]. split; [intros x []|lia]. }
  destruct El as (elites & -> & Ce & Le & Ie & Re).
  destruct (sp_sels s) as [|sel sels] eqn:Es; [discriminate|]. mb H as sd w2 E2. mb H as nx w3 E3. mr H.
  assert (Hp1 : present (inds_of s) w1) by (eapply frame_present; [apply frame_ext; eapply copies_ext; eauto|exact Hp]).
  apply select_ok in E2; [|exact Hp1]. destruct E2 as (ch & cs & -> & C & I & L).
  assert (Lh : length (w_heap w1) = length (w_heap w) + elite_count s).
  { destruct Ce as (_ & js & Ej & F). apply Forall2_len in F. rewrite Ej, app_length. lia. }
  assert (Ec : cs = seq (length (w_heap w) + elite_count s) (length ch)) by (destruct C as (-> & _); rewrite Lh; reflexivity).
  subst cs. rewrite seq_length in L. rewrite <- seq_app in E3.
  pose proof (operators_same _ _ _ _ _ E3) as Es2. subst nx.
  exists sel, sels, elites, ch, w1, w2. split; [reflexivity|]. split; [exact Ce|]. split; [exact Le|]. split; [exact Ie|].
  split; [exact C|]. split; [exact I|]. split; [exact L|]. split; [reflexivity|]. split; [exact E3|]. split; [exact E0|exact Re].
Qed.

Lemma check_arities_ok size l u : check_arities size l = Ok u -> forall a, In a l -> a <> 0 /\ size mod a = 0.
Proof.
  induction l as [|b l IH]; simpl; intros H a Ha; [destruct Ha|].
  destruct (Nat.eqb_spec b 0); [discriminate|]. destruct (Nat.eqb_spec (size mod b) 0); [|discriminate].
  destruct Ha as [<-|Ha]; auto.
Qed.

(** C09 *)
Lemma breed_size s w s' w' : present (inds_of s) w -> breed_subpop s w = (Ok s', w') ->
  exists sel sels, sp_sels s = sel :: sels /\
    let n := length (inds_of s) in let e := Nat.min (sp_n_elite s) n in
    let m := match sel with SelTournament _ _ a => e + (n - e) / a | SelFP _ _ => n end in
    s' = with_inds s (seq (length (w_heap w)) m) /\
    (Nat.divide (sel_arity sel) (n - e) -> match sel with SelTournament _ _ a => e + a * (m - e) = n | SelFP _ _ => True end) /\
    (sel_arity sel = 1 -> m = n) /\
    (forall op, In op (sp_ops s) -> Nat.divide (op_arity op) (sp_size s)).
Proof.
  intros Hp H. destruct (breed_parts s w s' w' Hp H) as (sel & sels & el & ch & w1 & w2 & Es & _ & _ & _ & _ & _ & L & S & _ & A & _).
  exists sel, sels. split; [exact Es|]. fold (elite_count s). cbv zeta.
  assert (Ec : elite_count s <= length (inds_of s)) by (unfold elite_count; lia).
  assert (M : elite_count s + length ch = match sel with SelTournament _ _ a => elite_count s + (length (inds_of s) - elite_count s) / a | SelFP _ _ => length (inds_of s) end).
  { destruct sel; lia. }
  split; [rewrite S, M; reflexivity|]. split; [|split].
  - destruct sel as [size rep a|]; [|auto]. simpl. intros [q Hq].
    destruct (Nat.eq_dec a 0) as [->|Ha]; [lia|]. rewrite Hq, Nat.div_mul by exact Ha. lia.
  - intros H1. destruct sel as [size rep a|]; [|reflexivity]. simpl in H1. subst a. rewrite Nat.div_1_r. lia.
  - intros op Ho. destruct (check_arities_ok _ _ _ A (op_arity op)) as [Hn Hm].
    + apply in_or_app. right. apply in_map. exact Ho.
    + apply Nat.mod_divide; assumption.
Qed.

(** C29 *)
Lemma arity_check_value size l : (forall a, In a l -> a <> 0) -> (exists a, In a l /\ ~ Nat.divide a size) ->
  check_arities size l = Raise ValueError.
Proof.
  induction l as [|b l IH]; simpl; intros Hz (a & Ha & Hd); [destruct Ha|].
  destruct (Nat.eqb_spec b 0); [exfalso; apply (Hz b); auto|]. destruct (Nat.eqb_spec (size mod b) 0) as [E|]; [|reflexivity].
  destruct Ha as [<-|Ha]; [exfalso; apply Hd, Nat.mod_divide; assumption|]. apply IH; [auto|eauto].
Qed.

Lemma breed_bad_arity s w : 
  (forall a, In a (map sel_arity (sp_sels s) ++ map op_arity (sp_ops s)) -> a <> 0) ->
  (exists a, In a (map sel_arity (sp_sels s) ++ map op_arity (sp_ops s)) /\ ~ Nat.divide a (sp_size s)) ->
  breed_subpop s w = (Raise ValueError, w).
Proof. intros H1 H2. unfold breed_subpop. rewrite (arity_check_value _ _ H1 H2). reflexivity. Qed.

Lemma breed_zero_arity s w pre post :
  map sel_arity (sp_sels s) ++ map op_arity (sp_ops s) = pre ++ 0 :: post ->
  (forall a, In a pre -> a <> 0 /\ Nat.divide a (sp_size s)) ->
  breed_subpop s w = (Raise ZeroDivisionError, w).
Proof.
  intros E H. unfold breed_subpop. rewrite E. clear E.
  assert (C : check_arities (sp_size s) (pre ++ 0 :: post) = Raise ZeroDivisionError).
  { induction pre as [|b pre IH]; simpl; [reflexivity|]. destruct (H b) as [Hb Hd]; [left; reflexivity|].
    destruct (Nat.eqb_spec b 0); [contradiction|]. apply Nat.mod_divide in Hd; [|exact Hb]. rewrite Hd, Nat.eqb_refl.
    apply IH. intros a Ha. apply H. right. exact Ha. }
  rewrite C. reflexivity.
Qed.

(** C30 *)
Lemma breed_frame s w : present (inds_of s) w -> frame none w (snd (breed_subpop s w)).
Proof.
  intros Hp. set (X := fun o => length (w_heap w) <= o).
  assert (G : frame X w (snd (breed_subpop s w)));
    [|destruct G as [G1 G2]; split; [exact G1|]; intros o Ho _; apply G2; [exact Ho|unfold X; lia]].
  unfold breed_subpop. unfold bind at 1, lift at 1. destruct (check_arities _ _) as [u|e]; [|reflexivity].
  set (el := if 0 <? sp_n_elite s then _ else _).
  assert (F1 : frame X w (snd (el w))).
  { unfold el. destruct (0 <? sp_n_elite s); [|reflexivity].
    apply (st_bind (frame X)); [apply (st_lift (frame X))|]. intros rev. apply fr_elitism. }
  unfold bind at 1. destruct (el w) as [[els|e] w1] eqn:E1; simpl in F1; [|exact F1].
  assert (X1 : Forall X els /\ ext w w1).
  { unfold el in E1. destruct (0 <? sp_n_elite s); [|mr E1; split; [constructor|reflexivity]].
    mb E1 as rev w2 E2. unfold lift in E2. injection E2 as _ <-. apply elitism_ok in E1; [|exact Hp].
    destruct E1 as (ch & cs & -> & C & _). split; [|eapply copies_ext; eauto]. apply Forall_forall. intros c Hc.
    apply (copies_fresh _ _ _ _ _ _ C) in Hc. unfold X. lia. }
  destruct X1 as [X1 Ex].
  assert (Hp1 : present (inds_of s) w1) by (eapply frame_present; [apply frame_ext; exact Ex|exact Hp]).
  destruct (sp_sels s) as [|sel sels]; [exact F1|]. unfold bind at 1.
  pose proof (fr_select X sel (inds_of s) els w1) as F2.
  destruct (select sel (inds_of s) els w1) as [[sd|e] w2] eqn:E2; simpl in F2; [|transitivity w1; assumption].
  assert (X2 : Forall X sd).
  { apply select_ok in E2; [|exact Hp1]. destruct E2 as (ch & cs & -> & C & _). apply Forall_app. split; [exact X1|].
    apply Forall_forall. intros c Hc. apply (copies_fresh _ _ _ _ _ _ C) in Hc. destruct Ex as [js Ej]. unfold X. rewrite Ej, app_length in Hc. lia. }
  transitivity w1; [exact F1|]. transitivity w2; [exact F2|].
  apply (st_bind (frame X)); [apply fr_operators; exact X2|]. intros; apply (st_ret (frame X)).
Qed.

Lemma breed_all_frame pop : forall w, present (flat_map inds_of pop) w -> frame none w (snd (breed pop w)).
Proof.
  unfold breed. induction pop as [|s pop IH]; intros w Hp; simpl; [reflexivity|].
  assert (Hs : present (inds_of s) w) by (intros o Ho; apply Hp; simpl; apply in_or_app; auto).
  pose proof (breed_frame s w Hs) as F. unfold bind at 1. destruct (breed_subpop s w) as [[s'|e] w1]; simpl in F; [|exact F].
  assert (F2 : frame none w1 (snd (mapM breed_subpop pop w1))).
  { apply IH. eapply frame_present; [exact F|]. intros o Ho. apply Hp. simpl. apply in_or_app; auto. }
  unfold bind. destruct (mapM breed_subpop pop w1) as [[r|e] w2]; simpl in F2; transitivity w1; assumption.
Qed.

(** C35 *)
Lemma identity_keeps op l : op_kind op = OIdentity -> steps gkeep (apply_operator op l).
Proof.
  intros K. unfold apply_operator, with_probability. apply (st_bind gkeep); [apply gk_liftR|]. intros u.
  destruct (nle u (op_prob op)); [|apply (st_ret gkeep)].
  apply (st_bind gkeep); [apply (st_iterM gkeep); intros; apply gk_reset|]. intros _.
  apply (st_bind gkeep); [unfold op_apply; rewrite K; apply (st_ret gkeep)|]. intros [r|]; [|apply (st_raise gkeep)].
  apply (st_bind gkeep); [apply (st_iterM gkeep); intros; apply gk_record|]. intros _. apply (st_ret gkeep).
Qed.

Lemma identities_keep ops l : (forall op, In op ops -> op_kind op = OIdentity) -> steps gkeep (apply_operators ops l).
Proof.
  intros H. apply (st_foldM gkeep). intros b op Ho. destruct (op_arity op =? 0); [apply (st_raise gkeep)|].
  generalize (length b) at 1. intros fuel. revert b. induction fuel as [|fuel IH]; intros b; simpl; [apply (st_ret gkeep)|].
  destruct b as [|x b]; [apply (st_ret gkeep)|]. apply (st_bind gkeep); [apply identity_keeps; auto|]. intros r.
  apply (st_bind gkeep); [apply IH|]. intros; apply (st_ret gkeep).
Qed.

Lemma gkeep_ext w w' : ext w w' -> gkeep w w'.
Proof. intros E o i H. exists i. split; [eapply ext_at; eauto|reflexivity]. Qed.

Lemma elites_kept s w s' w' h score :
  (forall op, In op (sp_ops s) -> op_kind op = OIdentity) -> sp_hib s = HB h ->
  (forall o, In o (inds_of s) -> scored w o (score o)) ->
  breed_subpop s w = (Ok s', w') ->
  exists best rest, Permutation (inds_of s) (best ++ rest) /\ length best = Nat.min (sp_n_elite s) (length (inds_of s)) /\
    (forall a b, In a best -> In b rest -> ~ better_score h (score b) (score a)) /\
    Forall2 (fun o c => exists i j, at_ w o = Some i /\ at_ w' c = Some j /\ i_genome j = i_genome i)
            best (firstn (length best) (inds_of s')).
Proof.
  intros Hid Hh Hs H.
  assert (Hp : present (inds_of s) w) by (intros o Ho; destruct (Hs o Ho) as (i & Hi & _); eauto).
  destruct (breed_parts s w s' w' Hp H) as (sel & sels & el & ch & w1 & w2 & Es & Ce & _ & _ & Cc & _ & L & S & Ea & _ & Re).
  destruct (Nat.eq_dec (sp_n_elite s) 0) as [Z|Z].
  { exists [], (inds_of s). rewrite Z. simpl. split; [reflexivity|]. split; [reflexivity|]. split; [intros a b []|constructor]. }
  destruct Re as (rev & Er & Ee); [lia|]. rewrite Hh in Er. injection Er as <-.
  destruct (elitism_best (sp_n_elite s) h (inds_of s) [] w score Hs) as (best & rest & cs & w1' & E & C & P & Lb & _ & B & _).
  rewrite Ee in E. simpl in E. injection E as <- <-. exists best, rest. split; [exact P|]. split; [exact Lb|]. split; [exact B|].
  fold (elite_count s) in Lb. rewrite Lb, S. cbn [inds_of with_inds sp_inds].
  assert (Fs : @firstn oid (elite_count s) (seq (length (w_heap w)) (elite_count s + length ch)) = seq (length (w_heap w)) (elite_count s)).
  { change oid with nat. rewrite seq_app, firstn_app, seq_length, Nat.sub_diag, firstn_O, app_nil_r. rewrite <- (seq_length (elite_count s) (length (w_heap w))) at 1.
    apply firstn_all. }
  rewrite Fs. destruct C as (_ & js & Ej & F).
  assert (K : gkeep w1 w').
  { transitivity w2; [apply gkeep_ext; eapply copies_ext; eauto|].
    pose proof (identities_keep (sp_ops s) (inds_of s') Hid w2) as K. rewrite Ea in K. exact K. }
  assert (G : forall k, at_ w1 (length (w_heap w) + k) = nth_error js k).
  { intros k. unfold at_. rewrite Ej, nth_error_app2 by lia. f_equal. lia. }
  assert (Lj := Forall2_len _ _ _ F). rewrite Lb in Lj. rewrite Lj. clear - F K G.
  revert G. generalize (length (w_heap w)). induction F as [|o j best js (i & Hi & Hc) F IH]; intros n G; simpl; constructor.
  - pose proof (G 0) as G0. simpl in G0. rewrite Nat.add_0_r in G0. destruct (K _ _ G0) as (j' & Hj' & Hg).
    exists i, j'. split; [exact Hi|]. split; [exact Hj'|]. rewrite Hg. apply co_genome with "ElitismSelection"%string. exact Hc.
  - apply IH. intros k. pose proof (G (S k)) as G1. simpl in G1. rewrite <- G1. f_equal. lia.
Qed.
