(** * The statements about trees in their final form. *)
From Coq Require Import Lia Permutation.
From Verif.Model Require Import Tree World Operators Creators.
From Verif.Spec Require Import TreeSpec WorldSpec.
From Verif.Proofs Require Import Lib TreeP TreeCreateP TreeOpP TreeExecP.
From Verif.Model Require Import Tree World Creators.
Open Scope nat_scope.
Open Scope list_scope.

Lemma list_sum_perm ts ts' : Permutation (nodes_of ts) (nodes_of ts') -> list_sum (map tsize ts) = list_sum (map tsize ts').
Proof.
  intros H. apply Permutation_length in H. unfold nodes_of in H.
  assert (forall l, list_sum (map tsize l) = length (flat_map t_nodes l)) as E.
  { induction l as [|t l IH]; cbn; auto. rewrite app_length. unfold tsize in *. now rewrite <- IH. }
  now rewrite !E.
Qed.

Lemma Forall2_refl {A} (P : A -> A -> Prop) l : (forall a, In a l -> P a a) -> Forall2 P l l.
Proof. induction l; intros H; constructor; [apply H; now left|]. apply IHl. intros; apply H; now right. Qed.

Lemma crossover_final op inds ts w fset : op_kind op = OSubtreeXO -> op_arity op = length inds ->
  NoDup inds -> inds <> [] -> trees_at w inds ts -> Forall complete_tree ts -> (forall t, In t ts -> t_fset t = fset) ->
  exists w' ts', apply_operator op inds w = (Ok inds, w') /\ trees_at w' inds ts' /\
    (ts' = ts \/ crossed ts ts') /\
    Forall complete_tree ts' /\ (forall t, In t ts' -> t_fset t = fset) /\
    Permutation (nodes_of ts) (nodes_of ts') /\ list_sum (map tsize ts) = list_sum (map tsize ts') /\
    (uniform_types ts -> Forall2 (fun t t' => root_type_of t' = root_type_of t /\
        ((forall u, In u ts -> well_typed_tree u) -> well_typed_tree t')) ts ts').
Proof.
  intros Hk Ha Hnd Hne Ht Hc Hf.
  destruct (crossover_op_trees op inds ts w Hk Ha Hnd Hne Ht Hc) as (w' & E & [H|(cs & Hp & H)]).
  - exists w', ts. split; auto. split; auto. split; auto. split; auto. split; auto. split; auto. split; auto.
    intros _. apply Forall2_refl. auto.
  - exists w', (filled_all ts cs (rotate (map p_sub cs))). pose proof (picked_all_crossed _ _ Hp) as Hx.
    destruct (crossed_complete fset _ _ Hf Hc Hx) as [H1 H2]. pose proof (crossed_perm _ _ Hx) as H3.
    split; auto. split; auto. split; auto. split; auto. split; auto. split; auto. split; [now apply list_sum_perm|].
    intros Hu. now apply crossed_types.
Qed.

Lemma mutated_all mn mx ts ts' : Forall complete_tree ts ->
  Forall2 (fun t t' => t' = t \/ mutated mn mx t t') ts ts' -> Forall complete_tree ts'.
Proof.
  intros Hc H. induction H as [|t t' ts ts' [->|Hm] H IH]; constructor; inversion Hc; subst; auto.
  now apply mutated_complete in Hm.
Qed.

Lemma mutation_final op mn mx inds ts w : op_kind op = OSubtreeMut mn mx ->
  NoDup inds -> trees_at w inds ts -> Forall complete_tree ts ->
  exists r w' ts', apply_operator op inds w = (r, w') /\ trees_at w' inds ts' /\
    match r with
    | Ok l => l = inds /\ (ts' = ts \/ Forall2 (mutated mn mx) ts ts')
    | Raise _ => Forall2 (fun t t' => t' = t \/ mutated mn mx t t') ts ts'
    end /\
    Forall complete_tree ts' /\
    ((forall t, In t ts -> well_typed_tree t /\ forall c, place_in t c -> typed_terminals t (delivers (label (p_sub c)))) ->
       Forall2 (fun t t' => well_typed_tree t' /\ root_type_of t' = root_type_of t) ts ts').
Proof.
  intros Hk Hnd Ht Hc. pose proof (mutation_op_trees op mn mx inds ts w Hk Hnd Ht Hc) as H.
  assert (forall ts', Forall2 (fun t t' => t' = t \/ mutated mn mx t t') ts ts' ->
    (forall t, In t ts -> well_typed_tree t /\ forall c, place_in t c -> typed_terminals t (delivers (label (p_sub c)))) ->
       Forall2 (fun t t' => well_typed_tree t' /\ root_type_of t' = root_type_of t) ts ts') as HT.
  { clear. intros ts' H. induction H as [|t t' ts ts' Hm H IH]; intros HT; constructor.
    - destruct (HT t (or_introl eq_refl)) as [Hw Htt]. destruct Hm as [->|Hm]; auto. eapply mutated_types; eauto.
    - apply IH. intros u Hu. apply HT. now right. }
  destruct (apply_operator op inds w) as [[l|e] w'].
  - destruct H as (-> & ts' & Hts & Hor). exists (Ok inds), w', ts'.
    assert (Forall2 (fun t t' => t' = t \/ mutated mn mx t t') ts ts') as Hall.
    { destruct Hor as [->|Hm]; [apply Forall2_refl; auto|]. eapply Forall2_imp_in; [|exact Hm]. auto. }
    split; auto. split; auto. split; auto. split; [eapply mutated_all; eauto|auto].
  - destruct H as (ts' & Hts & Hall). exists (Raise e), w', ts'.
    split; auto. split; auto. split; auto. split; [eapply mutated_all; eauto|auto].
Qed.

Lemma noised_shape mu sigma t t' : noised mu sigma t t' ->
  tsize t' = tsize t /\ t_fset t' = t_fset t /\ t_tset t' = t_tset t /\
  map delivers (t_nodes t') = map delivers (t_nodes t) /\ map n_args (t_nodes t') = map n_args (t_nodes t).
Proof.
  intros (be & b & x & tag & a & af & z & tag' & E & ->). unfold tsize. cbn [with_nodes t_nodes t_fset t_tset]. rewrite E.
  rewrite !app_length, !map_app. cbn. auto.
Qed.

Lemma saturated_args l : forall rt l', saturated rt -> flatten rt = l -> map n_args l' = map n_args l ->
  complete l'.
Proof.
  assert (forall rt l', saturated rt -> forall m, map n_args l' = map n_args (flatten rt) ++ m ->
    exists rt' r, saturated rt' /\ l' = flatten rt' ++ r /\ map n_args r = m) as H.
  { induction rt as [n ks IH] using rose_ind. intros l' [Hn Hk] m E. cbn [flatten] in E.
    destruct l' as [|n' l']; [discriminate|]. cbn in E. injection E as En E.
    assert (forall l', map n_args l' = map n_args (flat_map flatten ks) ++ m ->
       exists ks' r, length ks' = length ks /\ All saturated ks' /\ l' = flat_map flatten ks' ++ r /\ map n_args r = m) as HK.
    { clear - IH Hk. induction ks as [|k ks IHks]; intros l' E; cbn in E.
      - exists [], l'. cbn. auto.
      - destruct IH as [Ik IH]. destruct Hk as [Hk Hks]. rewrite map_app, <- app_assoc in E.
        destruct (Ik l' Hk _ E) as (k' & r & Hk' & -> & Er).
        destruct (IHks IH Hks r Er) as (ks' & r' & L & Hs & -> & E').
        exists (k' :: ks'), r'. cbn. rewrite <- app_assoc. auto. }
    destruct (HK l' E) as (ks' & r & L & Hs & -> & Er).
    exists (Rose n' ks'), r. split; [split; [congruence|auto]|]. auto. }
  intros rt l' Hs E Em. destruct (H rt l' Hs []) as (rt' & r & Hs' & -> & Er).
  { now rewrite app_nil_r, E. }
  apply map_eq_nil in Er as ->. exists rt'. rewrite app_nil_r. auto.
Qed.

Lemma noised_complete mu sigma t t' : noised mu sigma t t' -> complete_tree t -> complete_tree t'.
Proof.
  intros Hn (Ho & Hh & rt & Hs & E). pose proof (noised_shape _ _ _ _ Hn) as (_ & Hf & _ & _ & Ha).
  destruct Hn as (be & b & x & tag & a & af & z & tag' & En & ->). split; [|split].
  - intros f. cbn [with_nodes t_nodes t_fset]. intros Hin. apply Ho. rewrite En. rewrite in_app_iff in *.
    destruct Hin as [Hin|[Hin|Hin]]; [auto|discriminate|right; now right].
  - exact Hh.
  - eapply saturated_args; eauto.
Qed.

Lemma erc_final op mu sigma inds ts w : op_kind op = OErc mu sigma -> NoDup inds -> trees_at w inds ts ->
  exists w' ts', apply_operator op inds w = (Ok inds, w') /\ trees_at w' inds ts' /\
    (ts' = ts \/ Forall2 (noised mu sigma) ts ts') /\
    ((exists t, In t ts /\ ~ has_number t) -> ts' = ts) /\
    (Forall complete_tree ts -> Forall complete_tree ts').
Proof.
  intros Hk Hnd Ht. destruct (erc_op_trees op mu sigma inds ts w Hk Hnd Ht) as (w' & ts' & E & Hts & Hor).
  exists w', ts'. split; auto. split; auto. split; auto. split.
  - intros (t & Hin & Hno). destruct Hor as [->|HF]; auto. exfalso.
    clear - HF Hin Hno. induction HF as [|a b l m Hab HF IH]; [destruct Hin|]. destruct Hin as [->|Hin]; auto.
    apply Hno. eapply noised_has; eauto.
  - intros Hc. destruct Hor as [->|HF]; auto. clear - Hc HF. induction HF; constructor; inversion Hc; subst; auto.
    eapply noised_complete; eauto.
Qed.

Lemma half_default p n h w os w' : g_min p <= g_max p ->
  create_individuals (half_creator p) n h w = (Ok os, w') ->
  forall o, In o os -> exists i, at_ w' o = Some i /\ i_fit i = unmeasured (KGP (Fin 0)) h /\ i_update_parents i = false.
Proof.
  intros Hm H o Ho. cbn [half_creator create_individuals] in H. apply create_half_ok in H as (_ & _ & HF); auto.
  apply Forall2_In_r with (y := o) in HF; auto. destruct HF as (k & _ & (i & t & Hi & Hg & Hfit & Hup & _)).
  exists i. split; auto. destruct (fst k); cbn in *; auto.
Qed.

Lemma half_plan_counts mn mx n d : mn <= d <= mx -> 
  let q := n / (2 * (mx + 1 - mn)) in
  length (filter (fun k => match k with (Grow, e) => e =? d | _ => false end) (half_plan mn mx n)) = q /\
  length (filter (fun k => match k with (Full, e) => e =? d | _ => false end) (half_plan mn mx n)) =
    q + (if d =? mx then n - 2 * q * (mx + 1 - mn) else 0).
Proof.
  intros Hd q. unfold half_plan. fold q.
  assert (forall b e k, length (filter (fun x : gp_method * nat => match x with (Grow, e) => e =? d | _ => false end) (repeat (b, e) k))
     = match b with Grow => if e =? d then k else 0 | Full => 0 end) as HG.
  { intros b e k. induction k as [|k IH]; cbn [repeat filter]; [destruct b; auto; destruct (e =? d); auto|].
    destruct b; auto. destruct (e =? d) eqn:E; cbn; rewrite IH; auto. }
  assert (forall b e k, length (filter (fun x : gp_method * nat => match x with (Full, e) => e =? d | _ => false end) (repeat (b, e) k))
     = match b with Full => if e =? d then k else 0 | Grow => 0 end) as HFu.
  { intros b e k. induction k as [|k IH]; cbn [repeat filter]; [destruct b; auto; destruct (e =? d); auto|].
    destruct b; auto. destruct (e =? d) eqn:E; cbn; rewrite IH; auto. }
  assert (forall (p : gp_method * nat -> bool) m j, (forall e, length (filter p (repeat (Grow, e) q ++ repeat (Full, e) q)) = if e =? d then q else 0) ->
     length (filter p (flat_map (fun d => repeat (Grow, d) q ++ repeat (Full, d) q) (seq j m))) = if (j <=? d) && (d <? j + m) then q else 0) as HS.
  { intros p m. induction m as [|m IH]; intros j Hp.
    - cbn [seq flat_map filter length]. destruct (Nat.leb_spec j d), (Nat.ltb_spec d (j + 0)); cbn; auto; lia.
    - cbn [seq flat_map]. rewrite filter_app, app_length, Hp, (IH (S j) Hp).
      destruct (Nat.eqb_spec j d), (Nat.leb_spec (S j) d), (Nat.ltb_spec d (S j + m)), (Nat.leb_spec j d), (Nat.ltb_spec d (j + S m)); cbn; lia. }
  rewrite !filter_app, !app_length, HG, HFu, !HS.
  - destruct (Nat.leb_spec mn d), (Nat.ltb_spec d (mn + (mx + 1 - mn))); cbn [andb]; try lia. cbv beta iota.
    rewrite (Nat.eqb_sym mx d). split; [lia|]. destruct (d =? mx); lia.
  - intros e. rewrite filter_app, app_length, !HFu. lia.
  - intros e. rewrite filter_app, app_length, !HG. lia.
Qed.

Lemma create_tree_typed : forall m p t g l g', create_tree m p t g = (Ok l, g') -> typed_terminals t (g_root p) ->
  exists rt, saturated rt /\ flatten rt = l /\ well_typed rt /\ delivers (label rt) = g_root p.
Proof.
  intros m p t g l g' H Ht. destruct (create_tree_ok m p t g l g' H) as (rt & H1 & H2 & _ & _ & _ & _ & H3).
  exists rt. destruct (H3 Ht). auto.
Qed.
