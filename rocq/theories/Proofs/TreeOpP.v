(** * Subtree crossover, subtree mutation, ERC mutation. *)
From Coq Require Import Lia Permutation.
From Verif.Model Require Import Tree World Operators.
From Verif.Spec Require Import TreeSpec WorldSpec.
From Verif.Proofs Require Import Lib WorldP StepP VectorP VecOpP VecCreateP VecFinalP TreeP TreeCreateP.
From Verif.Model Require Import Tree World Creators.
Open Scope nat_scope.
Open Scope list_scope.

(** ** Loops that write each object once *)
Lemma iterM_once {X} (f : X -> M unit) (key : X -> oid) (Post : X -> ind -> Prop) l : forall w r w',
  NoDup (map key l) ->
  (forall x w1 r w2, In x l -> at_ w1 (key x) = at_ w (key x) -> f x w1 = (r, w2) ->
     match r with
     | Ok _ => exists i, w_heap w2 = list_set (w_heap w1) (key x) i /\ key x < length (w_heap w1) /\ Post x i
     | Raise _ => w_heap w2 = w_heap w1
     end) ->
  iterM f l w = (r, w') ->
  length (w_heap w') = length (w_heap w) /\
  (forall o, ~ In o (map key l) -> at_ w' o = at_ w o) /\
  (forall x, In x l -> (r <> Ok tt /\ at_ w' (key x) = at_ w (key x)) \/ exists i, at_ w' (key x) = Some i /\ Post x i).
Proof.
  induction l as [|x l IH]; intros w r w' Hnd Hf H; cbn [iterM] in H.
  - unfold ret in H. injection H as <- <-. repeat split; auto.
  - cbn [map] in Hnd. apply NoDup_cons_iff in Hnd as [Hx Hnd].
    unfold bind in H. destruct (f x w) as [[u|e] w1] eqn:E.
    + destruct (Hf x w (Ok u) w1 (or_introl eq_refl) eq_refl E) as (i & Hh & Hlt & HP).
      assert (Hother : forall o, o <> key x -> at_ w1 o = at_ w o).
      { intros o Ho. unfold at_. rewrite Hh. apply nth_list_set_other. congruence. }
      destruct (IH w1 r w' Hnd) as (L & Q & P); auto.
      { intros y w2 r2 w3 Hy Hk H2. apply (Hf y w2 r2 w3); [now right| |auto].
        rewrite Hk. apply Hother. intros Ek. apply Hx. rewrite <- Ek. apply in_map. auto. }
      split; [rewrite L, Hh; apply list_set_length|]. split.
      * intros o Ho. cbn in Ho. rewrite Q by tauto. apply Hother. intros ->. tauto.
      * intros y [<-|Hy].
        -- right. exists i. split; auto. rewrite Q by auto. unfold at_. rewrite Hh. now apply nth_list_set_same.
        -- destruct (P y Hy) as [[Hr He]|HP']; auto. left. split; auto. rewrite He. apply Hother.
           intros Ek. apply Hx. rewrite <- Ek. apply in_map. auto.
    + injection H as <- <-. pose proof (Hf x w (Raise e) w1 (or_introl eq_refl) eq_refl E) as Hh. cbn in Hh.
      split; [now rewrite Hh|]. split; [intros; unfold at_; now rewrite Hh|].
      intros y _. left. split; [discriminate|]. unfold at_; now rewrite Hh.
Qed.

(** ** Rotation *)
Lemma rotate_perm {A} (l : list A) : Permutation (rotate l) l.
Proof.
  unfold rotate. rewrite (Permutation_rev l) at 2. destruct (rev l) as [|x r]; auto.
  constructor. symmetry. apply Permutation_rev.
Qed.

Lemma rotate_length {A} (l : list A) : length (rotate l) = length l.
Proof. apply Permutation_length, rotate_perm. Qed.

Lemma rotate_snoc {A} (l : list A) x : rotate (l ++ [x]) = x :: l.
Proof. unfold rotate. rewrite rev_app_distr. cbn. now rewrite rev_involutive. Qed.

Lemma map_rotate {A B} (f : A -> B) l : map f (rotate l) = rotate (map f l).
Proof.
  destruct l as [|a l]; [reflexivity|]. destruct (exists_last (l := a :: l)) as (m & x & ->); [discriminate|].
  rewrite map_app. cbn [map]. now rewrite !rotate_snoc.
Qed.

Lemma py_get_nth {A} (l : list A) i x : nth_error l i = Some x -> py_get l (Z.of_nat i) = Ok x.
Proof.
  intros H. unfold py_get, py_norm. assert (i < length l) by (apply nth_error_Some; congruence).
  destruct (Z.ltb_spec (Z.of_nat i) 0); [lia|]. destruct (Z.ltb_spec (Z.of_nat i) (Z.of_nat (length l))); [|lia].
  now rewrite Nat2Z.id, H.
Qed.

Lemma py_get_pred {A} (l : list A) i x : nth_error (rotate l) i = Some x -> py_get l (Z.of_nat i - 1) = Ok x.
Proof.
  intros H. destruct l as [|a l]; [destruct i; discriminate|].
  destruct (exists_last (l := a :: l)) as (m & y & E); [discriminate|]. rewrite E in *. rewrite rotate_snoc in H.
  destruct i as [|i]; cbn [nth_error] in H.
  - injection H as ->. unfold py_get, py_norm. rewrite app_length. cbn [length].
    destruct (Z.ltb_spec (Z.of_nat 0 - 1) 0); [|lia].
    destruct (Z.ltb_spec (Z.of_nat 0 - 1 + Z.of_nat (length m + 1)) 0); [lia|].
    replace (Z.to_nat (Z.of_nat 0 - 1 + Z.of_nat (length m + 1))) with (length m) by lia.
    rewrite nth_error_app2, Nat.sub_diag by lia. reflexivity.
  - replace (Z.of_nat (S i) - 1)%Z with (Z.of_nat i) by lia. apply py_get_nth.
    rewrite nth_error_app1; auto. apply nth_error_Some. congruence.
Qed.

(** ** Trees and heaps *)
Lemma tree_at_heap w w' o t : w_heap w' = w_heap w -> tree_at w o t -> tree_at w' o t.
Proof. intros H (i & Hi & Hg). exists i. split; auto. unfold at_ in *. now rewrite H. Qed.

Lemma trees_at_heap w w' inds ts : w_heap w' = w_heap w -> trees_at w inds ts -> trees_at w' inds ts.
Proof. intros H. apply Forall2_imp_in. intros o t. now apply tree_at_heap. Qed.

Lemma tree_keep o t w w' : gkeep w w' -> tree_at w o t -> tree_at w' o t.
Proof. intros H (i & Hi & Hg). destruct (H o i Hi) as (i' & Hi' & Hg'). exists i'. split; congruence. Qed.

Lemma trees_keep inds ts w w' : gkeep w w' -> trees_at w inds ts -> trees_at w' inds ts.
Proof. intros H. apply Forall2_imp_in. intros o t. now apply tree_keep. Qed.

Lemma trees_present w inds ts : trees_at w inds ts -> present inds w.
Proof.
  induction 1 as [|o t os ts (i & Hi & _) HF IH]; intros o' Ho'; [easy|].
  destruct Ho' as [<-|Ho']; eauto.
Qed.

Lemma tree_at_fun w o t t' : tree_at w o t -> tree_at w o t' -> t = t'.
Proof. intros (i & Hi & Hg) (j & Hj & Hg'). congruence. Qed.

(** ** Picking subtrees *)

(** What is picked: a place at the first occurrence of its root, eligible for the wanted type. *)
Definition picked (nt : option ty) (t : tree) (r : list node) (c : place) : Prop :=
  r = flatten (p_sub c) /\ ~ In (label (p_sub c)) (p_before c) /\
  exists rt, saturated rt /\ flatten rt = t_nodes t /\ subtree_at rt (p_before c) (p_sub c) (p_after c) /\
     eligible (label rt) nt (label (p_sub c)).

Lemma complete_hinted t n f : complete_tree t -> In n (t_nodes t) -> n = FNode f -> hinted f.
Proof. intros (Ho & Hh & _) Hn ->. apply Hh. now apply Ho. Qed.

Lemma subtree_label_in rt pre s post : subtree_at rt pre s post -> In (label s) (flatten rt).
Proof.
  intros H. rewrite (subtree_flatten _ _ _ _ H). destruct (flatten_hd s) as (r & ->).
  rewrite !in_app_iff. cbn. auto.
Qed.

Lemma pick_spec nt o w t : tree_at w o t -> complete_tree t ->
  exists r w', pick_subtree nt o w = (Ok r, w') /\ w_heap w' = w_heap w /\
    match r with None => ~ open_for nt t | Some l => exists c, picked nt t l c end.
Proof.
  intros (i & Hi & Hg) Hc. pose proof Hc as (Ho & Hh & rt & Hs & E). unfold pick_subtree.
  rewrite (bind_eq_ok _ _ _ _ _ (load_tree_at _ _ _ _ Hi Hg)).
  destruct (random_subtree t nt (w_rng w)) as [r g'] eqn:Er. 
  pose proof (random_subtree_spec t rt nt _ _ _ Hs E Ho Er) as Hr.
  rewrite (liftR_eq _ _ _ _ Er).
  destruct Hr as [[-> Hn]|(pre & s & post & -> & Hsub & Hfirst & Hcand)].
  - do 2 eexists. split; [reflexivity|]. split; [reflexivity|]. intros (root & n & Hr & Hin & He).
    rewrite <- E in Hr. destruct (flatten_hd rt) as (rest & Er'). rewrite Er' in Hr. cbn in Hr. injection Hr as <-.
    apply eligible_iff in He; [rewrite Hn in He; auto; discriminate|]. intros f ->.
    eapply complete_hinted; eauto.
  - do 2 eexists. split; [reflexivity|]. split; [reflexivity|].
    exists (mkPlace pre s post). cbn. split; [reflexivity|]. cbn. split; [exact Hfirst|]. exists rt. repeat split; auto.
    apply eligible_iff; auto. intros f Hf. apply (complete_hinted t (label s) f Hc); auto.
    rewrite <- E. eapply subtree_label_in; eauto.
Qed.

Lemma picks_spec nt inds ts : forall w, trees_at w inds ts -> Forall complete_tree ts ->
  exists rs w', mapM (pick_subtree nt) inds w = (Ok rs, w') /\ w_heap w' = w_heap w /\
    match all_somes rs with
    | None => ~ Forall (open_for nt) ts
    | Some ls => exists cs, Forall2 (fun t lc => picked nt t (fst lc) (snd lc)) ts (combine ls cs) /\
                   ls = map (fun c => flatten (p_sub c)) cs
    end.
Proof.
  revert ts. induction inds as [|o inds IH]; intros ts w Ht Hc; inversion Ht; subst; cbn [mapM].
  - exists [], w. split; [reflexivity|]. split; auto. cbn. exists []. split; [constructor|auto].
  - inversion Hc; subst.
    destruct (pick_spec nt o w y H1 H2) as (r & w1 & E & Hh & Hr). rewrite (bind_eq_ok _ _ _ _ _ E).
    destruct (IH l' w1) as (rs & w2 & E2 & Hh2 & Hrs); auto. { eapply trees_at_heap; eauto. }
    rewrite (bind_eq_ok _ _ _ _ _ E2). exists (r :: rs), w2. split; [reflexivity|]. split; [congruence|].
    cbn [all_somes]. destruct r as [l|].
    2:{ intros HF. inversion HF; subst. contradiction. }
    destruct Hr as (c & Hp). destruct (all_somes rs) as [ls|].
    2:{ intros HF. inversion HF; subst. contradiction. }
    destruct Hrs as (cs & HF & ->). exists (c :: cs). cbn. split; [constructor; auto|].
    destruct Hp as (-> & _). auto.
Qed.

Definition picked_place (nt : option ty) (t : tree) (c : place) : Prop := picked nt t (flatten (p_sub c)) c.

Lemma picks_places nt inds ts w : trees_at w inds ts -> Forall complete_tree ts ->
  exists rs w', mapM (pick_subtree nt) inds w = (Ok rs, w') /\ w_heap w' = w_heap w /\
    match all_somes rs with
    | None => ~ Forall (open_for nt) ts
    | Some ls => exists cs, Forall2 (picked_place nt) ts cs /\ ls = map (fun c => flatten (p_sub c)) cs
    end.
Proof.
  intros Ht Hc. destruct (picks_spec nt inds ts w Ht Hc) as (rs & w' & E & Hh & H).
  exists rs, w'. split; auto. split; auto. destruct (all_somes rs) as [ls|]; auto.
  destruct H as (cs & HF & ->). exists cs. split; auto. clear -HF.
  revert ts HF. induction cs as [|c cs IH]; intros ts HF; cbn in HF; inversion HF; subst; constructor; auto.
Qed.

(** ** Crossover *)

Definition picked_all (ts : list tree) (cs : list place) : Prop :=
  match ts, cs with
  | t :: ts', c :: cs' => picked_place None t c /\ Forall2 (picked_place (delivers (label (p_sub c)))) ts' cs'
  | _, _ => False
  end.

Lemma picked_label nt t l c : complete_tree t -> picked nt t l c ->
  node_type (label (p_sub c)) = delivers (label (p_sub c)).
Proof.
  intros Hc (_ & _ & rt & Hs & E & Hsub & _). apply node_type_delivers. intros f Hf.
  apply (complete_hinted t (label (p_sub c)) f Hc); auto.
  rewrite <- E. eapply subtree_label_in; eauto.
Qed.

Lemma pick_subtrees_spec inds ts w : inds <> [] -> trees_at w inds ts -> Forall complete_tree ts ->
  exists r w', pick_subtrees inds w = (Ok r, w') /\ w_heap w' = w_heap w /\
    match r with
    | None => ~ matchable ts
    | Some ls => exists cs, picked_all ts cs /\ ls = map (fun c => flatten (p_sub c)) cs
    end.
Proof.
  intros Hne Ht Hc. destruct Ht as [|o t inds ts Ho Ht]; [congruence|]. inversion Hc as [|? ? Hct Hcts]; subst.
  unfold pick_subtrees. destruct (pick_spec None o w t Ho Hct) as (r & w1 & E & Hh & Hr).
  rewrite (bind_eq_ok _ _ _ _ _ E). destruct r as [l|].
  2:{ exists None, w1. split; [reflexivity|]. split; auto. intros [H _]. contradiction. }
  destruct Hr as (c & Hp). pose proof Hp as (El & _). destruct (flatten_hd (p_sub c)) as (rest & Er).
  rewrite El, Er. 
  destruct (picks_places (node_type (label (p_sub c))) inds ts w1) as (rs & w2 & E2 & Hh2 & Hrs); auto.
  { eapply trees_at_heap; eauto. }
  rewrite (bind_eq_ok _ _ _ _ _ E2). eexists. exists w2. split; [reflexivity|]. split; [congruence|].
  destruct (all_somes rs) as [ls|].
  2:{ intros [_ HM]. apply Hrs. rewrite (picked_label None t l c Hct Hp).
      destruct Hp as (_ & _ & rt & _ & Ert & Hsub & He).
      apply (HM (label rt) (label (p_sub c))); auto.
      - rewrite <- Ert. destruct (flatten_hd rt) as (rr & ->). reflexivity.
      - rewrite <- Ert. eapply subtree_label_in; eauto. }
  destruct Hrs as (cs & HF & ->).
  exists (c :: cs). cbn [map picked_all]. rewrite <- Er, <- El. split; [|now rewrite El].
  split; [unfold picked_place; now rewrite <- El|]. rewrite <- (picked_label None t l c Hct Hp). exact HF.
Qed.

Lemma picked_all_places ts cs : picked_all ts cs -> Forall2 (fun t c => exists nt, picked_place nt t c) ts cs.
Proof.
  destruct ts as [|t ts], cs as [|c cs]; cbn; try tauto. intros [H HF]. constructor; eauto.
  eapply Forall2_imp_in; [|exact HF]. eauto.
Qed.

Lemma picked_place_in nt t c : picked_place nt t c -> place_in t c.
Proof. intros (_ & _ & rt & H1 & H2 & H3 & _). exists rt. auto. Qed.

Lemma picked_replace nt t c new : picked_place nt t c ->
  replace_subtree t (flatten (p_sub c)) new = Ok (with_nodes t (p_before c ++ new ++ p_after c)).
Proof.
  intros (_ & Hfirst & rt & Hs & E & Hsub & _). eapply replace_spec; eauto.
Qed.

Lemma nth_filled_all ts : forall cs ss i t c s, nth_error ts i = Some t -> nth_error cs i = Some c ->
  nth_error ss i = Some s -> nth_error (filled_all ts cs ss) i = Some (filled t c s).
Proof.
  induction ts as [|t0 ts IH]; intros [|c0 cs] [|s0 ss] [|i] t c s; cbn; try discriminate; auto.
  congruence.
Qed.

Lemma filled_all_length ts : forall cs ss, length cs = length ts -> length ss = length ts ->
  length (filled_all ts cs ss) = length ts.
Proof.
  induction ts as [|t0 ts IH]; intros [|c0 cs] [|s0 ss]; cbn; try discriminate; auto.
Qed.

Lemma Forall2_nth {A B} (P : A -> B -> Prop) l m :
  length l = length m -> (forall i a b, nth_error l i = Some a -> nth_error m i = Some b -> P a b) -> Forall2 P l m.
Proof.
  revert m. induction l as [|a l IH]; intros [|b m] L H; try discriminate; constructor.
  - apply (H 0); auto.
  - apply IH; [now injection L|]. intros i. apply (H (S i)).
Qed.

Lemma nth_combine {A B} (l : list A) : forall (m : list B) i a b, nth_error l i = Some a -> nth_error m i = Some b ->
  nth_error (combine l m) i = Some (a, b).
Proof. induction l as [|x l IH]; intros [|y m] [|i] a b; cbn; try discriminate; auto. congruence. Qed.

Lemma in_combine_nth {A B} (l : list A) : forall (m : list B) a b, In (a, b) (combine l m) ->
  exists i, nth_error l i = Some a /\ nth_error m i = Some b.
Proof.
  induction l as [|x l IH]; intros [|y m] a b H; try easy. destruct H as [H|H].
  - injection H as -> ->. exists 0. auto.
  - destruct (IH _ _ _ H) as (i & Hi). exists (S i). auto.
Qed.

Lemma nth_seq0 n i j : nth_error (seq 0 n) i = Some j -> j = i /\ i < n.
Proof.
  intros H. assert (i < n) by (rewrite <- (seq_length n 0); apply nth_error_Some; congruence).
  apply nth_error_nth with (d := 0) in H. rewrite seq_nth in H by auto. split; auto.
Qed.

Lemma Forall2_nth_r {A B} (P : A -> B -> Prop) l m i a : Forall2 P l m -> nth_error l i = Some a ->
  exists b, nth_error m i = Some b /\ P a b.
Proof.
  intros H. revert i. induction H as [|x y l m HP HF IH]; intros [|i]; cbn; try discriminate; eauto.
  injection 1 as ->. eauto.
Qed.

Lemma map_snd_rev_combine {A} (l : list A) : map snd (rev (combine (seq 0 (length l)) l)) = rev l.
Proof.
  rewrite map_rev. f_equal. generalize 0. induction l as [|a l IH]; intros n; cbn; auto. now rewrite IH.
Qed.

Lemma swap_subtrees_spec inds ts cs w : NoDup inds -> trees_at w inds ts ->
  Forall2 (fun t c => exists nt, picked_place nt t c) ts cs ->
  exists w', swap_subtrees inds (map (fun c => flatten (p_sub c)) cs) w = (Ok tt, w') /\
    trees_at w' inds (filled_all ts cs (rotate (map p_sub cs))).
Proof.
  intros Hnd Ht Hp. unfold swap_subtrees.
  set (items := rev (combine (seq 0 (length inds)) inds)).
  set (subs := map (fun c => flatten (p_sub c)) cs).
  assert (length ts = length inds) as L1 by (apply Forall2_len in Ht; auto).
  assert (length cs = length ts) as L2 by (apply Forall2_len in Hp; auto).
  set (Post := fun (x : nat * oid) (i : ind) => forall t c s, nth_error ts (fst x) = Some t -> nth_error cs (fst x) = Some c ->
      nth_error (rotate (map p_sub cs)) (fst x) = Some s -> i_genome i = GTree (filled t c s)).
  assert (Hstep : forall x w1, In x items -> at_ w1 (snd x) = at_ w (snd x) ->
     exists i, swap_one subs x w1 = (Ok tt, put_at w1 (snd x) i) /\ snd x < length (w_heap w1) /\ Post x i).
  { intros [k o] w1 Hx Hat. cbn [snd] in *. apply in_rev in Hx. apply in_combine_nth in Hx as (j & Hj & Ho).
    apply nth_seq0 in Hj as [-> Hj].
    destruct (Forall2_nth_r _ _ _ _ _ Ht Ho) as (t & Hnt & (i & Hi & Hg)).
    destruct (Forall2_nth_r _ _ _ _ _ Hp Hnt) as (c & Hnc & (nt & Hpl)).
    assert (exists s, nth_error (rotate (map p_sub cs)) j = Some s) as (s & Hns).
    { destruct (nth_error (rotate (map p_sub cs)) j) eqn:E; eauto. apply nth_error_None in E.
      rewrite rotate_length, map_length in E. lia. }
    assert (nth_error subs j = Some (flatten (p_sub c))) as Hold.
    { unfold subs. rewrite nth_error_map, Hnc. reflexivity. }
    assert (nth_error (rotate subs) j = Some (flatten s)) as Hnew.
    { unfold subs. replace (map (fun c => flatten (p_sub c)) cs) with (map flatten (map p_sub cs)) by (rewrite map_map; auto).
      rewrite <- map_rotate, nth_error_map, Hns. reflexivity. }
    rewrite <- Hat in Hi.
    exists (set_genome (GTree (filled t c s)) i). split; [|split].
    - unfold swap_one. rewrite (py_get_nth _ _ _ Hold), (py_get_pred _ _ _ Hnew).
      unfold bind at 1 2, lift at 1 2. rewrite (bind_eq_ok _ _ _ _ _ (load_tree_at _ _ _ _ Hi Hg)).
      rewrite (picked_replace nt t c _ Hpl). unfold bind, lift, put_genome.
      rewrite (modify_at _ _ _ _ Hi). reflexivity.
    - eapply at_lt; eauto.
    - intros t' c' s' E1 E2 E3. cbn [fst] in *. rewrite Hnt in E1. rewrite Hnc in E2. rewrite Hns in E3.
      injection E1 as <-. injection E2 as <-. injection E3 as <-. reflexivity. }
  destruct (iterM (swap_one subs) items w) as [r w'] eqn:E.
  destruct (iterM_once (swap_one subs) snd Post items w r w') as (L & Q & P); auto.
  { unfold items. rewrite map_snd_rev_combine. now apply NoDup_rev. }
  { intros x w1 r1 w2 Hx Hat H. destruct (Hstep x w1 Hx Hat) as (i & E1 & Hlt & HP). rewrite E1 in H.
    injection H as <- <-. exists i. auto. }
  assert (r = Ok tt) as ->.
  { assert (forall l w1, (forall x, In x l -> In x items) -> NoDup (map snd l) ->
              (forall x, In x l -> at_ w1 (snd x) = at_ w (snd x)) -> exists w2, iterM (swap_one subs) l w1 = (Ok tt, w2)) as HT.
    { induction l as [|x l IH]; intros w1 Hin Hn Hl; cbn [iterM]; [unfold ret; eauto|].
      cbn [map] in Hn. apply NoDup_cons_iff in Hn as [Hx Hn].
      destruct (Hstep x w1) as (i & E1 & Hlt & HP); [apply Hin; now left|apply Hl; now left|].
      rewrite (bind_eq_ok _ _ _ _ _ E1). apply IH; auto; [intros; apply Hin; now right|].
      intros y Hy. rewrite at_put_other; [apply Hl; now right|]. intros Ek. apply Hx. rewrite Ek. now apply in_map. }
    destruct (HT items w) as (w2 & E2); auto.
    - unfold items. rewrite map_snd_rev_combine. now apply NoDup_rev.
    - congruence. }
  exists w'. split; auto.
  assert (length (filled_all ts cs (rotate (map p_sub cs))) = length ts) as L3.
  { apply filled_all_length; auto. rewrite rotate_length, map_length. auto. }
  apply Forall2_nth; [lia|]. intros j o t' Ho Ht'.
  destruct (Forall2_nth_r _ _ _ _ _ Ht Ho) as (t & Hnt & _).
  destruct (Forall2_nth_r _ _ _ _ _ Hp Hnt) as (c & Hnc & _).
  assert (j < length inds) as Hj by (apply nth_error_Some; congruence).
  assert (exists s, nth_error (rotate (map p_sub cs)) j = Some s) as (s & Hns).
  { destruct (nth_error (rotate (map p_sub cs)) j) eqn:En; eauto. apply nth_error_None in En.
    rewrite rotate_length, map_length in En. lia. }
  rewrite (nth_filled_all _ _ _ _ _ _ _ Hnt Hnc Hns) in Ht'. injection Ht' as <-.
  destruct (P (j, o)) as [[H _]|(i & Hi & HP)]; [|congruence|].
  { unfold items. rewrite <- in_rev. eapply nth_error_In. apply nth_combine; eauto.
    rewrite nth_error_nth' with (d := 0) by (rewrite seq_length; lia). rewrite seq_nth by lia. reflexivity. }
  exists i. split; auto.
Qed.

Lemma xo_attempt_spec inds ts w : NoDup inds -> inds <> [] -> trees_at w inds ts -> Forall complete_tree ts ->
  exists b w', xo_attempt (length inds) inds w = (Ok b, w') /\
    if b then exists cs, picked_all ts cs /\ trees_at w' inds (filled_all ts cs (rotate (map p_sub cs)))
    else trees_at w' inds ts /\ ~ matchable ts.
Proof.
  intros Hnd Hne Ht Hc. unfold xo_attempt. rewrite Nat.eqb_refl. cbn [negb].
  destruct (pick_subtrees_spec inds ts w Hne Ht Hc) as (r & w1 & E & Hh & Hr).
  rewrite (bind_eq_ok _ _ _ _ _ E). assert (Ht1 : trees_at w1 inds ts) by (eapply trees_at_heap; eauto).
  destruct r as [ls|]; [|exists false, w1; split; auto].
  destruct Hr as (cs & Hp & ->).
  destruct (swap_subtrees_spec inds ts cs w1 Hnd Ht1 (picked_all_places _ _ Hp)) as (w2 & E2 & Ht2).
  rewrite (bind_eq_ok _ _ _ _ _ E2). exists true, w2. split; [reflexivity|]. eauto.
Qed.

(** ** Failable operators whose failed attempts change nothing *)
Lemma failable_once (att : M bool) (inds : list oid) (I S F : world -> Prop) k :
  (forall w, I w -> match att w with (Ok true, w') => S w' | (Ok false, w') => I w' | (Raise _, w') => F w' end) ->
  forall j w, I w ->
  match failable_from (fun _ => ok <- att ;; ret (ok, Some inds)) (ret (Some inds)) j k w with
  | (Ok r, w') => r = Some inds /\ (S w' \/ I w')
  | (Raise _, w') => F w'
  end.
Proof.
  intros H. induction k as [|k IH]; intros j w Hw.
  - cbn. auto.
  - rewrite failable_step. specialize (H w Hw). destruct (att w) as [[[|]|e] w1]; auto.
    apply IH. auto.
Qed.

Lemma operator_once op att (inds : list oid) (I S F : world -> Prop) w :
  (forall w, op_apply op inds w =
     failable_apply (op_attempts op) (fun _ => ok <- att ;; ret (ok, Some inds)) (ret (Some inds)) w) ->
  (forall w w', gkeep w w' -> I w -> I w') -> (forall w w', gkeep w w' -> S w -> S w') ->
  (forall w, I w -> present inds w) -> (forall w, S w -> present inds w) ->
  (forall w, I w -> match att w with (Ok true, w') => S w' | (Ok false, w') => I w' | (Raise _, w') => F w' end) ->
  I w ->
  match apply_operator op inds w with
  | (Ok l, w') => l = inds /\ (S w' \/ I w')
  | (Raise _, w') => F w'
  end.
Proof.
  intros Eop KI KS PI PS H Hw. unfold apply_operator.
  destruct (wp_cases (okind_name (op_kind op)) (op_prob op) (op_apply op) inds w (PI _ Hw)) as (u & w1 & _ & _ & K & [[_ ->]|[_ ->]]).
  - split; auto. right. eauto.
  - rewrite Eop. unfold failable_apply.
    pose proof (failable_once att inds I S F (op_attempts op) H 0 w1 (KI _ _ K Hw)) as Hf.
    destruct (failable_from _ _ 0 (op_attempts op) w1) as [[r|e] w2]; auto.
    destruct Hf as [-> Hf]. assert (present inds w2) as Hp by (destruct Hf; auto).
    destruct (records_ok (okind_name (op_kind op)) inds inds w2 Hp Hp) as (w3 & E3 & K3).
    rewrite (bind_eq_ok _ _ _ _ _ E3). unfold ret. split; auto. destruct Hf; eauto.
Qed.

(** Crossover: it always succeeds; it is one exchange, or nothing changes. *)
Lemma crossover_op_trees op inds ts w : op_kind op = OSubtreeXO -> op_arity op = length inds ->
  NoDup inds -> inds <> [] -> trees_at w inds ts -> Forall complete_tree ts ->
  exists w', apply_operator op inds w = (Ok inds, w') /\
    (trees_at w' inds ts \/
     exists cs, picked_all ts cs /\ trees_at w' inds (filled_all ts cs (rotate (map p_sub cs)))).
Proof.
  intros Hk Ha Hnd Hne Ht Hc.
  pose proof (operator_once op (xo_attempt (op_arity op) inds) inds (fun w => trees_at w inds ts)
    (fun w => exists cs, picked_all ts cs /\ trees_at w inds (filled_all ts cs (rotate (map p_sub cs)))) (fun _ => False) w) as H.
  destruct (apply_operator op inds w) as [[l|e] w'].
  - destruct H as [-> H]; auto.
    + intros w1. unfold op_apply. rewrite Hk. reflexivity.
    + intros; eapply trees_keep; eauto.
    + intros w1 w2 K (cs & Hp & Hts). exists cs. split; auto. eapply trees_keep; eauto.
    + intros; eapply trees_present; eauto.
    + intros w1 (cs & Hp & Hts). eapply trees_present; eauto.
    + intros w1 Ht1. rewrite Ha. destruct (xo_attempt_spec inds ts w1 Hnd Hne Ht1 Hc) as (b & w2 & -> & H2). destruct b; tauto.
    + exists w'. split; auto. tauto.
  - exfalso. apply H; auto.
    + intros w1. unfold op_apply. rewrite Hk. reflexivity.
    + intros; eapply trees_keep; eauto.
    + intros w1 w2 K (cs & Hp & Hts). exists cs. split; auto. eapply trees_keep; eauto.
    + intros; eapply trees_present; eauto.
    + intros w1 (cs & Hp & Hts). eapply trees_present; eauto.
    + intros w1 Ht1. rewrite Ha. destruct (xo_attempt_spec inds ts w1 Hnd Hne Ht1 Hc) as (b & w2 & -> & H2). destruct b; tauto.
Qed.

(** *** Consequences of an exchange *)
Lemma picked_all_crossed ts cs : picked_all ts cs -> crossed ts (filled_all ts cs (rotate (map p_sub cs))).
Proof.
  intros H. exists cs. split; auto. eapply Forall2_imp_in; [|apply picked_all_places; exact H].
  intros t c (nt & Hp). eapply picked_place_in; eauto.
Qed.

Lemma place_nodes t c : place_in t c -> t_nodes t = p_before c ++ flatten (p_sub c) ++ p_after c.
Proof. intros (rt & _ & <- & H). now apply subtree_flatten. Qed.


Lemma filled_nodes ts cs : Forall2 place_in ts cs -> forall ss, length ss = length ts ->
  Permutation (nodes_of (filled_all ts cs ss)) (flat_map (fun c => p_before c ++ p_after c) cs ++ flat_map flatten ss).
Proof.
  induction 1 as [|t c ts cs Hp HF IH]; intros [|s ss] L; try discriminate; cbn [filled_all flat_map nodes_of]; auto.
  unfold nodes_of in IH. cbn [flat_map]. rewrite IH by (cbn in L; lia). unfold filled. cbn [t_nodes with_nodes].
  rewrite <- !app_assoc. apply Permutation_app_head.
  rewrite (Permutation_app_comm (flatten s)). rewrite <- !app_assoc. apply Permutation_app_head.
  rewrite !app_assoc. rewrite Permutation_app_comm. rewrite <- !app_assoc. 
  rewrite (Permutation_app_comm (flatten s)). rewrite <- app_assoc. apply Permutation_app_head.
  apply Permutation_app_comm.
Qed.

Lemma filled_self ts cs : Forall2 place_in ts cs -> filled_all ts cs (map p_sub cs) = ts.
Proof.
  induction 1 as [|t c ts cs Hp HF IH]; cbn; auto. rewrite IH. f_equal. unfold filled.
  rewrite <- (place_nodes t c Hp). destruct t; reflexivity.
Qed.

Lemma Permutation_flat_map {A B} (f : A -> list B) l m : Permutation l m -> Permutation (flat_map f l) (flat_map f m).
Proof.
  induction 1 as [|x l m H IH|x y l|l m n H1 IH1 H2 IH2]; cbn; auto.
  - now apply Permutation_app_head.
  - rewrite !app_assoc. apply Permutation_app_tail, Permutation_app_comm.
  - now transitivity (flat_map f m).
Qed.

Lemma crossed_perm ts ts' : crossed ts ts' -> Permutation (nodes_of ts) (nodes_of ts').
Proof.
  intros (cs & Hp & ->). pose proof (Forall2_len _ _ _ Hp) as L.
  rewrite <- (filled_self ts cs Hp) at 1.
  rewrite !filled_nodes; auto; try (rewrite ?rotate_length, map_length; auto).
  apply Permutation_app_head, Permutation_flat_map. symmetry. apply rotate_perm.
Qed.

Lemma filled_all_In ts : forall cs ss t', In t' (filled_all ts cs ss) ->
  exists t c s i, nth_error ts i = Some t /\ nth_error cs i = Some c /\ nth_error ss i = Some s /\ t' = filled t c s.
Proof.
  induction ts as [|t ts IH]; intros [|c cs] [|s ss] t' H; try easy. destruct H as [<-|H].
  - exists t, c, s, 0. auto.
  - destruct (IH _ _ _ H) as (t1 & c1 & s1 & i & H1). exists t1, c1, s1, (S i). auto.
Qed.

Lemma place_splice t c s : place_in t c -> saturated s ->
  exists rt, saturated rt /\ flatten rt = t_nodes (filled t c s) /\
    (delivers (label s) = delivers (label (p_sub c)) -> root_type_of (filled t c s) = root_type_of t) /\
    (well_typed_tree t -> well_typed s -> delivers (label s) = delivers (label (p_sub c)) -> well_typed rt).
Proof.
  intros (r0 & Hs & E & Hsub) Hss. destruct (splice _ _ _ _ s Hsub Hs Hss) as (rt & H1 & H2 & H3 & H4).
  exists rt. split; auto. split; [now apply subtree_flatten in H1|]. split.
  - intros Hd. unfold root_type_of. rewrite <- E.
    replace (t_nodes (filled t c s)) with (flatten rt) by (apply subtree_flatten in H1; exact H1).
    destruct (flatten_hd rt) as (x & ->), (flatten_hd r0) as (y & ->). cbn. now rewrite H3.
  - intros (r1 & Hs1 & E1 & Hw) Ws Hd. apply H4; auto.
    replace r0 with r1; auto. apply flatten_inj; congruence.
Qed.

Lemma place_sub t c : place_in t c -> saturated (p_sub c) /\ (forall n, In n (flatten (p_sub c)) -> In n (t_nodes t)) /\
  (well_typed_tree t -> well_typed (p_sub c)).
Proof.
  intros (rt & Hs & E & Hsub). split; [eapply subtree_saturated; eauto|]. split.
  - intros n Hn. rewrite <- E, (subtree_flatten _ _ _ _ Hsub), !in_app_iff. auto.
  - intros (r1 & Hs1 & E1 & Hw). replace r1 with rt in Hw by (apply flatten_inj; congruence).
    eapply subtree_typed; eauto.
Qed.

(** Each donor is a subtree of one of the trees. *)
Lemma donor_from ts cs i s : Forall2 place_in ts cs -> nth_error (rotate (map p_sub cs)) i = Some s ->
  exists t c, In t ts /\ In c cs /\ place_in t c /\ s = p_sub c.
Proof.
  intros HF Hn. apply nth_error_In in Hn. apply (Permutation_in _ (rotate_perm _)) in Hn.
  apply in_map_iff in Hn as (c & <- & Hc). destruct (Forall2_In_r _ _ _ _ HF Hc) as (t & Ht & Hp).
  exists t, c. auto.
Qed.

Lemma crossed_complete fset ts ts' : (forall t, In t ts -> t_fset t = fset) -> Forall complete_tree ts ->
  crossed ts ts' -> Forall complete_tree ts' /\ (forall t, In t ts' -> t_fset t = fset).
Proof.
  intros Hf Hc (cs & HF & ->). rewrite Forall_forall in Hc.
  assert (forall t', In t' (filled_all ts cs (rotate (map p_sub cs))) -> complete_tree t' /\ t_fset t' = fset) as H.
  { intros t' Ht'. destruct (filled_all_In _ _ _ _ Ht') as (t & c & s & i & H1 & H2 & H3 & ->).
    destruct (donor_from _ _ _ _ HF H3) as (t2 & c2 & Ht2 & Hc2 & Hp2 & ->).
    pose proof (nth_error_In _ _ H1) as Ht.
    destruct (Forall2_nth_r _ _ _ _ _ HF H1) as (c' & Hc' & Hp). rewrite H2 in Hc'. injection Hc' as <-.
    destruct (place_sub _ _ Hp2) as (Hs2 & Hin2 & _).
    destruct (Hc t Ht) as (Ho & Hh & _). destruct (Hc t2 Ht2) as (Ho2 & _).
    split; [|cbn; auto]. split; [|split].
    - intros f. unfold filled. cbn [t_nodes with_nodes t_fset]. rewrite !in_app_iff. intros Hin.
      rewrite (Hf t Ht). destruct Hin as [Hin|[Hin|Hin]].
      + rewrite <- (Hf t Ht). apply Ho. rewrite (place_nodes _ _ Hp), !in_app_iff. auto.
      + rewrite <- (Hf t2 Ht2). apply Ho2. now apply Hin2.
      + rewrite <- (Hf t Ht). apply Ho. rewrite (place_nodes _ _ Hp), !in_app_iff. auto.
    - exact Hh.
    - destruct (place_splice t c (p_sub c2) Hp Hs2) as (rt & Hs & E & _). exists rt. auto. }
  split; [|intros; now apply H]. apply Forall_forall. intros; now apply H.
Qed.

(** Types: when all nodes are typed, or none is, the chosen roots have the same type. *)
Lemma picked_same_type ts cs : picked_all ts cs -> uniform_types ts ->
  exists ty, forall c, In c cs -> delivers (label (p_sub c)) = ty.
Proof.
  intros Hp Hu. destruct ts as [|t ts], cs as [|c cs]; cbn in Hp; try tauto. destruct Hp as [H0 HF].
  exists (delivers (label (p_sub c))). intros c' [<-|Hc']; auto.
  destruct (Forall2_In_r _ _ _ _ HF Hc') as (t' & Ht' & Hp').
  assert (In (label (p_sub c')) (t_nodes t')) as Hin'.
  { apply picked_place_in in Hp'. apply (place_sub _ _ Hp'). destruct (flatten_hd (p_sub c')) as (x & ->). now left. }
  assert (In (label (p_sub c)) (t_nodes t)) as Hin.
  { apply picked_place_in in H0. apply (place_sub _ _ H0). destruct (flatten_hd (p_sub c)) as (x & ->). now left. }
  destruct Hp' as (_ & _ & rt & _ & _ & _ & He).
  destruct Hu as [Hu|Hu].
  - pose proof (Hu t _ (or_introl eq_refl) Hin) as N. pose proof (Hu t' _ (or_intror Ht') Hin') as N'.
    destruct He as [He|[_ [He|He]]]; congruence.
  - rewrite (Hu t _ (or_introl eq_refl) Hin). apply (Hu t' _ (or_intror Ht') Hin').
Qed.

Lemma crossed_types ts cs : picked_all ts cs -> uniform_types ts ->
  Forall2 (fun t t' => root_type_of t' = root_type_of t /\
    ((forall u, In u ts -> well_typed_tree u) -> well_typed_tree t')) ts (filled_all ts cs (rotate (map p_sub cs))).
Proof.
  intros Hp Hu. destruct (picked_same_type ts cs Hp Hu) as (ty & Hty).
  pose proof (picked_all_crossed _ _ Hp) as (cs' & _ & _).
  assert (HF : Forall2 place_in ts cs).
  { eapply Forall2_imp_in; [|apply picked_all_places; exact Hp]. intros t c (nt & H). eapply picked_place_in; eauto. }
  pose proof (Forall2_len _ _ _ HF) as L.
  apply Forall2_nth. { symmetry. apply filled_all_length; auto. rewrite rotate_length, map_length. auto. }
  intros i t t' Ht Ht'. destruct (Forall2_nth_r _ _ _ _ _ HF Ht) as (c & Hc & Hpl).
  assert (exists s, nth_error (rotate (map p_sub cs)) i = Some s) as (s & Hns).
  { destruct (nth_error (rotate (map p_sub cs)) i) eqn:En; eauto. apply nth_error_None in En.
    rewrite rotate_length, map_length in En. assert (i < length ts) by (apply nth_error_Some; congruence). lia. }
  rewrite (nth_filled_all _ _ _ _ _ _ _ Ht Hc Hns) in Ht'. injection Ht' as <-.
  destruct (donor_from _ _ _ _ HF Hns) as (t2 & c2 & Ht2 & Hc2 & Hp2 & ->).
  destruct (place_sub _ _ Hp2) as (Hs2 & _ & Hw2).
  destruct (place_splice t c (p_sub c2) Hpl Hs2) as (rt & Hs & E & Hroot & Hw).
  assert (delivers (label (p_sub c2)) = delivers (label (p_sub c))) as Ed.
  { rewrite (Hty c2 Hc2). rewrite (Hty c); auto. eapply nth_error_In; eauto. }
  split; auto. intros HW. exists rt. repeat split; auto. apply Hw; auto.
  apply HW. eapply nth_error_In; eauto.
Qed.

(** ** Subtree mutation *)

Lemma height_leaf t : forall d, In (d + height t) (leaf_depths d t).
Proof.
  induction t as [n ks IH] using rose_ind; intros d. destruct ks as [|k ks]; [cbn; auto|].
  assert (exists k', In k' (k :: ks) /\ fold_right Nat.max 0 (map height (k :: ks)) = height k') as (k' & Hk & E).
  { clear.
    assert (forall l a, exists k', In k' (a :: l) /\ fold_right Nat.max 0 (map height (a :: l)) = height k') as H.
    { induction l as [|b l IHl]; intros a.
      - exists a. cbn. split; auto. lia.
      - destruct (IHl b) as (k' & Hk & E). cbn [map fold_right] in *.
        destruct (Nat.max_spec (height a) (Nat.max (height b) (fold_right Nat.max 0 (map height l)))) as [[_ ->]|[_ ->]].
        + exists k'. split; auto. now right.
        + exists a. split; auto. now left. }
    apply H. }
  cbn [height leaf_depths]. rewrite E. apply in_flat_map. exists k'. split; auto.
  rewrite All_In in IH. specialize (IH k' Hk (S d)). replace (d + S (height k')) with (S d + height k') by lia. auto.
Qed.

Lemma mut_one_spec mn mx o t c w r w' : tree_at w o t -> complete_tree t -> picked_place None t c ->
  mut_one mn mx (o, flatten (p_sub c)) w = (r, w') ->
  match r with
  | Ok _ => exists i s, w_heap w' = list_set (w_heap w) o i /\ o < length (w_heap w) /\
              i_genome i = GTree (filled t c s) /\ mutated mn mx t (filled t c s)
  | Raise _ => w_heap w' = w_heap w
  end.
Proof.
  intros (i & Hi & Hg) Hc Hp H. unfold mut_one in H.
  rewrite (bind_eq_ok _ _ _ _ _ (load_tree_at _ _ _ _ Hi Hg)) in H.
  destruct (flatten_hd (p_sub c)) as (rest & Er). pose proof Er as Er'. rewrite Er in H.
  rewrite (picked_label None t _ c Hc Hp) in H.
  set (nt := delivers (label (p_sub c))) in *.
  destruct (grow_tree (grow_fuel mn mx 0) t mn mx (Fin (1 # 2)) 0 nt (w_rng w)) as [[l|e] g'] eqn:Eg.
  - rewrite (bind_eq_ok _ _ _ _ _ (liftR_eq _ _ _ _ Eg)) in H. rewrite <- Er' in H.
    rewrite (picked_replace None t c _ Hp) in H. unfold bind, lift, put_genome in H.
    rewrite (modify_at _ _ _ i) in H by exact Hi. injection H as <- <-.
    apply grow_created in Eg as (s & (Hs & Hpr & Hh & Hl & Hu & Hw) & <-); [|lia].
    exists (set_genome (GTree (filled t c s)) i), s. split; [reflexivity|]. split; [eapply at_lt; eauto|]. split; [reflexivity|].
    exists c, s. split; [eapply picked_place_in; eauto|]. split; auto. split; auto. split; auto. split; auto. split.
    + apply (Hu (0 + height s)). apply height_leaf.
    + split; [intros Hpos x Hx; now apply Hl|].
      intros Ht. apply (Hw nt); auto. now left.
  - rewrite (bind_eq_raise _ _ _ _ _ (liftR_eq _ _ _ _ Eg)) in H. injection H as <- <-. reflexivity.
Qed.

Lemma mutated_complete mn mx t t' : complete_tree t -> mutated mn mx t t' -> complete_tree t' /\
  t_fset t' = t_fset t.
Proof.
  intros (Ho & Hh & _) (c & s & Hp & -> & Hs & Hpr & _). split; [|reflexivity]. split; [|split].
  - intros f. unfold filled. cbn [t_nodes with_nodes t_fset]. rewrite !in_app_iff. intros [Hin|[Hin|Hin]].
    + apply Ho. rewrite (place_nodes _ _ Hp), !in_app_iff. auto.
    + now apply Hpr in Hin.
    + apply Ho. rewrite (place_nodes _ _ Hp), !in_app_iff. auto.
  - exact Hh.
  - destruct (place_splice t c s Hp Hs) as (rt & H1 & H2 & _). exists rt. auto.
Qed.

Lemma mutated_types mn mx t t' : mutated mn mx t t' -> well_typed_tree t ->
  (forall c, place_in t c -> typed_terminals t (delivers (label (p_sub c)))) ->
  well_typed_tree t' /\ root_type_of t' = root_type_of t.
Proof.
  intros (c & s & Hp & -> & Hs & _ & _ & _ & _ & Ht) Hw HT. destruct (Ht (HT c Hp)) as [Ws Ds].
  destruct (place_splice t c s Hp Hs) as (rt & H1 & H2 & H3 & H4). split; auto.
  exists rt. auto.
Qed.

Lemma mut_attempt_spec mn mx inds ts w : NoDup inds -> trees_at w inds ts -> Forall complete_tree ts ->
  match mut_attempt mn mx inds w with
  | (Ok true, w') => exists ts', trees_at w' inds ts' /\ Forall2 (mutated mn mx) ts ts'
  | (Ok false, w') => trees_at w' inds ts /\ ~ Forall (open_for None) ts
  | (Raise _, w') => exists ts', trees_at w' inds ts' /\ Forall2 (fun t t' => t' = t \/ mutated mn mx t t') ts ts'
  end.
Proof.
  intros Hnd Ht Hc. unfold mut_attempt.
  destruct (picks_places None inds ts w Ht Hc) as (rs & w1 & E & Hh & Hr).
  rewrite (bind_eq_ok _ _ _ _ _ E). assert (Ht1 : trees_at w1 inds ts) by (eapply trees_at_heap; eauto).
  destruct (all_somes rs) as [ls|]; [|split; auto]. destruct Hr as (cs & HF & ->).
  set (items := combine inds (map (fun c => flatten (p_sub c)) cs)).
  set (Post := fun (x : oid * list node) (i : ind) => forall j t, nth_error inds j = Some (fst x) -> nth_error ts j = Some t ->
     exists t', i_genome i = GTree t' /\ mutated mn mx t t').
  assert (length ts = length inds) as L1 by (apply Forall2_len in Ht; auto).
  assert (length cs = length ts) as L2 by (apply Forall2_len in HF; auto).
  assert (map fst items = inds) as Ekeys.
  { unfold items. assert (length inds = length (map (fun c => flatten (p_sub c)) cs)) as L by (rewrite map_length; lia).
    revert L. generalize (map (fun c => flatten (p_sub c)) cs). clear. induction inds as [|o inds IH]; intros [|l m] L; try discriminate; cbn; auto.
    f_equal. apply IH. now injection L. }
  assert (Hstep : forall x w2 r w3, In x items -> at_ w2 (fst x) = at_ w1 (fst x) -> mut_one mn mx x w2 = (r, w3) ->
     match r with
     | Ok _ => exists i, w_heap w3 = list_set (w_heap w2) (fst x) i /\ fst x < length (w_heap w2) /\ Post x i
     | Raise _ => w_heap w3 = w_heap w2
     end).
  { intros [o old] w2 r w3 Hx Hat Hm. cbn [fst] in *. apply in_combine_nth in Hx as (j & Hj & Hold).
    rewrite nth_error_map in Hold. destruct (nth_error cs j) as [c|] eqn:Hcj; [|discriminate]. cbn in Hold. injection Hold as <-.
    destruct (Forall2_nth_r _ _ _ _ _ Ht1 Hj) as (t & Htj & (i & Hi & Hg)).
    destruct (Forall2_nth_r _ _ _ _ _ HF Htj) as (c' & Hc' & Hp). rewrite Hcj in Hc'. injection Hc' as <-.
    assert (complete_tree t) as Hct. { rewrite Forall_forall in Hc. apply Hc. eapply nth_error_In; eauto. }
    assert (tree_at w2 o t) as Hto by (exists i; split; congruence).
    pose proof (mut_one_spec mn mx o t c w2 r w3 Hto Hct Hp Hm) as H.
    destruct r; auto. destruct H as (i' & s & H1 & H2 & H3 & H4). exists i'. split; auto. split; auto.
    intros j' t' Hj' Ht'. cbn [fst] in Hj'. 
    assert (j' = j) as -> by (apply (NoDup_nth_error inds); [auto|apply nth_error_Some; congruence|congruence]).
    rewrite Htj in Ht'. injection Ht' as <-. eauto. }
  unfold bind at 1. destruct (iterM (mut_one mn mx) items w1) as [r w'] eqn:Ei.
  destruct (iterM_once (mut_one mn mx) fst Post items w1 r w') as (L & Q & P); auto; [now rewrite Ekeys|].
  assert (forall j o t, nth_error inds j = Some o -> nth_error ts j = Some t ->
    (r <> Ok tt /\ tree_at w' o t) \/ exists t', tree_at w' o t' /\ mutated mn mx t t') as HP.
  { intros j o t Hj Htj. assert (exists old, nth_error items j = Some (o, old)) as (old & Hit).
    { destruct (nth_error items j) as [[o' old]|] eqn:En.
      - exists old. unfold items in En. apply (f_equal (option_map fst)) in En. rewrite <- nth_error_map in En.
        fold items in En. rewrite Ekeys in En. cbn in En. congruence.
      - apply nth_error_None in En. rewrite <- (map_length fst), Ekeys in En.
        assert (j < length inds) by (apply nth_error_Some; congruence). lia. }
    destruct (P (o, old) (nth_error_In _ _ Hit)) as [[Hr Hsame]|(i & Hi & Hpost)].
    - left. split; auto. destruct (Forall2_nth_r _ _ _ _ _ Ht1 Hj) as (t2 & Htj2 & (i & Hi & Hg)).
      cbn [fst] in Hsame. exists i. split; congruence.
    - right. destruct (Hpost j t Hj Htj) as (t' & Hg & Hmu). exists t'. split; auto. exists i. auto. }
  assert (exists ts', trees_at w' inds ts' /\ Forall2 (fun t t' => (r <> Ok tt /\ t' = t) \/ mutated mn mx t t') ts ts') as (ts' & Hts' & HF').
  { clear - HP L1. revert ts L1 HP. induction inds as [|o inds IH]; intros [|t ts] L1 HP; try discriminate.
    - exists []. split; constructor.
    - destruct (IH ts) as (ts' & H1 & H2); [now injection L1|intros j; apply (HP (S j))|].
      destruct (HP 0 o t eq_refl eq_refl) as [[Hr Ho]|(t' & Ho & Hm)].
      + exists (t :: ts'). split; constructor; auto.
      + exists (t' :: ts'). split; constructor; auto. }
  destruct r as [[]|e].
  - cbn. exists ts'. split; auto. eapply Forall2_imp_in; [|exact HF']. intros t t' [[H _]|H]; [congruence|auto].
  - exists ts'. split; auto. eapply Forall2_imp_in; [|exact HF']. intros t t' [[_ H]|H]; auto.
Qed.

Lemma mutation_op_trees op mn mx inds ts w : op_kind op = OSubtreeMut mn mx ->
  NoDup inds -> trees_at w inds ts -> Forall complete_tree ts ->
  match apply_operator op inds w with
  | (Ok l, w') => l = inds /\ exists ts', trees_at w' inds ts' /\ (ts' = ts \/ Forall2 (mutated mn mx) ts ts')
  | (Raise _, w') => exists ts', trees_at w' inds ts' /\ Forall2 (fun t t' => t' = t \/ mutated mn mx t t') ts ts'
  end.
Proof.
  intros Hk Hnd Ht Hc.
  pose proof (operator_once op (mut_attempt mn mx inds) inds (fun w => trees_at w inds ts)
    (fun w => exists ts', trees_at w inds ts' /\ Forall2 (mutated mn mx) ts ts')
    (fun w => exists ts', trees_at w inds ts' /\ Forall2 (fun t t' => t' = t \/ mutated mn mx t t') ts ts') w) as H.
  match type of H with _ -> _ -> _ -> _ -> _ -> _ -> _ -> ?C => assert C as H' end.
  { apply H; auto.
    + intros w1. unfold op_apply. rewrite Hk. reflexivity.
    + intros; eapply trees_keep; eauto.
    + intros w1 w2 K (ts' & Hts & Hp). exists ts'. split; auto. eapply trees_keep; eauto.
    + intros; eapply trees_present; eauto.
    + intros w1 (ts' & Hts & Hp). eapply trees_present; eauto.
    + intros w1 Ht1. pose proof (mut_attempt_spec mn mx inds ts w1 Hnd Ht1 Hc) as H1.
      destruct (mut_attempt mn mx inds w1) as [[[|]|e] w2]; tauto. }
  destruct (apply_operator op inds w) as [[l|e] w']; auto.
  destruct H' as [-> [(ts' & H1 & H2)|H1]]; split; auto; eauto.
Qed.

Lemma iterM_once_total {X} (f : X -> M unit) (key : X -> oid) l : forall w,
  NoDup (map key l) ->
  (forall x w1, In x l -> at_ w1 (key x) = at_ w (key x) -> exists w2 i, f x w1 = (Ok tt, w2) /\
      w_heap w2 = list_set (w_heap w1) (key x) i) ->
  exists w', iterM f l w = (Ok tt, w').
Proof.
  induction l as [|x l IH]; intros w Hnd Hf; cbn [iterM]; [eexists; reflexivity|].
  cbn [map] in Hnd. apply NoDup_cons_iff in Hnd as [Hx Hnd].
  destruct (Hf x w (or_introl eq_refl) eq_refl) as (w2 & i & E & Hh).
  rewrite (bind_eq_ok _ _ _ _ _ E). apply IH; auto.
  intros y w1 Hy Ha. apply Hf; [now right|]. rewrite Ha. unfold at_. rewrite Hh. apply nth_list_set_other.
  intros Ek. apply Hx. rewrite Ek. apply in_map. auto.
Qed.

Lemma mut_attempt_total mn mx inds ts w : NoDup inds -> trees_at w inds ts -> Forall complete_tree ts ->
  Forall replaceable ts -> exists b w', mut_attempt mn mx inds w = (Ok b, w').
Proof.
  intros Hnd Ht Hc Hrep. unfold mut_attempt.
  destruct (picks_places None inds ts w Ht Hc) as (rs & w1 & E & Hh & Hr).
  rewrite (bind_eq_ok _ _ _ _ _ E). assert (Ht1 : trees_at w1 inds ts) by (eapply trees_at_heap; eauto).
  destruct (all_somes rs) as [ls|]; [|eexists _, _; reflexivity]. destruct Hr as (cs & HF & ->).
  set (items := combine inds (map (fun c => flatten (p_sub c)) cs)).
  assert (length ts = length inds) as L1 by (apply Forall2_len in Ht; auto).
  assert (length cs = length ts) as L2 by (apply Forall2_len in HF; auto).
  assert (map fst items = inds) as Ekeys.
  { unfold items. assert (length inds = length (map (fun c => flatten (p_sub c)) cs)) as L by (rewrite map_length; lia).
    revert L. generalize (map (fun c => flatten (p_sub c)) cs). clear. induction inds as [|o inds IH]; intros [|l m] L; try discriminate; cbn; auto.
    f_equal. apply IH. now injection L. }
  destruct (iterM_once_total (mut_one mn mx) fst items w1) as (w' & Ei).
  - now rewrite Ekeys.
  - intros [o old] w2 Hx Hat. cbn [fst] in *. apply in_combine_nth in Hx as (j & Hj & Hold).
    rewrite nth_error_map in Hold. destruct (nth_error cs j) as [c|] eqn:Hcj; [|discriminate]. cbn in Hold. injection Hold as <-.
    destruct (Forall2_nth_r _ _ _ _ _ Ht1 Hj) as (t & Htj & (i & Hi & Hg)).
    destruct (Forall2_nth_r _ _ _ _ _ HF Htj) as (c' & Hc' & Hp). rewrite Hcj in Hc'. injection Hc' as <-.
    rewrite Forall_forall in Hc, Hrep. pose proof (Hc t (nth_error_In _ _ Htj)) as Hct.
    pose proof (Hrep t (nth_error_In _ _ Htj) c (picked_place_in _ _ _ Hp)) as Hsup.
    assert (at_ w2 o = Some i) as Hi2 by congruence. unfold mut_one.
    rewrite (bind_eq_ok _ _ _ _ _ (load_tree_at _ _ _ _ Hi2 Hg)).
    destruct (flatten_hd (p_sub c)) as (rest & Er). pose proof Er as Er'. rewrite Er.
    rewrite (picked_label None t _ c Hct Hp).
    destruct (grow_total (grow_fuel mn mx 0) t _ mn mx (Fin (1 # 2)) Hsup 0 (delivers (label (p_sub c))) (w_rng w2)) as (l & g' & Eg).
    { unfold grow_fuel. lia. }
    { now left. }
    rewrite (bind_eq_ok _ _ _ _ _ (liftR_eq _ _ _ _ Eg)). rewrite <- Er'.
    rewrite (picked_replace None t c _ Hp). unfold bind, lift, put_genome.
    rewrite (modify_at _ _ _ i) by exact Hi2. eexists _, _. split; [reflexivity|]. reflexivity.
  - rewrite (bind_eq_ok _ _ _ _ _ Ei). eexists _, _. reflexivity.
Qed.

Lemma mutation_op_total op mn mx inds ts w : op_kind op = OSubtreeMut mn mx ->
  NoDup inds -> trees_at w inds ts -> Forall complete_tree ts -> Forall replaceable ts ->
  exists w', apply_operator op inds w = (Ok inds, w').
Proof.
  intros Hk Hnd Ht Hc Hrep.
  pose proof (operator_once op (mut_attempt mn mx inds) inds (fun w => trees_at w inds ts)
    (fun w => exists ts', trees_at w inds ts' /\ Forall2 (mutated mn mx) ts ts') (fun _ => False) w) as H.
  match type of H with _ -> _ -> _ -> _ -> _ -> _ -> _ -> ?C => assert C as H' end.
  { apply H; auto.
    + intros w1. unfold op_apply. rewrite Hk. reflexivity.
    + intros; eapply trees_keep; eauto.
    + intros w1 w2 K (ts' & Hts & Hp). exists ts'. split; auto. eapply trees_keep; eauto.
    + intros; eapply trees_present; eauto.
    + intros w1 (ts' & Hts & Hp). eapply trees_present; eauto.
    + intros w1 Ht1. pose proof (mut_attempt_spec mn mx inds ts w1 Hnd Ht1 Hc) as H1.
      destruct (mut_attempt_total mn mx inds ts w1 Hnd Ht1 Hc Hrep) as (b & w2 & E). rewrite E in *.
      destruct b; tauto. }
  destruct (apply_operator op inds w) as [[l|e] w']; [|contradiction].
  destruct H' as [-> _]. eauto.
Qed.

(** ** ERC mutation *)

Lemma positions_from_In {A} (p : A -> bool) l : forall i j, In j (positions_from p i l) <->
  exists k x, j = i + k /\ nth_error l k = Some x /\ p x = true.
Proof.
  induction l as [|a l IH]; intros i j; cbn [positions_from].
  - split; [intros []|]. intros (k & x & _ & H & _). destruct k; discriminate.
  - assert (In j (positions_from p (S i) l) <-> exists k x, j = i + S k /\ nth_error l k = Some x /\ p x = true) as H.
    { rewrite IH. split; intros (k & x & -> & H); exists k, x; (split; [lia|auto]). }
    destruct (p a) eqn:E.
    + cbn [In]. rewrite H. split.
      * intros [<-|(k & x & Hk)]; [exists 0, a; cbn; split; [lia|auto]|exists (S k), x; auto].
      * intros ([|k] & x & -> & H1 & H2); [left; lia|right; exists k, x; auto].
    + rewrite H. split.
      * intros (k & x & Hk). exists (S k), x; auto.
      * intros ([|k] & x & -> & H1 & H2); [cbn in H1; congruence|exists k, x; auto].
Qed.

Definition numeric_at (t : tree) (p : nat) : Prop :=
  exists b x tag a, nth_error (t_nodes t) p = Some (TNode (TNum b x tag) a).

Lemma numeric_iff t p : (exists n, nth_error (t_nodes t) p = Some n /\ is_numeric_node n = true) <-> numeric_at t p.
Proof.
  split.
  - intros ([f|[s|b x tag] a] & H & E); try discriminate. exists b, x, tag, a. auto.
  - intros (b & x & tag & a & H). eexists. split; [exact H|reflexivity].
Qed.

Lemma numeric_node_spec t g : exists r g', get_random_numeric_node t g = (Ok r, g') /\
  match r with Some p => numeric_at t p | None => ~ has_number t end.
Proof.
  unfold get_random_numeric_node. destruct (positions_from is_numeric_node 0 (t_nodes t)) as [|p ps] eqn:E.
  - exists None, g. split; [reflexivity|]. intros (b & x & tag & a & H). apply In_nth_error in H as (k & Hk).
    assert (In k (positions_from is_numeric_node 0 (t_nodes t))) as Hin.
    { apply positions_from_In. exists k, (TNode (TNum b x tag) a). auto. }
    rewrite E in Hin. destruct Hin.
  - destruct (choice_ok (p :: ps) g) as (q & g' & H); [discriminate|].
    rewrite (bind_eq_ok _ _ _ _ _ H). exists (Some q), g'. split; [reflexivity|].
    apply choice_In in H. rewrite <- E in H. apply positions_from_In in H as (k & n & -> & H1 & H2).
    apply numeric_iff. exists n. auto.
Qed.

Lemma numeric_nodes inds ts w : trees_at w inds ts ->
  exists rs w', mapM (fun o => t <- load_tree o ;; liftR (get_random_numeric_node t)) inds w = (Ok rs, w') /\
    w_heap w' = w_heap w /\
    match all_somes rs with
    | None => exists t, In t ts /\ ~ has_number t
    | Some ps => Forall2 numeric_at ts ps
    end.
Proof.
  intros H. revert w H. revert ts. induction inds as [|o inds IH]; intros ts w H.
  - inversion H; subst. exists [], w. repeat split. constructor.
  - inversion H as [|? t ? ts' (i & Hi & Hg) Hts]; subst. cbn [mapM].
    destruct (numeric_node_spec t (w_rng w)) as (r & g' & Er & Hr).
    assert ((t <- load_tree o ;; liftR (get_random_numeric_node t)) w = (Ok r, mkWorld (w_heap w) (w_next_id w) g')) as E.
    { rewrite (bind_eq_ok _ _ _ _ _ (load_tree_at _ _ _ _ Hi Hg)). now apply liftR_eq. }
    rewrite (bind_eq_ok _ _ _ _ _ E).
    destruct (IH ts' (mkWorld (w_heap w) (w_next_id w) g')) as (rs & w' & Ers & Hh & Hrs).
    { eapply trees_at_heap; [|exact Hts]. reflexivity. }
    rewrite (bind_eq_ok _ _ _ _ _ Ers). exists (r :: rs), w'. split; [reflexivity|]. split; [exact Hh|].
    cbn [all_somes]. destruct r as [p|].
    + destruct (all_somes rs) as [ps|].
      * constructor; auto.
      * destruct Hrs as (u & Hu & Hn). exists u. split; auto. now right.
    + exists t. split; auto. now left.
Qed.

Lemma noised_intro mu sigma t p z tag' n : numeric_at t p -> nth_error (t_nodes t) p = Some n ->
  noised mu sigma t (with_nodes t (list_set (t_nodes t) p (add_noise (nadd mu (nmul (Fin z) sigma)) tag' n))).
Proof.
  intros (b & x & tag & a & H) Hn. rewrite H in Hn. injection Hn as <-.
  destruct (nth_split_firstn _ _ _ H) as [E L].
  exists (firstn p (t_nodes t)), b, x, tag, a, (skipn (S p) (t_nodes t)), z, tag'. split; auto.
  f_equal. cbn [add_noise]. rewrite E at 1. clear E. generalize (TNode (TNum true (nadd x (nadd mu (nmul (Fin z) sigma))) tag') a) as y.
  intros y. clear - L. revert L. generalize (firstn p (t_nodes t)) (skipn (S p) (t_nodes t)). intros m r <-.
  induction m as [|c m IH]; cbn; [auto|now rewrite IH].
Qed.

Lemma erc_one_spec mu sigma o p t w : tree_at w o t -> numeric_at t p ->
  exists w' i t', erc_one mu sigma (o, p) w = (Ok tt, w') /\ w_heap w' = list_set (w_heap w) o i /\
    o < length (w_heap w) /\ i_genome i = GTree t' /\ noised mu sigma t t'.
Proof.
  intros (i & Hi & Hg) Hp. pose proof Hp as (b & x & tag & a & Hn). unfold erc_one.
  rewrite (bind_eq_ok _ _ _ _ _ (load_tree_at _ _ _ _ Hi Hg)).
  unfold gauss, bind, liftR, next_draw, ret. cbn -[nadd nmul].
  rewrite Hn. unfold put_genome. rewrite (modify_at _ _ _ i) by exact Hi.
  eexists _, _, _. split; [reflexivity|]. split; [reflexivity|]. split; [eapply at_lt; eauto|]. split; [reflexivity|].
  apply noised_intro; auto.
Qed.

Lemma combine_keys {A B} (l : list A) : forall m : list B, length l = length m -> map fst (combine l m) = l.
Proof. induction l as [|a l IH]; intros [|b m] L; try discriminate; cbn; auto. f_equal. apply IH. now injection L. Qed.

Lemma erc_attempt_spec mu sigma inds ts w : NoDup inds -> trees_at w inds ts ->
  exists b w', erc_attempt mu sigma inds w = (Ok b, w') /\
  if b then exists ts', trees_at w' inds ts' /\ Forall2 (noised mu sigma) ts ts'
  else trees_at w' inds ts /\ exists t, In t ts /\ ~ has_number t.
Proof.
  intros Hnd Ht. unfold erc_attempt.
  destruct (numeric_nodes inds ts w Ht) as (rs & w1 & E & Hh & Hr).
  rewrite (bind_eq_ok _ _ _ _ _ E). assert (Ht1 : trees_at w1 inds ts) by (eapply trees_at_heap; eauto).
  destruct (all_somes rs) as [ps|]; [|exists false, w1; split; [reflexivity|auto]].
  set (items := combine inds ps).
  assert (length ts = length inds) as L1 by (apply Forall2_len in Ht; auto).
  assert (length ps = length ts) as L2 by (apply Forall2_len in Hr; auto).
  assert (map fst items = inds) as Ekeys by (apply combine_keys; lia).
  set (Post := fun (x : oid * nat) (i : ind) => forall j t, nth_error inds j = Some (fst x) -> nth_error ts j = Some t ->
     exists t', i_genome i = GTree t' /\ noised mu sigma t t').
  assert (Hstep : forall x w2, In x items -> at_ w2 (fst x) = at_ w1 (fst x) -> exists w3 i,
     erc_one mu sigma x w2 = (Ok tt, w3) /\
     w_heap w3 = list_set (w_heap w2) (fst x) i /\ fst x < length (w_heap w2) /\ Post x i).
  { intros [o p] w2 Hx Hat. cbn [fst] in *. apply in_combine_nth in Hx as (j & Hj & Hp).
    destruct (Forall2_nth_r _ _ _ _ _ Ht1 Hj) as (t & Htj & (i & Hi & Hg)).
    destruct (Forall2_nth_r _ _ _ _ _ Hr Htj) as (p' & Hp' & Hnum). rewrite Hp in Hp'. injection Hp' as <-.
    assert (tree_at w2 o t) as Hto by (exists i; split; congruence).
    destruct (erc_one_spec mu sigma o p t w2 Hto Hnum) as (w3 & i' & t' & H1 & H2 & H3 & H4 & H5).
    exists w3, i'. split; auto. split; auto. split; auto. intros j' t2 Hj' Ht'. cbn [fst] in Hj'.
    assert (j' = j) as -> by (apply (NoDup_nth_error inds); [auto|apply nth_error_Some; congruence|congruence]).
    rewrite Htj in Ht'. injection Ht' as <-. eauto. }
  destruct (iterM_once_total (erc_one mu sigma) fst items w1) as (w' & Ei).
  { now rewrite Ekeys. }
  { intros x w2 Hx Ha. destruct (Hstep x w2 Hx Ha) as (w3 & i & H1 & H2 & _). eauto. }
  rewrite (bind_eq_ok _ _ _ _ _ Ei). exists true, w'. split; [reflexivity|].
  destruct (iterM_once (erc_one mu sigma) fst Post items w1 (Ok tt) w') as (L & Q & P); auto; [now rewrite Ekeys| |].
  { intros x w2 r w3 Hx Ha Hm. destruct (Hstep x w2 Hx Ha) as (w3' & i & H1 & H2). rewrite H1 in Hm. injection Hm as <- <-. eauto. }
  assert (forall j o t, nth_error inds j = Some o -> nth_error ts j = Some t ->
    exists t', tree_at w' o t' /\ noised mu sigma t t') as HP.
  { intros j o t Hj Htj. assert (exists p, nth_error items j = Some (o, p)) as (p & Hit).
    { destruct (nth_error items j) as [[o' p]|] eqn:En.
      - exists p. unfold items in En. apply (f_equal (option_map fst)) in En. rewrite <- nth_error_map in En.
        fold items in En. rewrite Ekeys in En. cbn in En. congruence.
      - apply nth_error_None in En. rewrite <- (map_length fst), Ekeys in En.
        assert (j < length inds) by (apply nth_error_Some; congruence). lia. }
    destruct (P (o, p) (nth_error_In _ _ Hit)) as [[H _]|(i & Hi & Hpost)]; [congruence|].
    destruct (Hpost j t Hj Htj) as (t' & Hg & Hmu). exists t'. split; auto. exists i. auto. }
  clear - HP L1. revert ts L1 HP. induction inds as [|o inds IH]; intros [|t ts] L1 HP; try discriminate.
  - exists []. split; constructor.
  - destruct (IH ts) as (ts' & H1 & H2); [now injection L1|intros j; apply (HP (S j))|].
    destruct (HP 0 o t eq_refl eq_refl) as (t' & Ho & Hm). exists (t' :: ts'). split; constructor; auto.
Qed.

Lemma noised_has mu sigma t t' : noised mu sigma t t' -> has_number t.
Proof.
  intros (be & b & x & tag & a & af & z & tag' & E & _). exists b, x, tag, a. rewrite E, in_app_iff. right. now left.
Qed.

Lemma erc_op_trees op mu sigma inds ts w : op_kind op = OErc mu sigma ->
  NoDup inds -> trees_at w inds ts ->
  exists w' ts', apply_operator op inds w = (Ok inds, w') /\ trees_at w' inds ts' /\
    (ts' = ts \/ Forall2 (noised mu sigma) ts ts').
Proof.
  intros Hk Hnd Ht.
  pose proof (operator_once op (erc_attempt mu sigma inds) inds (fun w => trees_at w inds ts)
    (fun w => exists ts', trees_at w inds ts' /\ Forall2 (noised mu sigma) ts ts') (fun _ => False) w) as H.
  match type of H with _ -> _ -> _ -> _ -> _ -> _ -> _ -> ?C => assert C as H' end.
  { apply H; auto.
    + intros w1. unfold op_apply. rewrite Hk. reflexivity.
    + intros; eapply trees_keep; eauto.
    + intros w1 w2 K (ts' & Hts & Hp). exists ts'. split; auto. eapply trees_keep; eauto.
    + intros; eapply trees_present; eauto.
    + intros w1 (ts' & Hts & Hp). eapply trees_present; eauto.
    + intros w1 Ht1. destruct (erc_attempt_spec mu sigma inds ts w1 Hnd Ht1) as (b & w2 & E & Hb). rewrite E.
      destruct b; auto. tauto. }
  destruct (apply_operator op inds w) as [[l|e] w']; [|contradiction].
  destruct H' as [-> [(ts' & H1 & H2)|H1]]; eauto 8.
Qed.

(** ** With probability one and at least one attempt, the operators act whenever they can *)

Lemma nle_one p u : nle (Fin 1) p = true -> (u < 1)%Q -> nle (Fin u) p = true.
Proof.
  destruct p as [q| | |]; try discriminate; auto. rewrite !nle_fin. intros H Hu.
  apply Qlt_le_weak. eapply Qlt_le_trans; eauto.
Qed.

Lemma operator_sure op att (inds : list oid) (I S : world -> Prop) w :
  (forall w, op_apply op inds w =
     failable_apply (op_attempts op) (fun _ => ok <- att ;; ret (ok, Some inds)) (ret (Some inds)) w) ->
  nle (Fin 1) (op_prob op) = true -> 0 < op_attempts op ->
  (forall w w', gkeep w w' -> I w -> I w') -> (forall w w', gkeep w w' -> S w -> S w') ->
  (forall w, I w -> present inds w) -> (forall w, S w -> present inds w) ->
  (forall w, I w -> exists w', att w = (Ok true, w') /\ S w') ->
  I w -> exists w', apply_operator op inds w = (Ok inds, w') /\ S w'.
Proof.
  intros Eop Hprob Hatt KI KS PI PS H Hw. unfold apply_operator.
  destruct (wp_cases (okind_name (op_kind op)) (op_prob op) (op_apply op) inds w (PI _ Hw)) as (u & w1 & _ & Hu & K & [[Hf _]|[_ ->]]).
  - rewrite nle_one in Hf by auto. discriminate.
  - rewrite Eop. unfold failable_apply. destruct (op_attempts op) as [|k]; [lia|].
    rewrite failable_step. destruct (H w1 (KI _ _ K Hw)) as (w2 & -> & HS).
    destruct (records_ok (okind_name (op_kind op)) inds inds w2 (PS _ HS) (PS _ HS)) as (w3 & E3 & K3).
    rewrite (bind_eq_ok _ _ _ _ _ E3). unfold ret. eauto.
Qed.

Lemma crossover_op_sure op inds ts w : op_kind op = OSubtreeXO -> op_arity op = length inds ->
  nle (Fin 1) (op_prob op) = true -> 0 < op_attempts op ->
  NoDup inds -> trees_at w inds ts -> Forall complete_tree ts -> matchable ts ->
  exists w' ts', apply_operator op inds w = (Ok inds, w') /\ trees_at w' inds ts' /\ crossed ts ts'.
Proof.
  intros Hk Ha Hp Hat Hnd Ht Hc Hm.
  assert (inds <> []) as Hne. { intros ->. inversion Ht; subst. exact Hm. }
  destruct (operator_sure op (xo_attempt (op_arity op) inds) inds (fun w => trees_at w inds ts)
    (fun w => exists ts', trees_at w inds ts' /\ crossed ts ts') w) as (w' & E & ts' & H1 & H2); auto.
  - intros w1. unfold op_apply. rewrite Hk. reflexivity.
  - intros; eapply trees_keep; eauto.
  - intros w1 w2 K (ts' & Hts & Hx). exists ts'. split; auto. eapply trees_keep; eauto.
  - intros; eapply trees_present; eauto.
  - intros w1 (ts' & Hts & Hx). eapply trees_present; eauto.
  - intros w1 Ht1. rewrite Ha. destruct (xo_attempt_spec inds ts w1 Hnd Hne Ht1 Hc) as (b & w2 & E & H2).
    destruct b; [|tauto]. exists w2. split; auto. destruct H2 as (cs & Hpick & H2). eexists. split; [exact H2|].
    now apply picked_all_crossed.
  - eauto 6.
Qed.

Lemma mutation_op_sure op mn mx inds ts w : op_kind op = OSubtreeMut mn mx ->
  nle (Fin 1) (op_prob op) = true -> 0 < op_attempts op ->
  NoDup inds -> trees_at w inds ts -> Forall complete_tree ts -> Forall replaceable ts -> Forall (open_for None) ts ->
  exists w' ts', apply_operator op inds w = (Ok inds, w') /\ trees_at w' inds ts' /\ Forall2 (mutated mn mx) ts ts'.
Proof.
  intros Hk Hp Hat Hnd Ht Hc Hr Ho.
  destruct (operator_sure op (mut_attempt mn mx inds) inds (fun w => trees_at w inds ts)
    (fun w => exists ts', trees_at w inds ts' /\ Forall2 (mutated mn mx) ts ts') w) as (w' & E & ts' & H1 & H2); auto.
  - intros w1. unfold op_apply. rewrite Hk. reflexivity.
  - intros; eapply trees_keep; eauto.
  - intros w1 w2 K (ts' & Hts & Hx). exists ts'. split; auto. eapply trees_keep; eauto.
  - intros; eapply trees_present; eauto.
  - intros w1 (ts' & Hts & Hx). eapply trees_present; eauto.
  - intros w1 Ht1. pose proof (mut_attempt_spec mn mx inds ts w1 Hnd Ht1 Hc) as H1.
    destruct (mut_attempt_total mn mx inds ts w1 Hnd Ht1 Hc Hr) as (b & w2 & E). rewrite E in *.
    destruct b; [eauto|tauto].
  - eauto 6.
Qed.

Lemma erc_op_sure op mu sigma inds ts w : op_kind op = OErc mu sigma ->
  nle (Fin 1) (op_prob op) = true -> 0 < op_attempts op ->
  NoDup inds -> trees_at w inds ts -> Forall has_number ts ->
  exists w' ts', apply_operator op inds w = (Ok inds, w') /\ trees_at w' inds ts' /\ Forall2 (noised mu sigma) ts ts'.
Proof.
  intros Hk Hp Hat Hnd Ht Hn.
  destruct (operator_sure op (erc_attempt mu sigma inds) inds (fun w => trees_at w inds ts)
    (fun w => exists ts', trees_at w inds ts' /\ Forall2 (noised mu sigma) ts ts') w) as (w' & E & ts' & H1 & H2); auto.
  - intros w1. unfold op_apply. rewrite Hk. reflexivity.
  - intros; eapply trees_keep; eauto.
  - intros w1 w2 K (ts' & Hts & Hx). exists ts'. split; auto. eapply trees_keep; eauto.
  - intros; eapply trees_present; eauto.
  - intros w1 (ts' & Hts & Hx). eapply trees_present; eauto.
  - intros w1 Ht1. destruct (erc_attempt_spec mu sigma inds ts w1 Hnd Ht1) as (b & w2 & E & Hb). rewrite E.
    destruct b; [eauto|]. destruct Hb as (_ & t & Hin & Hno). rewrite Forall_forall in Hn. exfalso. auto.
  - eauto 6.
Qed.
