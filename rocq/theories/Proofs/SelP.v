(** Proofs about elitism and tournament selection. *)
From Verif.Proofs Require Export WorldP FitnessP StepP.
From Verif.Spec Require Export FitnessSpec SelSpec.
Open Scope nat_scope.

(** The heap only grew at its end. *)
Definition ext (w w' : world) : Prop := exists js, w_heap w' = w_heap w ++ js.

Global Instance ext_pre : PreOrder ext.
Proof.
  split; [intros w; exists []; rewrite app_nil_r; reflexivity|].
  intros a b c [x Hx] [y Hy]. exists (x ++ y). rewrite Hy, Hx, app_assoc. reflexivity.
Qed.

Lemma ext_at w w' o i : ext w w' -> at_ w o = Some i -> at_ w' o = Some i.
Proof.
  intros [js E] H. unfold at_. rewrite E, nth_error_app1; [exact H|]. eapply at_lt; eauto.
Qed.

Lemma ext_same w w' : w_heap w' = w_heap w -> ext w w'.
Proof. intros E. exists []. rewrite app_nil_r. exact E. Qed.

Lemma ext_scored w w' o a : ext w w' -> scored w o a -> scored w' o a.
Proof. intros E (i & H & S). exists i. split; [eapply ext_at; eauto|exact S]. Qed.

Lemma ext_oriented w w' o h : ext w w' -> oriented w h o -> oriented w' h o.
Proof. intros E (i & H & S). exists i. split; [eapply ext_at; eauto|exact S]. Qed.

(** ** Cloning the selected *)

Lemma clone_selected_ok name o w c w' : clone_selected name o w = (Ok c, w') ->
  exists i j, at_ w o = Some i /\ c = length (w_heap w) /\ w_heap w' = w_heap w ++ [j] /\ copy_of name i j.
Proof.
  intros H. unfold clone_selected in H. mb H as x w1 E1. mb H as u w2 E2. mr H.
  apply clone_ok in E1. destruct E1 as (i & Hi & -> & ->).
  rewrite (modify_at _ _ _ _ (at_push_new (bump w) _)) in E2. injection E2 as _ <-.
  exists i, (add_selected name (cloned i (w_next_id w))). split; [exact Hi|]. split; [reflexivity|].
  split.
  - simpl. clear. induction (w_heap w) as [|x l IH]; simpl; [reflexivity|]. f_equal. exact IH.
  - constructor; simpl; auto; try apply fit_kind_getstate; unfold fit_getstate; intros ->; reflexivity.
Qed.

Lemma clone_selected_total name o w i : at_ w o = Some i -> exists c w', clone_selected name o w = (Ok c, w').
Proof.
  intros H. unfold clone_selected. rewrite (bind_eq_ok _ _ _ _ _ (clone_at _ _ _ H)).
  rewrite (bind_eq_ok _ _ _ _ _ (modify_at _ _ _ _ (at_push_new (bump w) _))). eexists _, _. reflexivity.
Qed.

Lemma clone_selected_raise name o w e w' : clone_selected name o w = (Raise e, w') -> at_ w o = None.
Proof.
  intros H. destruct (at_ w o) as [i|] eqn:E; [|reflexivity].
  destruct (clone_selected_total name o w i E) as (c & w1 & E1). congruence.
Qed.

(** One element at a time: pick (without changing the heap) and clone. *)
Lemma copies_nil name w w' : w_heap w' = w_heap w -> copies name [] w [] w'.
Proof. intros E. split; [reflexivity|]. exists []. rewrite app_nil_r. auto. Qed.

Lemma copies_cons name o i j l w w1 cs w' : at_ w o = Some i -> copy_of name i j -> w_heap w1 = w_heap w ++ [j] ->
  (forall p, In p l -> exists i, at_ w p = Some i) ->
  copies name l w1 cs w' -> copies name (o :: l) w (length (w_heap w) :: cs) w'.
Proof.
  intros Hi Hc E Hl (-> & js & Ej & F). split.
  - rewrite E, app_length, Nat.add_1_r. reflexivity.
  - exists (j :: js). split; [rewrite Ej, E, <- app_assoc; reflexivity|].
    constructor; [eauto|]. revert Hl. clear - E F. induction F as [|p k l' js' (i' & Hi' & Hc) F IH]; intros Hl; constructor.
    + destruct (Hl p) as (i2 & H2); [left; reflexivity|]. exists i2. split; [exact H2|].
      assert (at_ w1 p = Some i2) by (eapply ext_at; [exists [j]; exact E|exact H2]). congruence.
    + apply IH. intros q Hq. apply Hl. right. exact Hq.
Qed.

Lemma copies_ext name l w cs w' : copies name l w cs w' -> ext w w'.
Proof. intros (_ & js & E & _). exists js. exact E. Qed.

Lemma copies_len name l w cs w' : copies name l w cs w' -> length cs = length l.
Proof. intros (-> & _). apply seq_length. Qed.

Lemma copies_fresh name l w cs w' c : copies name l w cs w' -> In c cs -> length (w_heap w) <= c < length (w_heap w').
Proof.
  intros (-> & js & E & F) H. apply in_seq in H. apply Forall2_len in F. rewrite E, app_length. lia.
Qed.

Lemma copies_heap name l w0 w cs w' : w_heap w = w_heap w0 -> copies name l w cs w' -> copies name l w0 cs w'.
Proof. unfold copies, at_. intros ->. auto. Qed.

(** General form: for each [x], [pick x] finds an individual without touching the heap; it is cloned. *)
Section Picking.
  Context {X : Type} (pick : X -> M oid) (name : string) (P : X -> oid -> Prop).

  Lemma picks_ok w0 xs : forall w cs w', ext w0 w ->
    (forall x w1 o w2, In x xs -> ext w0 w1 -> pick x w1 = (Ok o, w2) ->
       P x o /\ (exists i, at_ w0 o = Some i) /\ w_heap w2 = w_heap w1) ->
    mapM (fun x => o <- pick x ;; clone_selected name o) xs w = (Ok cs, w') ->
    exists os, Forall2 P xs os /\ (forall o, In o os -> exists i, at_ w0 o = Some i) /\ copies name os w cs w'.
  Proof.
    induction xs as [|x xs IH]; intros w cs w' He Hp H; simpl in H.
    - mr H. exists []. split; [constructor|]. split; [intros o []|]. apply copies_nil. reflexivity.
    - mb H as c w2 E1. mb H as cs' w3 E3. mr H. mb E1 as o w1 E2.
      destruct (Hp x w o w1) as (Hx & (i0 & Hi0) & Hh); [left; reflexivity|exact He|exact E2|].
      apply clone_selected_ok in E1. destruct E1 as (i & j & Hi & -> & Hj & Hcp).
      destruct (IH w2 cs' w') as (os & F & Hin & Hc).
      + transitivity w; [exact He|]. exists [j]. rewrite Hj, Hh. reflexivity.
      + intros y v p v' Hy. apply Hp. right. exact Hy.
      + exact E3.
      + exists (o :: os). split; [constructor; assumption|]. split; [intros p [<-|Hq]; eauto|].
        rewrite Hh. eapply copies_cons; eauto.
        * unfold at_. rewrite <- Hh. exact Hi.
        * rewrite <- Hh. exact Hj.
        * intros p Hq. destruct (Hin p Hq) as (i1 & Hi1). exists i1. eapply ext_at; eauto.
  Qed.

  Lemma picks_total w0 xs : forall w, ext w0 w ->
    (forall x w1, In x xs -> ext w0 w1 -> exists o w2 i, pick x w1 = (Ok o, w2) /\ w_heap w2 = w_heap w1 /\ at_ w0 o = Some i) ->
    exists cs w', mapM (fun x => o <- pick x ;; clone_selected name o) xs w = (Ok cs, w').
  Proof.
    induction xs as [|x xs IH]; intros w He Hp; simpl; [eexists _, _; reflexivity|].
    destruct (Hp x w) as (o & w1 & i & E1 & Hh & Hi); [left; reflexivity|exact He|].
    assert (A : at_ w1 o = Some i) by (eapply ext_at; [|exact Hi]; transitivity w; [exact He|apply ext_same; exact Hh]).
    destruct (clone_selected_total name o w1 i A) as (c & w2 & E2).
    destruct (IH w2) as (cs & w3 & E3).
    - destruct (clone_selected_ok _ _ _ _ _ E2) as (i' & j & _ & _ & Hj & _).
      transitivity w; [exact He|]. exists [j]. rewrite Hj, Hh. reflexivity.
    - intros y v Hy. apply Hp. right. exact Hy.
    - exists (c :: cs), w3. rewrite (bind_eq_ok _ _ _ c w2).
      + rewrite (bind_eq_ok _ _ _ _ _ E3). reflexivity.
      + rewrite (bind_eq_ok _ _ _ _ _ E1). exact E2.
  Qed.
End Picking.


Lemma clones_total name l w : present l w -> exists cs w', mapM (clone_selected name) l w = (Ok cs, w') /\ copies name l w cs w'.
Proof.
  intros Hp.
  assert (E : forall w1, mapM (clone_selected name) l w1 = mapM (fun x => o <- ret x ;; clone_selected name o) l w1).
  { intros w1. reflexivity. }
  destruct (picks_total (fun x => ret x) name w l w) as (cs & w' & H); [reflexivity| |].
  - intros x w1 Hx _. destruct (Hp x Hx) as (i & Hi). exists x, w1, i. auto.
  - exists cs, w'. split; [rewrite E; exact H|].
    destruct (picks_ok (fun x => ret x) name (fun x o => o = x) w l w cs w') as (os & F & _ & C); [reflexivity| |exact H|].
    + intros x w1 o w2 Hx _ Hr. mr Hr. auto.
    + assert (os = l) by (clear - F; induction F; congruence). subst. exact C.
Qed.

Lemma clones_ok name l w cs w' : present l w -> mapM (clone_selected name) l w = (Ok cs, w') -> copies name l w cs w'.
Proof. intros Hp H. destruct (clones_total name l w Hp) as (cs' & w2 & E & C). rewrite H in E. injection E as <- <-. exact C. Qed.

(** ** Sorting by fitness *)

Lemma insert_map {A B} (f : A -> B) bB bA x l : (forall y, In y l -> bB (f y) (f x) = bA y x) ->
  insert_stable bB (f x) (map f l) = map f (insert_stable bA x l).
Proof.
  induction l as [|y l IH]; intros H; simpl; [reflexivity|].
  rewrite H by (left; reflexivity). destruct (bA y x); simpl; [|reflexivity]. rewrite IH; [reflexivity|]. intros; apply H; right; assumption.
Qed.

Lemma sort_map {A B} (f : A -> B) bB bA l : (forall x y, In x l -> In y l -> bB (f x) (f y) = bA x y) ->
  sort_stable bB (map f l) = map f (sort_stable bA l).
Proof.
  induction l as [|x l IH]; intros H; simpl; [reflexivity|].
  rewrite IH by (intros; apply H; right; assumption). apply insert_map.
  intros y Hy. apply (Permutation_in _ (sort_perm bA l)) in Hy. apply H; simpl; auto.
Qed.

Definition better_b (h : bool) (a b : num) : bool := if h then nlt b a else nlt a b.

Lemma better_b_iff h a b : better_b h a b = true <-> better_score h a b.
Proof. unfold better_b, better_score. destruct h; tauto. Qed.

Lemma better_b_false h a b : better_b h a b = false <-> ~ better_score h a b.
Proof. rewrite <- better_b_iff. destruct (better_b h a b); split; congruence. Qed.

Lemma augmented_scored w o a : scored w o a -> augmented o w = (Ok (VNum a), w).
Proof.
  intros (i & H & _ & _ & S & _). unfold augmented. rewrite (bind_eq_ok _ _ _ _ _ (load_at _ _ _ H)). unfold ind_augmented.
  rewrite S. reflexivity.
Qed.

Lemma mapM_pure {S A B} (f : A -> SE S B) (g : A -> B) s l : (forall x, In x l -> f x s = (Ok (g x), s)) ->
  mapM f l s = (Ok (map g l), s).
Proof.
  induction l as [|x l IH]; intros H; simpl; [reflexivity|].
  rewrite (bind_eq_ok _ _ _ _ _ (H x (or_introl eq_refl))).
  rewrite (bind_eq_ok _ _ _ _ _ (IH (fun y Hy => H y (or_intror Hy)))). reflexivity.
Qed.

Lemma sorted_scored rev l w score : (forall o, In o l -> scored w o (score o)) ->
  sorted_by_fitness rev l w = (Ok (sort_stable (fun a b => better_b rev (score a) (score b)) l), w).
Proof.
  intros H. unfold sorted_by_fitness.
  rewrite (bind_eq_ok _ _ _ _ _ (mapM_pure augmented (fun o => VNum (score o)) w l (fun o Ho => augmented_scored _ _ _ (H o Ho)))).
  assert (K : keys_comparable (map (fun o => VNum (score o)) l) = true).
  { destruct l as [|a [|b r]]; [reflexivity|reflexivity|]. simpl. apply forallb_forall. intros x Hx. apply in_map_iff in Hx.
    destruct Hx as (o & <- & _). reflexivity. }
  rewrite K.
  assert (C : combine (map (fun o => VNum (score o)) l) l = map (fun o => (VNum (score o), o)) l).
  { clear. induction l as [|a l IH]; simpl; [reflexivity|]. rewrite IH. reflexivity. }
  rewrite C, (sort_map _ _ (fun a b => better_b rev (score a) (score b))).
  - rewrite map_map. simpl. rewrite map_id. reflexivity.
  - intros x y _ _. unfold key_before, better_b. simpl. reflexivity.
Qed.

Lemma scored_not_nan w o a : scored w o a -> is_nan a = false.
Proof. intros (i & _ & _ & _ & _ & N). exact N. Qed.

Lemma better_swo rev score l : (forall o : oid, In o l -> is_nan (score o) = false) ->
  swo_on (fun a b => better_b rev (score a) (score b)) l.
Proof.
  intros N. split.
  - intros x y _ _. unfold better_b. destruct rev; apply nlt_asym.
  - intros x y z Hx Hy Hz. unfold better_b. destruct rev; intros A B; [apply nlt_negtrans with (score y)|apply nlt_negtrans with (score y)]; auto.
Qed.

Lemma StronglySorted_app_l {A} (R : A -> A -> Prop) l l' : StronglySorted R (l ++ l') ->
  StronglySorted R l /\ forall a b, In a l -> In b l' -> R a b.
Proof.
  induction l as [|x l IH]; simpl; intros H; [split; [constructor|intros a b []]|].
  apply StronglySorted_inv in H. destruct H as [H1 H2]. destruct (IH H1) as [S F]. rewrite Forall_forall in H2. split.
  - constructor; [exact S|]. apply Forall_forall. intros y Hy. apply H2. apply in_or_app. auto.
  - intros a b [<-|Ha] Hb; [apply H2; apply in_or_app; auto|auto].
Qed.

Lemma firstn_In {A} n (l : list A) x : In x (firstn n l) -> In x l.
Proof. intros H. rewrite <- (firstn_skipn n l). apply in_or_app. auto. Qed.

Lemma elitism_best n rev src dest w score : (forall o, In o src -> scored w o (score o)) ->
  exists chosen rest cs w', elitism_select n rev src dest w = (Ok (dest ++ cs), w') /\
    copies "ElitismSelection" chosen w cs w' /\
    Permutation src (chosen ++ rest) /\ length chosen = Nat.min n (length src) /\
    StronglySorted (fun a b => ~ better_score rev (score b) (score a)) chosen /\
    (forall a b, In a chosen -> In b rest -> ~ better_score rev (score b) (score a)) /\
    (forall o, In o src -> filter (fun p => neq_num (score o) (score p)) (chosen ++ rest) =
                           filter (fun p => neq_num (score o) (score p)) src).
Proof.
  intros H. set (before := fun a b => better_b rev (score a) (score b)). set (s := sort_stable before src).
  assert (Hp : Permutation s src) by apply sort_perm.
  assert (Hpres : present (firstn n s) w).
  { intros o Ho. apply firstn_In in Ho. apply (Permutation_in _ Hp) in Ho. destruct (H o Ho) as (i & Hi & _). eauto. }
  destruct (clones_total "ElitismSelection" _ _ Hpres) as (cs & w' & Hm & Hc).
  exists (firstn n s), (skipn n s), cs, w'. rewrite firstn_skipn.
  split.
  { unfold elitism_select. rewrite (bind_eq_ok _ _ _ _ _ (sorted_scored rev src w score H)).
    change (sort_stable _ src) with s. rewrite (bind_eq_ok _ _ _ _ _ Hm). reflexivity. }
  split; [exact Hc|]. split; [symmetry; exact Hp|].
  split; [rewrite firstn_length, (Permutation_length Hp); reflexivity|].
  assert (O : ordered before s).
  { apply sort_ordered, better_swo. intros o Ho. eapply scored_not_nan; eauto. }
  unfold ordered in O. rewrite <- (firstn_skipn n s) in O. apply StronglySorted_app_l in O. destruct O as [O1 O2].
  split.
  { clear - O1. induction O1 as [|a l O1 IH F]; constructor; auto. rewrite Forall_forall in *. intros b Hb.
    apply better_b_false. apply (F b Hb). }
  split; [intros a b Ha Hb; apply better_b_false; exact (O2 a b Ha Hb)|].
  intros o Ho. unfold s. apply sort_stability. intros x y _ _ Hx Hy.
  assert (E : neq_num (score x) (score y) = true) by (eapply neq_num_trans; [rewrite neq_num_sym; exact Hx|exact Hy]).
  unfold before, better_b. destruct rev; [|rewrite neq_num_sym in E]; apply neq_nlt; exact E.
Qed.

(** ** Tournaments *)

Lemma better_scored w h a b x y : scored w a x -> scored w b y -> oriented w h a ->
  ind_better_than a b w = (Ok (better_b h x y), w).
Proof.
  intros (i & Hi & Si) (j & Hj & Sj) (i' & Hi' & Ho). rewrite Hi in Hi'. injection Hi' as <-.
  unfold ind_better_than. rewrite (bind_eq_ok _ _ _ _ _ (load_at _ _ _ Hi)), (bind_eq_ok _ _ _ _ _ (load_at _ _ _ Hj)).
  unfold liftR, better_than. destruct (better_char _ _ _ _ _ _ Si Sj) as [E _]. destruct Si as (C & _).
  rewrite Ho in E. fold (better_b h x y) in E.
  destruct (ft_class (i_fit i)); [..|discriminate C]; rewrite E; unfold lift; simpl; rewrite world_eta; reflexivity.
Qed.

(** A linear scan with [better_than] finds the first best. *)
Lemma scan_first_best h score w t : forall best pre post0,
  (forall o, In o (pre ++ best :: post0 ++ t) -> scored w o (score o) /\ oriented w h o) ->
  (forall p, In p pre -> better_score h (score best) (score p)) ->
  (forall p, In p post0 -> ~ better_score h (score p) (score best)) ->
  exists o, foldM (fun b p => r <- ind_better_than p b ;; ret (if r then p else b)) t best w = (Ok o, w) /\
            first_best h score (pre ++ best :: post0 ++ t) o.
Proof.
  induction t as [|p t IH]; intros best pre post0 Hs Hpre Hpost; simpl.
  - exists best. split; [reflexivity|]. exists pre, post0. rewrite app_nil_r. auto.
  - destruct (Hs p) as [Sp Op]; [apply in_or_app; right; right; apply in_or_app; right; left; reflexivity|].
    destruct (Hs best) as [Sb Ob]; [apply in_or_app; right; left; reflexivity|].
    assert (E : (r <- ind_better_than p best;; ret (if r then p else best)) w =
                (Ok (if better_b h (score p) (score best) then p else best), w)).
    { rewrite (bind_eq_ok _ _ _ _ _ (better_scored w h p best _ _ Sp Sb Op)). reflexivity. }
    rewrite (bind_eq_ok _ _ _ _ _ E). destruct (better_b h (score p) (score best)) eqn:B.
    + apply better_b_iff in B.
      destruct (IH p (pre ++ best :: post0) []) as (o & Ho & Hf).
      * rewrite <- app_assoc. simpl. exact Hs.
      * intros q Hq. apply in_app_or in Hq. 
        assert (Nb : is_nan (score best) = false) by (eapply scored_not_nan; eauto).
        assert (Np : is_nan (score p) = false) by (eapply scored_not_nan; eauto).
        destruct Hq as [Hq|[<-|Hq]]; [|exact B|].
        -- specialize (Hpre q Hq). unfold better_score in *. destruct h; eapply nlt_trans; eassumption.
        -- specialize (Hpost q Hq).
           assert (Nq : is_nan (score q) = false).
           { apply scored_not_nan with w q. apply Hs. apply in_or_app. right. right. apply in_or_app. left. exact Hq. }
           unfold better_score in *. destruct h.
           ++ destruct (nlt (score q) (score p)) eqn:F; [reflexivity|].
              destruct (nlt (score best) (score q)) eqn:G; [contradiction Hpost; reflexivity|].
              rewrite (nlt_negtrans _ _ _ Nb Nq Np G F) in B. discriminate.
           ++ destruct (nlt (score p) (score q)) eqn:F; [reflexivity|].
              destruct (nlt (score q) (score best)) eqn:G; [contradiction Hpost; reflexivity|].
              rewrite (nlt_negtrans _ _ _ Np Nq Nb F G) in B. discriminate.
      * intros q [].
      * exists o. split; [exact Ho|]. rewrite <- app_assoc in Hf. simpl in Hf. exact Hf.
    + destruct (IH best pre (post0 ++ [p])) as (o & Ho & Hf).
      * rewrite <- app_assoc. simpl. exact Hs.
      * exact Hpre.
      * intros q Hq. apply in_app_or in Hq. destruct Hq as [Hq|[<-|[]]]; [auto|]. apply better_b_false. exact B.
      * exists o. split; [exact Ho|]. rewrite <- app_assoc in Hf. simpl in Hf. exact Hf.
Qed.

Lemma winner_first_best h score w t : t <> [] -> (forall o, In o t -> scored w o (score o) /\ oriented w h o) ->
  exists o, tournament_winner t w = (Ok o, w) /\ first_best h score t o.
Proof.
  intros Ht Hs. destruct t as [|a t]; [congruence|].
  destruct (scan_first_best h score w t a [] []) as (o & Ho & Hf); auto; try (intros p []). exists o. auto.
Qed.

Lemma repeatM_draw {A} n (m : R A) (P : A -> Prop) : (forall g, exists x g', m g = (Ok x, g') /\ P x) -> forall w,
  exists xs w', repeatM n (liftR m) w = (Ok xs, w') /\ length xs = n /\ Forall P xs /\ w_heap w' = w_heap w.
Proof.
  intros Hm. induction n as [|n IH]; intros w; simpl.
  - exists [], w. repeat split; constructor.
  - destruct (Hm (w_rng w)) as (x & g' & E & Px).
    destruct (IH (mkWorld (w_heap w) (w_next_id w) g')) as (xs & w' & E' & L & F & Hh).
    exists (x :: xs), w'. rewrite (bind_eq_ok _ _ _ _ _ (liftR_eq _ _ _ _ E)), (bind_eq_ok _ _ _ _ _ E').
    split; [reflexivity|]. split; [simpl; lia|]. split; [constructor; assumption|]. exact Hh.
Qed.

Lemma repeatM_ok {A B} (f : A -> B) (m : R A) n w xs w' : repeatM n (liftR m) w = (Ok xs, w') ->
  length xs = n /\ w_heap w' = w_heap w /\ forall x, In x xs -> exists g g', m g = (Ok x, g').
Proof.
  revert w xs w'. induction n as [|n IH]; intros w xs w' H; simpl in H.
  - mr H. split; [reflexivity|]. split; [reflexivity|]. intros x [].
  - mb H as x w1 E1. mb H as ys w2 E2. mr H. apply liftR_ok in E1. destruct E1 as (g & E1 & ->).
    apply IH in E2. destruct E2 as (L & Hh & F). split; [simpl; lia|]. split; [exact Hh|].
    intros y [<-|Hy]; eauto.
Qed.

Lemma choices_ok {A} (l : list A) k : l <> [] -> forall g, exists xs g', choices l k g = (Ok xs, g').
Proof.
  intros Hl. unfold choices. induction k as [|k IH]; intros g; simpl; [unfold ret; eauto|].
  destruct (choice_ok l g Hl) as (x & g1 & E). rewrite (bind_eq_ok _ _ _ _ _ E).
  destruct (IH g1) as (xs & g2 & E2). rewrite (bind_eq_ok _ _ _ _ _ E2). unfold ret. eauto.
Qed.

Lemma draw_from (replace : bool) size source : (replace = false -> size <= length source) -> (replace = true -> source <> []) ->
  forall g, exists t g', (if replace then choices source size else sample source size) g = (Ok t, g') /\ drawn_from replace size source t.
Proof.
  intros H1 H2 g. destruct replace.
  - destruct (choices_ok source size (H2 eq_refl) g) as (t & g' & E). exists t, g'. split; [exact E|].
    apply choices_In in E. destruct E. split; [assumption|]. split; [assumption|discriminate].
  - destruct (sample_ok source size g (H1 eq_refl)) as (t & g' & E). exists t, g'. split; [exact E|].
    apply sample_spec in E. destruct E as (_ & L & rest & P). split; [exact L|]. split; [|eauto].
    intros x Hx. apply (Permutation_in _ (Permutation_sym P)). apply in_or_app. auto.
Qed.

Lemma tournament_spec size replace a src dest w h score :
  1 <= size -> 1 <= a -> src <> [] -> (replace = false -> size <= length src) ->
  (forall o, In o src -> scored w o (score o) /\ oriented w h o) ->
  exists tours winners cs w', tournament_select size replace a src dest w = (Ok (dest ++ cs), w') /\
    length tours = (length src - length dest) / a /\ Forall (drawn_from replace size src) tours /\
    Forall2 (first_best h score) tours winners /\ copies "TournamentSelection" winners w cs w'.
Proof.
  intros Hs Ha Hne Hr Hsc. unfold tournament_select.
  assert (E1 : negb replace && (length src <? size) = false).
  { destruct replace; [reflexivity|]. simpl. apply Nat.ltb_ge. auto. }
  rewrite E1. destruct (Nat.eqb_spec a 0); [lia|].
  destruct (repeatM_draw ((length src - length dest) / a) (if replace then choices src size else sample src size)
             (drawn_from replace size src)) with (w := w) as (tours & w1 & Et & Lt & Ft & Hh).
  { apply draw_from; auto. }
  rewrite (bind_eq_ok _ _ _ _ _ Et). rewrite Forall_forall in Ft.
  assert (Hw : forall t w2, In t tours -> ext w w2 -> exists o, tournament_winner t w2 = (Ok o, w2) /\ first_best h score t o).
  { intros t w2 Ht He. destruct (Ft t Ht) as (Lt' & It & _). apply winner_first_best.
    - intros ->. simpl in Lt'. lia.
    - intros o Ho. apply It in Ho. destruct (Hsc o Ho). split; [eapply ext_scored; eauto|eapply ext_oriented; eauto]. }
  assert (Hin : forall t o, In t tours -> first_best h score t o -> exists i, at_ w o = Some i).
  { intros t o Ht (pre & post & -> & _). destruct (Ft _ Ht) as (_ & It & _).
    destruct (Hsc o) as ((i & Hi & _) & _); [apply It; apply in_or_app; right; left; reflexivity|]. eauto. }
  assert (He : ext w w1) by (apply ext_same; exact Hh).
  destruct (picks_total tournament_winner "TournamentSelection" w tours w1 He) as (cs & w' & Hm).
  { intros t w2 Ht He2. destruct (Hw t w2 Ht He2) as (o & Ho & Hf). destruct (Hin t o Ht Hf) as (i & Hi). exists o, w2, i. auto. }
  destruct (picks_ok tournament_winner "TournamentSelection" (first_best h score) w tours w1 cs w' He) as (os & F & _ & C); [|exact Hm|].
  { intros t w2 o w3 Ht He2 Ew. destruct (Hw t w2 Ht He2) as (o' & Ho & Hf). rewrite Ew in Ho. injection Ho as -> ->. eauto. }
  exists tours, os, cs, w'. rewrite (bind_eq_ok _ _ _ _ _ Hm). split; [reflexivity|]. split; [exact Lt|].
  split; [apply Forall_forall; exact Ft|]. split; [exact F|]. eapply copies_heap; [|exact C]. exact Hh.
Qed.

Lemma tournament_too_small size a src dest w : length src < size ->
  tournament_select size false a src dest w = (Raise ValueError, w).
Proof.
  intros H. unfold tournament_select. apply Nat.ltb_lt in H. rewrite H. reflexivity.
Qed.
