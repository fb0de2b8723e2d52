(** Proofs about the multi-objective statistics (C53). *)
From Coq Require Import Lia Lqa Permutation Sorted QArith.
From Verif.Proofs Require Export Nsga2P.
From Verif.Model Require Import Num Fitness Tree World Nsga2.
Open Scope nat_scope.
Open Scope list_scope.

(** ** Lists of numbers *)

Lemma list_eqn_refl l : Forall (fun x => is_nan x = false) l -> list_eqn l l = true.
Proof. induction 1; simpl; [reflexivity|]. rewrite neq_num_refl by assumption. exact IHForall. Qed.

Lemma dedup_In l x : In x (dedup l) -> In x l.
Proof.
  induction l as [|a l IH]; simpl; [auto|]. destruct (existsb (list_eqn a) l); simpl; tauto.
Qed.

Lemma dedup_nil l : l <> [] -> dedup l <> [].
Proof.
  induction l as [|a l IH]; simpl; [congruence|]. intros _. destruct (existsb (list_eqn a) l) eqn:E; [|discriminate].
  apply IH. intros ->. discriminate.
Qed.

Lemma dedup_apart l : forall pre a mid b post, dedup l = pre ++ a :: mid ++ b :: post -> list_eqn a b = false.
Proof.
  induction l as [|x l IH]; intros pre a mid b post E; simpl in E; [destruct pre; discriminate|].
  destruct (existsb (list_eqn x) l) eqn:Ex; [eauto|]. destruct pre as [|y pre]; simpl in E.
  - injection E as -> E. apply not_true_iff_false. intros G. apply not_true_iff_false in Ex. apply Ex. apply existsb_exists. exists b. split; [|exact G].
    apply dedup_In. rewrite E. apply in_or_app. simpl. auto.
  - injection E as _ E. eauto.
Qed.

(** Members of two classes of equal lists: at most two remain. *)
Lemma dedup_two l (A B : list num -> Prop) : (forall x, In x l -> A x \/ B x) ->
  (forall x y, A x -> A y -> list_eqn x y = true) -> (forall x y, B x -> B y -> list_eqn x y = true) -> length (dedup l) <= 2.
Proof.
  intros H HA HB. destruct (dedup l) as [|a [|b [|c r]]] eqn:E; simpl; try lia. exfalso.
  assert (Ia : In a l) by (apply dedup_In; rewrite E; simpl; auto).
  assert (Ib : In b l) by (apply dedup_In; rewrite E; simpl; auto).
  assert (Ic : In c l) by (apply dedup_In; rewrite E; simpl; auto).
  pose proof (dedup_apart l [] a [] b (c :: r) E) as Hab. pose proof (dedup_apart l [] a [b] c r E) as Hac. pose proof (dedup_apart l [a] b [] c r E) as Hbc.
  destruct (H a Ia) as [Ha|Ha], (H b Ib) as [Hb|Hb], (H c Ic) as [Hc|Hc];
    try (rewrite (HA a b) in Hab by assumption; discriminate); try (rewrite (HB a b) in Hab by assumption; discriminate);
    try (rewrite (HA a c) in Hac by assumption; discriminate); try (rewrite (HB a c) in Hac by assumption; discriminate);
    try (rewrite (HA b c) in Hbc by assumption; discriminate); try (rewrite (HB b c) in Hbc by assumption; discriminate).
Qed.

(** ** Fronts with two objectives *)

Section Two.
  Variables (h0 h1 : bool) (v : nat -> oid -> Q).
  Notation h := [h0; h1].

  Lemma incomparable x y : ~ beats h v x y -> ~ beats h v y x ->
    ((v 0 x == v 0 y -> v 1 x == v 1 y) /\ (v 0 x < v 0 y -> if Bool.eqb h0 h1 then v 1 y < v 1 x else v 1 x < v 1 y))%Q.
  Proof.
    intros N1 N2.
    assert (B : forall a b, (forall k d, nth_error h k = Some d -> ~ better_score d (Fin (v k b)) (Fin (v k a))) ->
              (exists k d, nth_error h k = Some d /\ better_score d (Fin (v k a)) (Fin (v k b))) -> beats h v a b).
    { intros a b H1 (k & d & Hk & H2). split.
      - intros j e p q E1 E2 E3. assert (j < 2) by (apply nth_error_lt in E1; exact E1).
        destruct j as [|[|j]]; [| |lia]; simpl in *; injection E2 as <-; injection E3 as <-; [apply (H1 0)|apply (H1 1)]; exact E1.
      - exists k, d, (Fin (v k a)), (Fin (v k b)). split; [exact Hk|]. assert (k < 2) by (apply nth_error_lt in Hk; exact Hk).
        destruct k as [|[|k]]; [| |lia]; auto. }
    assert (NB : forall a b, ~ beats h v a b -> ~ ((forall k d, nth_error h k = Some d -> ~ better_score d (Fin (v k b)) (Fin (v k a))) /\
              (exists k d, nth_error h k = Some d /\ better_score d (Fin (v k a)) (Fin (v k b))))) by (intros a b H [G1 G2]; apply H, B; assumption).
    apply NB in N1. apply NB in N2. clear B NB.
    assert (S : forall (d : bool) p q, better_score d (Fin p) (Fin q) <-> (if d then q < p else p < q)%Q).
    { intros d p q. unfold better_score. destruct d; simpl; apply Qlt_b_spec. }
    assert (X : forall a b, (((if h0 then v 0 b <= v 0 a else v 0 a <= v 0 b) /\ (if h1 then v 1 b <= v 1 a else v 1 a <= v 1 b)) /\
        ((if h0 then v 0 b < v 0 a else v 0 a < v 0 b) \/ (if h1 then v 1 b < v 1 a else v 1 a < v 1 b)))%Q ->
       (forall k d, nth_error h k = Some d -> ~ better_score d (Fin (v k b)) (Fin (v k a))) /\
       (exists k d, nth_error h k = Some d /\ better_score d (Fin (v k a)) (Fin (v k b)))).
    { intros a b [[L0 L1] G]. split.
      - intros k d Hk. rewrite S. destruct k as [|[|k]]; simpl in Hk; [injection Hk as <-|injection Hk as <-|destruct k; discriminate].
        + destruct h0; lra.
        + destruct h1; lra.
      - destruct G as [G|G]; [exists 0, h0|exists 1, h1]; (split; [reflexivity|]); apply S; exact G. }
    assert (Y1 := fun G => N1 (X x y G)). assert (Y2 := fun G => N2 (X y x G)). clear N1 N2 X S.
    destruct h0, h1; simpl in *; split; intros Hv;
      try (destruct (Q_dec (v 1 x) (v 1 y)) as [[Q|Q]|Q]; [| |exact Q]; exfalso; (apply Y1 || apply Y2); lra);
      try (apply Qnot_le_lt; intros Q; (apply Y1 + apply Y2); lra).
  Qed.

  Variables (F : list oid) (c : oid -> num).
  Hypothesis apart : forall x y, In x F -> In y F -> ~ beats h v x y.
  Hypothesis Hc : crowded 2 v F c.

  Definition lowest (x : oid) : Prop := In x F /\ forall y, In y F -> (v 0 x <= v 0 y)%Q.
  Definition highest (x : oid) : Prop := In x F /\ forall y, In y F -> (v 0 y <= v 0 x)%Q.

  Lemma end_extreme k f x : Permutation F f -> ascending (v k) f -> at_end f x ->
    In x F /\ ((forall y, In y F -> (v k x <= v k y)%Q) \/ (forall y, In y F -> (v k y <= v k x)%Q)).
  Proof.
    intros P A He. assert (Hin : forall y, In y F -> In y f) by (intros y; apply Permutation_in; exact P).
    assert (Hin' : forall y, In y f -> In y F) by (intros y; apply Permutation_in; symmetry; exact P).
    destruct He as [(r & E)|(r & E)]; rewrite E in *.
    - split; [apply Hin'; simpl; auto|]. left. intros y Hy. apply Hin in Hy. destruct Hy as [<-|Hy]; [lra|]. apply (ascending_split _ [] x r A). exact Hy.
    - split; [apply Hin', in_or_app; simpl; auto|]. right. intros y Hy. apply Hin in Hy. apply in_app_or in Hy. destruct Hy as [Hy|[<-|[]]]; [|lra].
      apply (ascending_split _ r x [] A). exact Hy.
  Qed.

  Lemma infinite_extreme x : In x F -> c x = PInf -> lowest x \/ highest x.
  Proof.
    intros Hx Hi. destruct Hc as (orders & L & H1 & H2).
    destruct (end_of_dec orders x) as [(f & Hf & He)|H].
    2:{ destruct (H2 x Hx) as [_ G]. destruct (G H) as (qs & s & _ & E & _). congruence. }
    apply In_nth_error in Hf. destruct Hf as (k & Hk). destruct (H1 k f Hk) as [P A].
    assert (k < 2) by (apply nth_error_lt in Hk; lia).
    destruct (end_extreme k f x P A He) as [_ Hex].
    destruct k as [|[|k]]; [| |lia].
    - destruct Hex; [left|right]; split; assumption.
    - assert (M : forall y z, In y F -> In z F -> (v 0 y < v 0 z -> if Bool.eqb h0 h1 then v 1 z < v 1 y else v 1 y < v 1 z)%Q).
      { intros y z Hy Hz. apply (incomparable y z); apply apart; assumption. }
      destruct (Bool.eqb h0 h1).
      + destruct Hex as [Hex|Hex]; [right|left]; (split; [exact Hx|]); intros y Hy; apply Qnot_lt_le; intros G.
        * specialize (M x y Hx Hy G). specialize (Hex y Hy). lra.
        * specialize (M y x Hy Hx G). specialize (Hex y Hy). lra.
      + destruct Hex as [Hex|Hex]; [left|right]; (split; [exact Hx|]); intros y Hy; apply Qnot_lt_le; intros G.
        * specialize (M y x Hy Hx G). specialize (Hex y Hy). lra.
        * specialize (M x y Hx Hy G). specialize (Hex y Hy). lra.
  Qed.

  Lemma same_values x y : In x F -> In y F -> (v 0 x == v 0 y)%Q -> list_eqn (values h v x) (values h v y) = true.
  Proof.
    intros Hx Hy E. destruct (incomparable x y) as [G _]; [apply apart; assumption|apply apart; assumption|]. specialize (G E).
    unfold values. simpl. rewrite !(proj2 (Qeq_bool_iff _ _)) by assumption. reflexivity.
  Qed.
End Two.

(** ** Reports *)

Lemma reports_in w l ms m : reports w l ms -> In m ms -> exists o i v, In o l /\ at_ w o = Some i /\ ft_value (i_fit i) = VList v /\
  m = (ft_rank (i_fit i), ft_crowding (i_fit i), v).
Proof.
  induction 1 as [|o k l ms (i & v & H1 & H2 & H3) F IH]; intros Hm; [destruct Hm|]. destruct Hm as [<-|Hm].
  - exists o, i, v. simpl. auto.
  - destruct (IH Hm) as (o' & i' & v' & G). exists o', i', v'. simpl. tauto.
Qed.

Lemma reports_in' w l ms o : reports w l ms -> In o l -> exists i v, at_ w o = Some i /\ ft_value (i_fit i) = VList v /\
  In (ft_rank (i_fit i), ft_crowding (i_fit i), v) ms.
Proof.
  induction 1 as [|p k l ms (i & v & H1 & H2 & H3) F IH]; intros Ho; [destruct Ho|]. destruct Ho as [<-|Ho].
  - exists i, v. subst k. simpl. auto.
  - destruct (IH Ho) as (i' & v' & G1 & G2 & G3). exists i', v'. simpl. auto.
Qed.

Lemma rank_eq j k : neq_num (rank_number j) (rank_number k) = true -> j = k.
Proof. unfold rank_number. simpl. intros H. apply Qeq_bool_iff in H. unfold Qeq, inject_Z in H. simpl in H. lia. Qed.
Lemma rank_refl k : neq_num (rank_number k) (rank_number k) = true.
Proof. apply neq_num_refl. reflexivity. Qed.

Section Corners.
  Variable setorder : nat -> list nat -> list nat.
  Variables (w : world) (h0 h1 : bool) (v : nat -> oid -> Q) (l : list oid) (n : nat).
  Notation h := [h0; h1].
  Hypothesis Hm : measured w h v l.
  Hypothesis Hn : NoDup l.
  Hypothesis Ha : any_order setorder.
  Hypothesis Hs : (if n =? 0 then length l / 2 else n) <= length l.

  Lemma survivor_data d w' : survivors w h v l (if n =? 0 then length l / 2 else n) d w' -> forall o, In o l ->
    exists i, at_ w' o = Some i /\ ft_value (i_fit i) = VList (values h v o).
  Proof.
    intros [L N (_ & _ & _ & O) _] o Ho. destruct (Hm o Ho) as (i & Hi & Oi). destruct (O o i Hi) as (c & r & E & _).
    eexists. split; [exact E|]. simpl. apply (ob_value _ _ _ Oi).
  Qed.

  Lemma corners_ok d w' ms : survivors w h v l (if n =? 0 then length l / 2 else n) d w' -> reports w' d ms ->
    forall j y, front h v l j y -> In y d -> exists cs, get_corners (rank_number (S j)) ms = Ok cs /\
      cs <> [] /\ forall p, In p cs -> exists o, In o d /\ front h v l j o /\ crowding_of w' o PInf /\ p = values h v o.
  Proof.
    intros Sv Hr j y Hy Dy. pose proof (survivor_data d w' Sv) as Hd. destruct Sv as [L N O (m & H1 & H2 & H3 & H4 & H5 & H6 & H7)].
    destruct (H5 y Dy) as (k & Hk & Hy'). pose proof (front_unique _ _ _ _ _ _ Hy Hy'). subst k.
    destruct (H3 j Hk) as (F & c & NF & NeF & HF & CF & Hcr).
    assert (Hsub : forall o, In o d -> In o l) by (intros o Ho; destruct (H5 o Ho) as (k & _ & [G _]); eapply left_in; eauto).
    unfold get_corners. set (q := filter _ ms).
    assert (Hq : forall p, In p (map snd q) <-> exists o, In o d /\ front h v l j o /\ crowding_of w' o PInf /\ p = values h v o).
    { intros p. rewrite in_map_iff. split.
      - intros (t & <- & Ht). unfold q in Ht. apply filter_In in Ht. destruct Ht as [Ht Hb]. destruct (reports_in _ _ _ _ Hr Ht) as (o & i & z & Do & Io & Vo & ->).
        apply andb_true_iff in Hb. destruct Hb as [B1 B2]. exists o. split; [exact Do|].
        destruct (H5 o Do) as (k & Hk' & Ho). destruct (H1 k o Hk' Ho) as (i' & Hi' & Ri). assert (i' = i) by congruence. subst i'. rewrite Ri in B1.
        apply rank_eq in B1. assert (k = j) by lia. subst k. split; [exact Ho|]. split.
        + exists i. split; [exact Io|]. destruct (ft_crowding (i_fit i)); try discriminate; reflexivity.
        + destruct (Hd o (Hsub o Do)) as (i2 & Hi2 & V2). assert (i2 = i) by congruence. subst i2. simpl. congruence.
      - intros (o & Do & Ho & (i & Hi & Ci) & ->). destruct (reports_in' _ _ _ _ Hr Do) as (i' & z & Hi' & Vz & Hin). assert (i' = i) by congruence. subst i'.
        destruct (Hd o (Hsub o Do)) as (i2 & Hi2 & V2). assert (i2 = i) by congruence. subst i2. assert (z = values h v o) by congruence. subst z.
        eexists. split; [|unfold q; apply filter_In; split; [exact Hin|]]; [reflexivity|].
        destruct (H1 j o Hk Ho) as (i3 & Hi3 & R3). assert (i3 = i) by congruence. subst i3. rewrite R3, Ci, rank_refl. reflexivity. }
    assert (Ap : forall a b, In a F -> In b F -> ~ beats h v a b).
    { intros a b Ia Ib. apply HF in Ia. apply HF in Ib. apply Ib. apply Ia. }
    assert (Len : length (dedup (map snd q)) <= 2).
    { apply (dedup_two _ (fun p => exists o, lowest v F o /\ p = values h v o) (fun p => exists o, highest v F o /\ p = values h v o)).
      - intros p Hp. apply Hq in Hp. destruct Hp as (o & Do & Ho & (i & Hi & Ci) & ->). apply HF in Ho.
        destruct (Hcr o Ho) as (i' & Hi' & Ci'). assert (i' = i) by congruence. subst i'.
        destruct (infinite_extreme h0 h1 v F c Ap CF o Ho) as [G|G]; [congruence|left; eauto|right; eauto].
      - intros p1 p2 (o1 & [I1 G1] & ->) (o2 & [I2 G2] & ->). apply (same_values h0 h1 v F Ap); [exact I1|exact I2|]. specialize (G1 o2 I2). specialize (G2 o1 I1). lra.
      - intros p1 p2 (o1 & [I1 G1] & ->) (o2 & [I2 G2] & ->). apply (same_values h0 h1 v F Ap); [exact I1|exact I2|]. specialize (G1 o2 I2). specialize (G2 o1 I1). lra. }
    assert (Ne : dedup (map snd q) <> []).
    { apply dedup_nil. destruct (crowded_extremes 2 v F c 0 CF NeF) as [(x & Ix & Cx & _) _]; [lia|].
      assert (exists o, In o d /\ front h v l j o /\ crowding_of w' o PInf) as (o & Do & Ho & Co).
      { apply HF in Ix as Fx. destruct (in_dec Nat.eq_dec x d) as [Dx|Dx].
        - exists x. split; [exact Dx|]. split; [exact Fx|]. rewrite <- Cx. apply Hcr. exact Ix.
        - exists y. split; [exact Dy|]. split; [exact Hy|]. destruct (H6 j y x Hy Fx Dy Dx) as (cx & cy & (iy & Hiy & Ey) & (ix & Hix & Ex) & Lt).
          destruct (Hcr x Ix) as (ix' & Hix' & Ex'). assert (ix' = ix) by congruence. subst ix'. assert (cy = PInf) by congruence. subst cy.
          exists iy. split; [exact Hiy|]. rewrite Ey.
          apply HF in Hy as Iy. destruct (Hcr y Iy) as (iy' & Hiy' & Ey'). assert (iy' = iy) by congruence. subst iy'.
          destruct (crowded_bounds _ _ _ _ y CF Iy) as [B|(s & B & _)]; [congruence|]. rewrite Ey in Ey'. rewrite Ey', B, H in Lt || rewrite Ey', B in Lt. simpl in Lt. congruence. }
      intros E. assert (In (values h v o) (map snd q)) by (apply Hq; exists o; auto). rewrite E in H. destruct H. }
    exists (dedup (map snd q)). split.
    - destruct (dedup (map snd q)) as [|a [|b [|z r]]]; simpl in *; [congruence|reflexivity|reflexivity|lia].
    - split; [exact Ne|]. intros p Hp. apply dedup_In in Hp. apply Hq. exact Hp.
  Qed.

  (** ** The whole report *)

  Lemma fold_max ks : forall r0, is_nan r0 = false -> (forall x, In x ks -> is_nan x = false) ->
    let g := fold_left max_num ks r0 in (g = r0 \/ In g ks) /\ is_nan g = false /\ nlt g r0 = false /\ forall x, In x ks -> nlt g x = false.
  Proof.
    induction ks as [|k ks IH]; intros r0 Hr0 Hk; simpl; [split; [auto|]; split; [exact Hr0|]; split; [apply nlt_irrefl|intros x []]|].
    assert (Nk : is_nan k = false) by (apply Hk; simpl; auto).
    destruct (IH (max_num r0 k)) as (I1 & I2 & I3 & I4); [unfold max_num; destruct (nlt r0 k); assumption|intros; apply Hk; simpl; auto|].
    set (g := fold_left max_num ks (max_num r0 k)) in *.
    assert (Q : nlt g r0 = false /\ nlt g k = false).
    { unfold max_num in I3. destruct (nlt r0 k) eqn:E.
      - split; [|exact I3]. apply (nlt_negtrans g k r0); [exact I2|exact Nk|exact Hr0|exact I3|apply nlt_asym; exact E].
      - split; [exact I3|]. apply (nlt_negtrans g r0 k); assumption. }
    split; [|split; [exact I2|split; [apply Q|]]].
    - destruct I1 as [I1|I1]; [|auto]. unfold max_num in I1. destruct (nlt r0 k); auto.
    - intros x [<-|Hx]; [apply Q|auto].
  Qed.

  Lemma filter_len2 {A B} (f : A -> bool) (g : B -> bool) (Rl : A -> B -> Prop) la lb : Forall2 Rl la lb -> (forall a b, In a la -> Rl a b -> f a = g b) ->
    length (filter f la) = length (filter g lb).
  Proof.
    induction 1 as [|a b la lb Hab F IH]; intros H; [reflexivity|]. simpl. rewrite (H a b) by (simpl; auto). destruct (g b); simpl; rewrite IH; auto; intros; apply H; simpl; auto.
  Qed.

  Lemma report_ok : exists d w', nsga2_select setorder l n w = (Ok d, w') /\ forall ms, reports w' d ms -> d <> [] ->
    exists first k lst count first_front, moe_statistics ms = Ok (first, rank_number (S k), lst, count) /\
      (exists y, In y d /\ front h v l k y) /\ (forall x j, In x d -> front h v l j x -> j <= k) /\
      (forall p, In p first -> exists o, In o d /\ front h v l 0 o /\ crowding_of w' o PInf /\ p = values h v o) /\
      (forall p, In p lst -> exists o, In o d /\ front h v l k o /\ crowding_of w' o PInf /\ p = values h v o) /\
      first <> [] /\ lst <> [] /\
      NoDup first_front /\ (forall x, In x first_front <-> In x d /\ front h v l 0 x) /\ count = length first_front.
  Proof.
    destruct (nsga2_select_ok setorder w h v l n Hm Hn Ha Hs) as (d & w' & E & Sv). exists d, w'. split; [exact E|]. intros ms Hr Hne.
    pose proof (corners_ok d w' ms Sv Hr) as Co. pose proof Sv as [L N O (m & H1 & H2 & H3 & H4 & H5 & H6 & H7)].
    assert (exists y0, In y0 d) as (y & Dy) by (destruct d as [|y d0]; [congruence|]; exists y; simpl; auto).
    (* some survivor is in front 0 *)
    assert (exists x, In x d /\ front h v l 0 x) as (x0 & Dx0 & Hx0).
    { destruct (H5 y Dy) as (k & Hk & _). destruct (Nat.eq_dec m 1) as [->|Hm1].
      - destruct (H7 0 eq_refl) as (x & Hx & Dx). eauto.
      - destruct (H3 0) as (F & c & _ & NeF & HF & _); [lia|]. destruct F as [|x F]; [congruence|]. exists x.
        assert (Hx : front h v l 0 x) by (apply HF; simpl; auto). split; [|exact Hx]. apply (H4 0); [lia|exact Hx]. }
    destruct (Co 0 x0 Hx0 Dx0) as (cs1 & E1 & Ne1 & I1).
    unfold moe_statistics. change (Fin 1) with (rank_number 1). rewrite E1. cbn [rbind].
    assert (Rk : forall q, In q (map (fun t => fst (fst t)) ms) -> exists o k, In o d /\ front h v l k o /\ q = rank_number (S k)).
    { intros q Hq. apply in_map_iff in Hq. destruct Hq as (t & <- & Ht). destruct (reports_in _ _ _ _ Hr Ht) as (o & i & z & Do & Io & Vo & ->).
      destruct (H5 o Do) as (k & Hk & Ho). destruct (H1 k o Hk Ho) as (i' & Hi' & Ri). exists o, k. split; [exact Do|]. split; [exact Ho|]. simpl. congruence. }
    destruct (map (fun t => fst (fst t)) ms) as [|r0 ks] eqn:Em.
    { exfalso. destruct (reports_in' _ _ _ _ Hr Dy) as (i & z & _ & _ & Hi). apply (in_map (fun t => fst (fst t))) in Hi. rewrite Em in Hi. destruct Hi. }
    assert (Nn : forall q, In q (r0 :: ks) -> is_nan q = false) by (intros q Hq; destruct (Rk q Hq) as (o & k & _ & _ & ->); reflexivity).
    destruct (fold_max ks r0) as (M1 & M2 & M3 & M4); [apply Nn; simpl; auto|intros q Hq; apply Nn; simpl; auto|].
    set (g := fold_left max_num ks r0) in *.
    destruct (Rk g) as (o & k & Do & Ho & Eg); [destruct M1; [left; congruence|right; assumption]|].
    destruct (Co k o Ho Do) as (cs2 & E2 & Ne2 & I2). rewrite Eg, E2. cbn [rbind].
    set (ff := filter (fun o => neq_num (heap_field ft_rank (w_heap w') o) (rank_number 1)) d).
    exists cs1, k, cs2, (length (filter (fun t => neq_num (fst (fst t)) (rank_number 1)) ms)), ff.
    split; [reflexivity|]. split; [eauto|]. split; [|split; [exact I1|split; [exact I2|split; [exact Ne1|split; [exact Ne2|split; [|split]]]]]].
    - intros x j Dx Hx. destruct (reports_in' _ _ _ _ Hr Dx) as (i & z & Hi & _ & Hin). apply (in_map (fun t => fst (fst t))) in Hin. rewrite Em in Hin. simpl in Hin.
      destruct (H5 x Dx) as (j' & Hj' & Hx'). pose proof (front_unique _ _ _ _ _ _ Hx Hx'). subst j'. destruct (H1 j x Hj' Hx) as (i' & Hi' & Ri). assert (i' = i) by congruence. subst i'.
      rewrite Ri in Hin. assert (G : nlt g (rank_number (S j)) = false) by (destruct Hin as [<-|Hin]; [exact M3|apply M4; exact Hin]).
      rewrite Eg in G. unfold rank_number in G. simpl in G. apply Qlt_b_false in G. rewrite <- Zle_Qle in G. lia.
    - apply NoDup_filter. exact N.
    - intros x. unfold ff. rewrite filter_In. split; intros [Dx Hx]; (split; [exact Dx|]).
      + destruct (H5 x Dx) as (j & Hj & Hx'). destruct (H1 j x Hj Hx') as (i & Hi & Ri). unfold heap_field in Hx. unfold at_ in Hi. rewrite Hi, Ri in Hx.
        apply rank_eq in Hx. assert (j = 0) by lia. subst j. exact Hx'.
      + destruct (H5 x Dx) as (j & Hj & Hx'). pose proof (front_unique _ _ _ _ _ _ Hx Hx'). subst j. destruct (H1 0 x Hj Hx) as (i & Hi & Ri).
        unfold heap_field. unfold at_ in Hi. rewrite Hi, Ri. apply rank_refl.
    - symmetry. apply (filter_len2 _ _ _ _ _ Hr). intros a b Da (i & z & Hi & _ & ->). unfold heap_field. unfold at_ in Hi. rewrite Hi. reflexivity.
  Qed.
End Corners.

(** Nothing is ranked before the first generation: no corners. *)
Lemma report_unranked w l ms : reports w l ms -> (forall o, In o l -> rank_of w o PInf) -> moe_statistics ms = Raise AssertionError.
Proof.
  intros Hr Hk. unfold moe_statistics, get_corners.
  replace (filter _ ms) with (@nil (num * num * list num)); [reflexivity|].
  induction Hr as [|o t l ms (i & z & Hi & _ & ->) F IH]; [reflexivity|]. simpl.
  destruct (Hk o) as (i' & Hi' & Ri); [simpl; auto|]. assert (i' = i) by congruence. subst i'. rewrite Ri. simpl. apply IH. intros; apply Hk; simpl; auto.
Qed.
