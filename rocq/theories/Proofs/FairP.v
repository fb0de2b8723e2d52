(** * How often random choices are made. *)
From Coq Require Import Lia Lqa Permutation Sorted Qround Factorial.
From Verif.Model Require Import Num Rng Vector Tree World Operators Creators Evolution.
From Verif.Spec Require Import WorldSpec VectorSpec TreeSpec SelSpec PressureSpec ReachSpec MoveSpec FairSpec.
From Verif.Proofs Require Import Lib WorldP VectorP VecOpP TreeP TreeOpP PressureP ReachP VecEffectP MoveP CompleteP.
From Verif.Model Require Import Num Rng Vector Tree World Operators Creators Evolution.
Open Scope string_scope.
Open Scope nat_scope.
Open Scope list_scope.

(** ** Counting *)

Lemma number_bijection {A B} (P : A -> Prop) (Q : B -> Prop) f (T : B -> Prop) n : bijection P Q f -> number_of (fun y => Q y /\ T y) n -> number_of (fun x => P x /\ T (f x)) n.
Proof.
  intros (H1 & H2 & H3) (L & N & I & El).
  assert (G : exists M, NoDup M /\ (forall x, In x M <-> P x /\ In (f x) L) /\ length M = length L).
  { assert (Q0 : forall y, In y L -> Q y) by (intros y Hy; apply I, Hy). clear - N Q0 H1 H2 H3. induction L as [|y L IH].
    - exists []. split; [constructor|]. split; [intros x; split; [intros []|intros [_ []]]|reflexivity].
    - inversion N as [|? ? Ny N']; subst. destruct (IH N') as (M & NM & IM & LM); [intros z Hz; apply Q0; right; exact Hz|].
      destruct (H3 y (Q0 y (or_introl eq_refl))) as (x & Px & Ex). exists (x :: M). split; [|split; [|simpl; congruence]].
      + constructor; [|exact NM]. intros C. apply IM in C as [_ C]. congruence.
      + intros z. split.
        * intros [<-|Hz]; [split; [exact Px|left; congruence]|]. apply IM in Hz as [Pz Hz]. split; [exact Pz|right; exact Hz].
        * intros [Pz [E|Hz]]; [left; apply H2; congruence|right; apply IM; auto]. }
  destruct G as (M & NM & IM & LM). exists M. split; [exact NM|]. split; [|congruence]. intros x. rewrite IM. split; intros [Px Hx]; (split; [exact Px|]); apply I; auto.
Qed.

Lemma number_range a b : (a <= b)%N -> number_of (fun k => (a <= k < b)%N) (N.to_nat (b - a)).
Proof.
  intros L. exists (map N.of_nat (seq (N.to_nat a) (N.to_nat (b - a)))). split; [|split].
  - apply FinFun.Injective_map_NoDup; [intros x y; apply Nnat.Nat2N.inj|apply seq_NoDup].
  - intros k. rewrite in_map_iff. split.
    + intros (i & <- & Hi). apply in_seq in Hi. lia.
    + intros H. exists (N.to_nat k). split; [apply Nnat.N2Nat.id|]. apply in_seq. lia.
  - rewrite map_length, seq_length. reflexivity.
Qed.

(** ** Probabilities *)

Lemma unit_le k q : (unit_value k <= q)%Q <-> (Z.of_N k <= Qfloor (q * inject_Z (2 ^ 53)))%Z.
Proof.
  assert (E : (unit_value k * inject_Z (2 ^ 53) == inject_Z (Z.of_N k))%Q) by (unfold unit_value, Qeq, inject_Z; cbn; lia).
  split; intros H.
  - rewrite <- (Qfloor_Z (Z.of_N k)). apply Qfloor_resp_le. rewrite <- E. apply Qmult_le_compat_r; [exact H|discriminate].
  - apply (Qmult_le_r _ _ (inject_Z (2 ^ 53))); [reflexivity|]. rewrite E. eapply Qle_trans; [|apply Qfloor_le]. rewrite <- Zle_Qle. exact H.
Qed.

Lemma probability q : number_of (fun k => unit_draw k /\ (unit_value k <= q)%Q) (Z.to_nat (at_most q)).
Proof.
  assert (B : (0 <= at_most q <= 2 ^ 53)%Z) by (unfold at_most; lia).
  replace (Z.to_nat (at_most q)) with (N.to_nat (Z.to_N (at_most q) - 0)) by lia.
  eapply number_ext; [|apply number_range; lia]. intros k. cbv beta. rewrite unit_le. unfold unit_draw. unfold at_most in *. split.
  - intros [_ H]. assert (Z.of_N k < Z.max 0 (Z.min (2 ^ 53) (Qfloor (q * inject_Z (2 ^ 53)) + 1)))%Z by lia. lia.
  - intros [H1 H2]. split; [lia|]. assert (Z.of_N k < 2 ^ 53)%Z by lia. lia.
Qed.

Lemma unit_one k : unit_draw k -> (unit_value k <= 1)%Q.
Proof. unfold unit_draw, unit_value, Qle. cbn. lia. Qed.

Lemma applied op q inds w k : op_prob op = Fin q -> unit_draw k -> ahead (w_rng w) [k] ->
  (~ (unit_value k <= q)%Q -> apply_operator op inds w = (Ok inds, with_rng w (later 1 (w_rng w)))) /\
  ((unit_value k <= q)%Q -> no_fallback op -> apply_operator op inds w = apply_operator (certain op) inds w).
Proof.
  intros Hq Hk Ha. pose proof (liftR_eq _ _ _ _ (emits_unit k Hk (w_rng w) Ha)) as E. unfold apply_operator, with_probability.
  change (op_prob (certain op)) with (Fin 1). rewrite Hq. split.
  - intros Hn. rewrite (bind_eq_ok _ _ _ _ _ E). destruct (nle _ _) eqn:En; [apply nle_fin in En; contradiction|]. reflexivity.
  - intros Hy Hf. rewrite !(bind_eq_ok _ _ _ _ _ E).
    assert (nle (Fin (Z.of_N k # two53)) (Fin q) = true) as -> by (apply nle_fin; exact Hy).
    assert (nle (Fin (Z.of_N k # two53)) (Fin 1) = true) as -> by (apply nle_fin; exact (unit_one k Hk)).
    assert (op_apply (certain op) = op_apply op) as ->; [|reflexivity].
    unfold op_apply, certain, no_fallback in *. cbn [op_kind op_prob op_arity op_attempts]. destruct (op_kind op) as [| [] | | | |]; try reflexivity; contradiction.
Qed.

(** ** Weighted choices *)

Fixpoint pidx (qs : list Q) (acc x : Q) : nat :=
  match qs with
  | [] | [_] => 0
  | q :: qs' => if Qlt_le_dec x (acc + q) then 0 else S (pidx qs' (acc + q) x)
  end.

Lemma nlt_fin x y : nlt (Fin x) (Fin y) = true <-> (x < y)%Q.
Proof. apply Qlt_b_spec. Qed.

Lemma pick_index {A} (l : list A) : forall qs acc x, length l = length qs -> l <> [] ->
  pick_weighted l (map Fin qs) (Fin acc) (Fin x) = nth_error l (pidx qs acc x).
Proof.
  induction l as [|a l IH]; intros qs acc x L N; [congruence|]. destruct qs as [|q qs]; [discriminate|]. injection L as L.
  destruct l as [|b l]; [destruct qs; [reflexivity|discriminate]|]. destruct qs as [|r qs]; [discriminate|].
  change (pick_weighted (a :: b :: l) (map Fin (q :: r :: qs)) (Fin acc) (Fin x))
    with (if nlt (Fin x) (Fin (acc + q)) then Some a else pick_weighted (b :: l) (map Fin (r :: qs)) (Fin (acc + q)) (Fin x)).
  change (pidx (q :: r :: qs) acc x) with (if Qlt_le_dec x (acc + q) then 0 else S (pidx (r :: qs) (acc + q) x)).
  destruct (Qlt_le_dec x (acc + q)) as [H|H].
  - assert (nlt (Fin x) (Fin (acc + q)) = true) as -> by (apply nlt_fin; exact H). reflexivity.
  - destruct (nlt (Fin x) (Fin (acc + q))) eqn:E; [apply nlt_fin in E; lra|]. rewrite (IH (r :: qs)); [reflexivity|exact L|discriminate].
Qed.

Lemma pidx_lt qs : forall acc x, qs <> [] -> pidx qs acc x < length qs.
Proof.
  induction qs as [|q qs IH]; intros acc x N; [congruence|]. cbn [pidx]. destruct qs as [|r qs]; [cbn; lia|]. destruct (Qlt_le_dec _ _); [cbn; lia|].
  specialize (IH (acc + q)%Q x). cbn [length] in *. assert (r :: qs <> []) by discriminate. apply IH in H. lia.
Qed.

Lemma qtotal_nonneg qs : Forall (fun q => 0 <= q)%Q qs -> (0 <= qtotal qs)%Q.
Proof. induction 1; cbn; lra. Qed.

Lemma pidx_iff qs : forall acc x i, Forall (fun q => 0 <= q)%Q qs -> (acc <= x)%Q -> (x < acc + qtotal qs)%Q -> i < length qs ->
  (pidx qs acc x = i <-> (acc + qtotal (firstn i qs) <= x /\ x < acc + qtotal (firstn (S i) qs))%Q).
Proof.
  induction qs as [|q qs IH]; intros acc x i F Lo Hi Li; [cbn in Li; lia|]. inversion_clear F as [|? ? Hq F'].
  destruct qs as [|r qs].
  - destruct i; [|cbn in Li; lia]. cbn in *. split; [intros _; lra|reflexivity].
  - change (pidx (q :: r :: qs) acc x) with (if Qlt_le_dec x (acc + q) then 0 else S (pidx (r :: qs) (acc + q) x)).
    destruct (Qlt_le_dec x (acc + q)) as [H|H].
    + destruct i as [|i]; [cbn in *; split; [intros _; lra|reflexivity]|]. split; [discriminate|]. intros [H1 _]. exfalso.
      change (firstn (S i) (q :: r :: qs)) with (q :: firstn i (r :: qs)) in H1. cbn [qtotal] in H1.
      assert (0 <= qtotal (firstn i (r :: qs)))%Q. { apply qtotal_nonneg. apply Forall_forall. intros y Hy. apply in_firstn in Hy. rewrite Forall_forall in F'. auto. }
      lra.
    + destruct i as [|i]; [split; [discriminate|]; intros [_ H2]; cbn in H2; exfalso; lra|].
      change (firstn (S i) (q :: r :: qs)) with (q :: firstn i (r :: qs)). change (firstn (S (S i)) (q :: r :: qs)) with (q :: firstn (S i) (r :: qs)).
      cbn [qtotal] in *. specialize (IH (acc + q)%Q x i F'). cbn [length] in *. cbn [qtotal] in IH.
      assert (S (pidx (r :: qs) (acc + q) x) = S i <-> pidx (r :: qs) (acc + q) x = i) as -> by (split; [injection 1; auto|congruence]).
      rewrite IH; [|lra|lra|lia]. generalize (qtotal (firstn i (r :: qs))) as a, (qtotal (firstn (S i) (r :: qs))) as b. intros. split; intros; lra.
Qed.

Lemma ceiling_le q z : (q <= inject_Z z)%Q <-> (Qceiling q <= z)%Z.
Proof.
  split; intros H.
  - rewrite <- (Qceiling_Z z). apply Qceiling_resp_le. exact H.
  - eapply Qle_trans; [apply Qle_ceiling|]. rewrite <- Zle_Qle. exact H.
Qed.

Definition place_of (t y : Q) : Q := inject_Z (2 ^ 53) * y / t.

Lemma unit_times k t y : (0 < t)%Q -> (y <= unit_value k * t <-> place_of t y <= inject_Z (Z.of_N k))%Q.
Proof.
  intros Ht. unfold place_of. assert (E : (unit_value k * inject_Z (2 ^ 53) == inject_Z (Z.of_N k))%Q) by (unfold unit_value, Qeq, inject_Z; cbn; lia).
  assert (Em : (inject_Z (2 ^ 53) * y / t * t == inject_Z (2 ^ 53) * y)%Q) by (field; lra).
  assert (P : (0 < inject_Z (2 ^ 53))%Q) by reflexivity.
  split; intros H.
  - apply (Qmult_le_r _ _ t Ht). rewrite Em, <- E. apply (Qmult_le_compat_r _ _ (inject_Z (2 ^ 53))) in H; [|lra]. lra.
  - apply (Qmult_le_r _ _ (inject_Z (2 ^ 53)) P). apply (Qmult_le_compat_r _ _ t) in H; [|lra]. rewrite Em, <- E in H. lra.
Qed.

Lemma nsum_total qs : exists t, nsum (map Fin qs) = Fin t /\ (t == qtotal qs)%Q.
Proof.
  unfold nsum. assert (G : forall qs acc, exists t, fold_left nadd (map Fin qs) (Fin acc) = Fin t /\ (t == acc + qtotal qs)%Q).
  { clear qs. induction qs as [|q qs IH]; intros acc; cbn; [exists acc; split; [reflexivity|lra]|].
    destruct (IH (acc + q)%Q) as (t & E & Et). exists t. split; [exact E|lra]. }
  destruct (G qs 0%Q) as (t & E & Et). exists t. split; [exact E|lra].
Qed.

Lemma choice_by_weight {A} (l : list A) qs : length l = length qs -> Forall (fun q => 0 <= q)%Q qs -> (0 < qtotal qs)%Q ->
  exists f : N -> nat,
    (forall k, unit_draw k -> f k < length l) /\
    (forall i x, nth_error qs i = Some x -> exists m, number_of (fun k => unit_draw k /\ f k = i) m /\ share m x (qtotal qs)) /\
    forall k a, unit_draw k -> nth_error l (f k) = Some a -> emits (choices_weighted l (map Fin qs)) [k] a.
Proof.
  intros L F Ht. destruct (nsum_total qs) as (t & Es & Et). assert (Pt : (0 < t)%Q) by lra.
  assert (Nq : qs <> []) by (intros ->; cbn in Ht; lra).
  exists (fun k => pidx qs 0 (unit_value k * t)). split; [|split].
  - intros k _. rewrite L. apply pidx_lt. exact Nq.
  - intros i x Hx. assert (Li : i < length qs) by (apply nth_error_Some; congruence).
    set (a := qtotal (firstn i qs)). set (b := qtotal (firstn (S i) qs)).
    assert (Hb : (b == a + x)%Q).
    { subst a b. clear - Hx. revert qs Hx. induction i as [|i IH]; intros [|q qs] Hx; try discriminate; [injection Hx as ->; cbn; lra|].
      change (firstn (S (S i)) (q :: qs)) with (q :: firstn (S i) qs). change (firstn (S i) (q :: qs)) with (q :: firstn i qs). cbn [qtotal]. rewrite (IH _ Hx). lra. }
    assert (Ha0 : (0 <= a)%Q). { apply qtotal_nonneg. apply Forall_forall. intros y Hy. apply in_firstn in Hy. rewrite Forall_forall in F. auto. }
    assert (Hx0 : (0 <= x)%Q). { rewrite Forall_forall in F. apply F. eapply nth_error_In; eauto. }
    assert (Hbt : (b <= t)%Q).
    { rewrite Et. rewrite <- (firstn_skipn (S i) qs) at 1. fold b.
      assert (App : forall p r, (qtotal (p ++ r) == qtotal p + qtotal r)%Q). { intros p r. induction p; cbn; [lra|]. rewrite IHp. lra. }
      rewrite App. fold b. assert (0 <= qtotal (skipn (S i) qs))%Q; [|lra]. apply qtotal_nonneg. apply Forall_forall. intros y Hy. rewrite Forall_forall in F.
      apply F. rewrite <- (firstn_skipn (S i) qs). apply in_or_app. right. exact Hy. }
    assert (Mono : forall u v, (u <= v)%Q -> (place_of t u <= place_of t v)%Q).
    { intros u v H. unfold place_of. apply (Qmult_le_r _ _ t Pt).
      assert (E1 : (inject_Z (2 ^ 53) * u / t * t == inject_Z (2 ^ 53) * u)%Q) by (field; lra).
      assert (E2 : (inject_Z (2 ^ 53) * v / t * t == inject_Z (2 ^ 53) * v)%Q) by (field; lra).
      rewrite E1, E2, !(Qmult_comm (inject_Z (2 ^ 53))). apply Qmult_le_compat_r; [exact H|discriminate]. }
    set (A0 := Qceiling (place_of t a)). set (B0 := Qceiling (place_of t b)).
    assert (HA : (0 <= A0)%Z). { change 0%Z with (Qceiling 0). apply Qceiling_resp_le. eapply Qle_trans; [|exact (Mono 0%Q a Ha0)]. unfold place_of. assert (inject_Z (2 ^ 53) * 0 / t == 0)%Q by (field; lra). lra. }
    assert (HAB : (A0 <= B0)%Z) by (apply Qceiling_resp_le, Mono; lra).
    assert (HB : (B0 <= 2 ^ 53)%Z). { apply ceiling_le. eapply Qle_trans; [exact (Mono b t Hbt)|]. unfold place_of. assert (inject_Z (2 ^ 53) * t / t == inject_Z (2 ^ 53))%Q by (field; lra). lra. }
    exists (N.to_nat (Z.to_N B0 - Z.to_N A0)). split.
    + eapply number_ext; [|apply number_range; lia]. intros k. cbv beta.
      assert (Iff : unit_draw k -> (pidx qs 0 (unit_value k * t) = i <-> (A0 <= Z.of_N k /\ ~ B0 <= Z.of_N k)%Z)).
      { intros Hk. assert (U0 : (0 <= unit_value k * t)%Q). { apply Qmult_le_0_compat; [unfold unit_value, Qle; cbn; lia|lra]. }
        assert (U1 : (unit_value k * t < 0 + qtotal qs)%Q).
        { rewrite <- Et. apply (Qlt_le_trans _ (1 * t)); [|lra]. apply Qmult_lt_compat_r; [exact Pt|]. unfold unit_draw in Hk. unfold unit_value, Qlt. cbn. lia. }
        rewrite (pidx_iff qs 0 _ i F U0 U1 Li). fold a b. unfold A0, B0. rewrite <- !ceiling_le, <- !unit_times by exact Pt. split; intros [H1 H2]; split; lra. }
      split; [intros [H1 H2]|intros [Hk H]].
      * assert (Hk : unit_draw k) by (unfold unit_draw; lia). split; [exact Hk|]. apply Iff; [exact Hk|]. lia.
      * apply (Iff Hk) in H. lia.
    + assert (Ez : (Z.of_nat (N.to_nat (Z.to_N B0 - Z.to_N A0)) = B0 - A0)%Z) by lia.
      unfold share. rewrite Ez. rewrite <- Et. unfold Z.sub. rewrite inject_Z_plus, inject_Z_opp.
      pose proof (Qle_ceiling (place_of t a)) as C1. pose proof (Qceiling_lt (place_of t a)) as C2. pose proof (Qle_ceiling (place_of t b)) as C3. pose proof (Qceiling_lt (place_of t b)) as C4.
      fold A0 in C1, C2. fold B0 in C3, C4. unfold Z.sub in C2, C4. rewrite inject_Z_plus in C2, C4. change (inject_Z (- (1))) with (-1)%Q in C2, C4.
      assert (Ea : (place_of t a * t == inject_Z (2 ^ 53) * a)%Q) by (unfold place_of; field; lra).
      assert (Eb : (place_of t b * t == inject_Z (2 ^ 53) * b)%Q) by (unfold place_of; field; lra).
      assert (Ec : (inject_Z (2 ^ 53) * b == inject_Z (2 ^ 53) * a + inject_Z (2 ^ 53) * x)%Q) by (rewrite <- Qmult_plus_distr_r; apply Qmult_comp; [reflexivity|exact Hb]).
      assert (Ed : (place_of t b * t == inject_Z (2 ^ 53) * a + inject_Z (2 ^ 53) * x)%Q) by (eapply Qeq_trans; [exact Eb|exact Ec]). clear Eb Ec. rename Ed into Eb.
      generalize dependent (inject_Z (2 ^ 53) * x)%Q. generalize dependent (inject_Z (2 ^ 53) * a)%Q. intros y Ey z Ez'. revert C1 C2 C3 C4.
      generalize dependent (place_of t a). intros pa Epa. generalize dependent (place_of t b). intros pb Epb C1 C2 C3 C4.
      split.
      * setoid_replace z with ((pb - pa) * t)%Q by lra. apply Qmult_lt_compat_r; [exact Pt|]. lra.
      * setoid_replace z with ((pb - pa) * t)%Q by lra. apply Qmult_lt_compat_r; [exact Pt|]. lra.
  - intros k c Hk Hc g U. unfold choices_weighted. rewrite map_length, L, Nat.eqb_refl. cbn [negb].
    destruct (length qs =? 0) eqn:E0; [apply Nat.eqb_eq in E0; destruct qs; [congruence|discriminate]|]. rewrite Es.
    assert (En : nle (Fin t) (Fin 0) = false). { rewrite nle_not_lt by reflexivity. cbn [nlt]. rewrite (proj2 (Qlt_b_spec 0 t) Pt). reflexivity. }
    rewrite En. cbn [is_fin negb]. rewrite (bind_eq_ok _ _ _ _ _ (emits_unit k Hk g U)). cbn [nmul].
    rewrite pick_index; [|exact L|intros ->; destruct qs; [congruence|discriminate]]. fold (unit_value k). change (Z.of_N k # two53) with (unit_value k). rewrite Hc. reflexivity.
Qed.

Lemma creators s qs : sp_inds s = None -> sp_pcr s = map Fin qs -> length (sp_creators s) = length qs -> Forall (fun q => 0 <= q)%Q qs -> (0 < qtotal qs)%Q ->
  exists f : N -> nat,
    (forall k, unit_draw k -> f k < length (sp_creators s)) /\
    (forall i x, nth_error qs i = Some x -> exists m, number_of (fun k => unit_draw k /\ f k = i) m /\ share m x (qtotal qs)) /\
    forall k c w l w', unit_draw k -> nth_error (sp_creators s) (f k) = Some c -> ahead (w_rng w) [k] ->
      create_individuals c (sp_size s) (sp_hib s) (with_rng w (later 1 (w_rng w))) = (Ok l, w') -> create_subpopulation s w = (Ok (with_inds s l), w').
Proof.
  intros Hi Hp L F Ht. destruct (choice_by_weight (sp_creators s) qs L F Ht) as (f & H1 & H2 & H3). exists f. split; [exact H1|]. split; [exact H2|].
  intros k c w l w' Hk Hc U E. unfold create_subpopulation. rewrite Hi, Hp.
  rewrite (bind_eq_ok _ _ _ _ _ (liftR_eq _ _ _ _ (H3 k c Hk Hc _ U))). change (mkWorld _ _ _) with (with_rng w (later 1 (w_rng w))).
  rewrite (bind_eq_ok _ _ _ _ _ E). reflexivity.
Qed.

(** ** Sets of points *)

Lemma falling_fact n : falling n n = fact n.
Proof. induction n as [|n IH]; [reflexivity|]. cbn [falling]. replace (S n - 1) with n by lia. rewrite IH. reflexivity. Qed.

Lemma orders (pool pts : list nat) : NoDup pool -> NoDup pts -> incl pts pool ->
  number_of (fun t => drawn_from false (length pts) pool t /\ Permutation t pts) (fact (length pts)).
Proof.
  intros Np Nt I. exists (arrangements false (length pts) pts). split; [apply NoDup_arrangements; exact Nt|]. split.
  - intros t. rewrite in_arrangements. split.
    + intros (L & It & N). specialize (N eq_refl). assert (P : Permutation t pts) by (apply NoDup_Permutation_bis; auto; unfold oid in *; lia).
      split; [|exact P]. apply drawn_arrangement; [exact Np|]. apply in_arrangements. split; [exact L|]. split; [|auto]. intros x Hx. apply I, It, Hx.
    + intros [_ P]. split; [apply Permutation_length; exact P|]. split; [intros x Hx; eapply Permutation_in; eauto|]. intros _. eapply Permutation_NoDup; [apply Permutation_sym; exact P|exact Nt].
  - rewrite length_arrangements by exact Nt. apply falling_fact.
Qed.

Lemma draw_orders (pool pts : list nat) : NoDup pool -> NoDup pts -> incl pts pool ->
  number_of (fun ds => draws_for false (length pool) (length pts) ds /\ Permutation (participants false pool ds) pts) (fact (length pts)).
Proof.
  intros Np Nt I. eapply (number_bijection _ _ _ (fun t => Permutation t pts)); [apply (draws_bijection false (length pts) pool Np)|apply orders; assumption].
  intros _. apply NoDup_incl_length; assumption.
Qed.

Lemma emits_drawn (pool : list nat) k ds : draws_for false (length pool) k ds -> k <= length pool -> emits (sample pool k) (map N.of_nat ds) (participants false pool ds).
Proof.
  intros Hd Hle g U. unfold sample. assert (length pool <? k = false) as -> by (apply Nat.ltb_ge; exact Hle).
  pose proof (sample_upcoming k pool ds g Hd) as Su. unfold oid in Su. rewrite Su.
  - rewrite map_length. destruct Hd as [-> _]. reflexivity.
  - intros i d Hi. apply U. apply map_nth_error. exact Hi.
Qed.

Lemma drawn_set (pool : list nat) k ds : NoDup pool -> k <= length pool -> draws_for false (length pool) k ds ->
  length (participants false pool ds) = k /\ NoDup (participants false pool ds) /\ incl (participants false pool ds) pool.
Proof.
  intros Np Hle Hd. destruct (draws_bijection false k pool Np (fun _ => Hle)) as (H & _ & _). specialize (H ds Hd). apply drawn_arrangement in H; [|exact Np].
  apply in_arrangements in H as (L & I & N). auto.
Qed.

Lemma insert_sorted x l : StronglySorted lt l -> ~ In x l -> StronglySorted lt (insert_stable Nat.ltb x l).
Proof.
  intros S. induction S as [|y l S IH F]; intros N; cbn [insert_stable]; [repeat constructor|]. rewrite Forall_forall in F. destruct (Nat.ltb_spec y x) as [H|H].
  - constructor; [apply IH; intros C; apply N; right; exact C|]. apply Forall_forall. intros z Hz.
    apply (Permutation_in z (insert_perm Nat.ltb x l)) in Hz. destruct Hz as [<-|Hz]; auto.
  - assert (x < y) by (assert (x <> y) by (intros ->; apply N; left; reflexivity); lia). constructor; [constructor; [exact S|apply Forall_forall; exact F]|].
    constructor; [lia|]. apply Forall_forall. intros z Hz. specialize (F z Hz). lia.
Qed.

Lemma sort_strict l : NoDup l -> StronglySorted lt (sort_stable Nat.ltb l).
Proof.
  induction l as [|x l IH]; intros N; [constructor|]. inversion_clear N as [|? ? Nx N']. cbn [sort_stable]. apply insert_sorted; [apply IH; exact N'|].
  intros C. apply Nx. eapply Permutation_in; [apply sort_perm|exact C].
Qed.

Lemma sorted_unique l : forall m, StronglySorted lt l -> StronglySorted lt m -> Permutation l m -> l = m.
Proof.
  induction l as [|x l IH]; intros [|y m] Sl Sm P; [reflexivity|apply Permutation_nil in P; discriminate|apply Permutation_sym, Permutation_nil in P; discriminate|].
  inversion_clear Sl as [|? ? Sl' Fl]. inversion_clear Sm as [|? ? Sm' Fm]. rewrite Forall_forall in Fl, Fm.
  assert (x = y).
  { assert (Hx : In x (y :: m)) by (eapply Permutation_in; [exact P|left; reflexivity]). assert (Hy : In y (x :: l)) by (eapply Permutation_in; [apply Permutation_sym; exact P|left; reflexivity]).
    destruct Hx as [->|Hx]; [reflexivity|]. destruct Hy as [->|Hy]; [reflexivity|]. specialize (Fl y Hy). specialize (Fm x Hx). lia. }
  subst y. f_equal. apply IH; auto. eapply Permutation_cons_inv. exact P.
Qed.

Lemma points k va : k <= vsize va - 1 ->
  exists f : list nat -> list nat,
    (forall ds, draws_for false (vsize va - 1) k ds -> cut_points k (vsize va) (f ds)) /\
    (forall pts, cut_points k (vsize va) pts -> number_of (fun ds => draws_for false (vsize va - 1) k ds /\ f ds = pts) (fact k)) /\
    forall op a b w vb u ds ca cb, op_kind op = OKPoint k -> unit_draw u -> nle (Fin (unit_value u)) (op_prob op) = true -> a <> b -> vec_at w a va -> vec_at w b vb ->
      draws_for false (vsize va - 1) k ds -> ahead (w_rng w) (u :: map N.of_nat ds) -> swap_vector_parts k (v_cells va) (v_cells vb) (f ds) = Ok (ca, cb) ->
      exists w', apply_operator op [a; b] w = (Ok [a; b], w') /\ vec_at w' a (with_cells va ca) /\ vec_at w' b (with_cells vb cb).
Proof.
  intros Hk. set (pool := seq 1 (vsize va - 1)). assert (Np : NoDup pool) by apply seq_NoDup. assert (Lp : length pool = vsize va - 1) by apply seq_length.
  assert (Ss : forall ds, draws_for false (vsize va - 1) k ds -> StronglySorted lt (sort_stable Nat.ltb (participants false pool ds)) /\ Permutation (sort_stable Nat.ltb (participants false pool ds)) (participants false pool ds)).
  { intros ds Hd. rewrite <- Lp in Hd. destruct (drawn_set pool k ds Np ltac:(lia) Hd) as (L & N & I).
    assert (P : Permutation (sort_stable Nat.ltb (participants false pool ds)) (participants false pool ds)) by apply sort_perm. split; [|exact P].
    apply sort_strict. exact N. }
  exists (fun ds => sort_stable Nat.ltb (participants false pool ds)). split; [|split].
  - intros ds Hd. destruct (Ss ds Hd) as [S P]. rewrite <- Lp in Hd. destruct (drawn_set pool k ds Np ltac:(lia) Hd) as (L & N & I).
    split; [rewrite (Permutation_length P); exact L|]. split; [exact S|]. intros p Hp. apply (Permutation_in _ P), I, in_seq in Hp. lia.
  - intros pts (L & S & I). assert (N : NoDup pts). { clear -S. induction S as [|x l S IH F]; constructor; [|exact IH]. intros H. rewrite Forall_forall in F. specialize (F _ H). lia. }
    rewrite <- L in *. eapply number_ext; [|apply (draw_orders pool pts Np N); intros p Hp; apply in_seq; specialize (I p Hp); lia].
    intros ds. cbv beta. rewrite Lp. split; intros [Hd H]; (split; [exact Hd|]); destruct (Ss ds Hd) as [S' P].
    + apply sorted_unique; [exact S'|exact S|]. eapply Permutation_trans; eauto.
    + rewrite <- H. apply Permutation_sym, P.
  - intros op a b w vb u ds ca cb Hop Hu Hp Hne Ha Hb Hd U E.
    assert (Ex : emits (xo_points k (vsize va)) (map N.of_nat ds) (sort_stable Nat.ltb (participants false pool ds))).
    { rewrite <- (app_nil_r (map N.of_nat ds)). unfold xo_points. eapply emits_bind; [apply (emits_drawn pool); [rewrite Lp; exact Hd|lia]|]. apply emits_ret. }
    destruct (crossing_goes op k a b va vb _ _ _ _ ca cb Hop (emits_unit u Hu) Hp Hne Ex E w (conj Ha Hb) U) as (w' & E' & _ & H'). exists w'. split; [exact E'|exact H'].
Qed.

(** ** Mutated cells *)

Lemma cells m n v : match m with MIntOne _ => False | _ => True end -> n <= vsize v ->
  exists f : list nat -> list nat,
    (forall ds, draws_for false (vsize v) n ds -> cell_set n (vsize v) (f ds)) /\
    (forall pts, cell_set n (vsize v) pts -> number_of (fun ds => draws_for false (vsize v) n ds /\ Permutation (f ds) pts) (fact n)) /\
    forall op o w u ds, op_kind op = OVecMut m n -> 1 <= op_attempts op -> unit_draw u -> nle (Fin (unit_value u)) (op_prob op) = true -> vec_at w o v ->
      sound_vec v -> draws_inside m v -> draws_for false (vsize v) n ds -> ahead (w_rng w) (u :: map N.of_nat ds) ->
      exists c w', apply_operator op [o] w = (Ok [o], w') /\ vec_at w' o (with_cells v c) /\ length c = vsize v /\
        forall i x y, nth_error (v_cells v) i = Some x -> nth_error c i = Some y -> (In i (f ds) -> new_cell m v i x y) /\ (~ In i (f ds) -> y = x).
Proof.
  intros Hm Hn. set (pool := seq 0 (vsize v)). assert (Np : NoDup pool) by apply seq_NoDup. assert (Lp : length pool = vsize v) by apply seq_length.
  exists (participants false pool).
  assert (Cs : forall ds, draws_for false (vsize v) n ds -> cell_set n (vsize v) (participants false pool ds)).
  { intros ds Hd. rewrite <- Lp in Hd. destruct (drawn_set pool n ds Np ltac:(lia) Hd) as (L & N & I). split; [exact L|]. split; [exact N|]. intros p Hp. apply I, in_seq in Hp. lia. }
  split; [exact Cs|]. split.
  - intros pts (L & N & I). rewrite <- L. eapply number_ext; [|apply (draw_orders pool pts Np N); intros p Hp; apply in_seq; specialize (I p Hp); lia].
    intros ds. cbv beta. rewrite Lp. reflexivity.
  - intros op o w u ds Hop Ha Hu Hp (i & Hi & Hg) Hs Hd Hds U. destruct (Cs ds Hds) as (L & N & I). set (pts := participants false pool ds) in *.
    change (u :: map N.of_nat ds) with ([u] ++ map N.of_nat ds) in U. apply ahead_app in U as [U1 U2]. cbn [length] in U2.
    assert (Ec : cell_selector m n v (advance 1 (w_rng w)) = (Ok pts, advance (length (map N.of_nat ds)) (advance 1 (w_rng w)))).
    { assert (E : emits (sample pool n) (map N.of_nat ds) pts) by (apply emits_drawn; [rewrite Lp; exact Hds|lia]).
      destruct m; try contradiction; exact (E _ U2). }
    set (g2 := advance (length (map N.of_nat ds)) (advance 1 (w_rng w))) in *.
    destruct (mapM_inside m v pts Hs Hd I g2) as (vals & g3 & Ev & Hf).
    set (c := set_cells (v_cells v) pts vals).
    unfold apply_operator, with_probability. rewrite (bind_eq_ok _ _ _ _ _ (liftR_eq _ _ _ _ (emits_unit u Hu _ U1))).
    change (Fin (Z.of_N u # two53)) with (Fin (unit_value u)). rewrite Hp. cbn [length].
    set (w1 := mkWorld _ _ _). assert (Hi1 : at_ w1 o = Some i) by exact Hi.
    assert (E2 : exists i1, iterM set_fitness_not_evaluated [o] w1 = (Ok tt, put_at w1 o i1) /\ i_genome i1 = GVec v).
    { cbn [iterM]. unfold set_fitness_not_evaluated. rewrite (bind_eq_ok _ _ _ _ _ (modify_at _ _ _ _ Hi1)). eexists. split; [reflexivity|exact Hg]. }
    destruct E2 as (i1 & E2 & Hg2). rewrite (bind_eq_ok _ _ _ _ _ E2). set (w2 := put_at w1 o i1).
    assert (Hi2 : at_ w2 o = Some i1) by (eapply at_put_same; eauto).
    assert (E4 : exists w3, vec_attempt m n [o] w2 = (Ok true, w3) /\ vec_at w3 o (with_cells v c)).
    { unfold vec_attempt. rewrite (bind_eq_ok _ _ _ _ _ (clone_at _ _ _ Hi2)). set (w3 := push _ _).
      assert (Hi3 : at_ w3 o = Some i1). { pose proof (at_lt _ _ _ Hi2). unfold w3. rewrite at_push_old by assumption. exact Hi2. }
      rewrite (bind_eq_ok _ _ _ _ _ (load_vec_at _ _ _ _ Hi3 Hg2)).
      change (advance 1 (w_rng w)) with (w_rng w3) in Ec. rewrite (bind_eq_ok _ _ _ _ _ (liftR_eq _ _ _ _ Ec)). set (w4 := mkWorld _ _ _).
      change g2 with (w_rng w4) in Ev. rewrite (bind_eq_ok _ _ _ _ _ (liftR_eq _ _ _ _ Ev)). set (w5 := mkWorld _ _ _).
      cbv zeta. assert (Hi5 : at_ w5 o = Some i1) by exact Hi3. unfold put_genome at 1. rewrite (bind_eq_ok _ _ _ _ _ (modify_at _ _ _ _ Hi5)).
      assert (Hbox : in_box (v_bounds v) c) by (apply set_cells_in_box; [apply Hs|exact Hf]).
      pose proof Hs as (Hl & Hpb & Hib & H2 & Hb). assert (Lc : length c = vsize v) by apply set_cells_length.
      destruct (check_in_box (with_cells v c)) as (r & Hr & Hiff).
      - assert (Hpb' : proper_bounds (v_bounds (with_cells v c)) (vsize (with_cells v c))) by (unfold vsize; cbn; rewrite Lc; exact Hpb).
        pose proof (in_box_fin _ Hpb' Hbox) as Ff. eapply Forall_impl; [|exact Ff]. intros x. destruct x; simpl; congruence.
      - cbn. eapply proper_no_nan. exact Hpb.
      - cbn. destruct (v_bounds v); [exact Logic.I|]. destruct Hpb as [Hpb _]. split; [rewrite Hpb, Lc; reflexivity|exact H2].
      - fold c. rewrite Hr. assert (r = true) as -> by (apply Hiff; exact Hbox). eexists. split; [reflexivity|]. eexists. split; [eapply at_put_same; exact Hi5|reflexivity]. }
    destruct E4 as (w3 & E3 & Hv3).
    assert (E4 : op_apply op [o] w2 = (Ok (Some [o]), w3)).
    { unfold op_apply. rewrite Hop. unfold vec_apply, failable_apply. destruct (op_attempts op) as [|k]; [lia|]. rewrite failable_step, E3. reflexivity. }
    rewrite (bind_eq_ok _ _ _ _ _ E4).
    assert (P3 : present [o] w3) by (destruct Hv3 as (j & Hj & _); intros o' [<-|[]]; eauto).
    destruct (records_ok (okind_name (op_kind op)) [o] [o] w3 P3 P3) as (w4 & E5 & K5). rewrite (bind_eq_ok _ _ _ _ _ E5).
    exists c, w4. split; [reflexivity|]. split; [eapply vec_keep; eauto|]. split; [apply set_cells_length|].
    apply mapM_pairs in Ev. pose proof (Forall2_len _ _ _ Ev) as Len. intros j x y Hx Hy. split.
    + intros Hj. apply In_nth_error in Hj as (k & Hk). destruct (nth_error_ex vals k) as (z & Hz). { rewrite <- Len. eapply nth_error_lt; eauto. }
      destruct (Forall2_nth_error _ _ _ _ _ _ Ev Hk Hz) as (s1 & s2 & Hv).
      unfold c in Hy. rewrite (set_cells_at _ _ _ _ _ _ N Len (nth_error_lt _ _ _ Hx) Hk Hz) in Hy. injection Hy as <-. eapply mut_val_new; eauto.
    + intros Hj. unfold c in Hy. rewrite set_cells_other in Hy by exact Hj. congruence.
Qed.

(** ** Chosen subtrees *)

Lemma choosable_picked nt t c : choosable nt t c -> picked nt t (flatten (p_sub c)) c.
Proof. intros (rt & Hs & E & Hsub & Hf & He). split; [reflexivity|]. split; [exact Hf|]. exists rt. auto. Qed.

Lemma first_place nt t c c' : choosable nt t c -> choosable nt t c' -> label (p_sub c) = label (p_sub c') -> c = c'.
Proof.
  intros (rt & Hs & E & Hsub & Hf & _) (rt' & Hs' & E' & Hsub' & Hf' & _) Hl.
  assert (rt' = rt) as -> by (apply flatten_inj; congruence). destruct c as [pre s post], c' as [pre' s' post']. cbn [p_before p_sub p_after] in *.
  assert (pre' = pre) as ->.
  { pose proof (subtree_flatten _ _ _ _ Hsub) as F1. pose proof (subtree_flatten _ _ _ _ Hsub') as F2.
    rewrite F1 in F2. destruct (flatten_hd s) as (r1 & E1). destruct (flatten_hd s') as (r2 & E2). rewrite E1, E2, Hl in F2.
    cbn in F2. rewrite Hl in Hf. clear - F2 Hf Hf'. revert pre' F2 Hf'. revert Hf. generalize (label s'). intros x.
    induction pre as [|a pre IH]; intros Hf [|b pre'] F2 H'; auto; cbn in F2; injection F2 as Eab F2.
    - exfalso. apply H'. now left.
    - exfalso. apply Hf. now left.
    - subst b. f_equal. apply IH; auto; intros Hx; [apply Hf|apply H']; now right. }
  destruct (subtree_unique _ _ _ _ _ _ Hs Hsub Hsub') as [-> ->]. reflexivity.
Qed.

Lemma number_positions {A} (p : A -> bool) l : number_of (fun i => exists x, nth_error l i = Some x /\ p x = true) (length (filter p l)).
Proof.
  induction l as [|a l IH].
  - exists []. split; [constructor|]. split; [|reflexivity]. intros i. split; [intros []|]. intros (x & H & _). destruct i; discriminate.
  - destruct IH as (L & N & I & E). exists ((if p a then [0] else []) ++ map S L). split; [|split].
    + assert (NoDup (map S L)) by (apply FinFun.Injective_map_NoDup; [intros x y; injection 1; auto|exact N]).
      destruct (p a); [constructor; [|assumption]|assumption]. intros C. apply in_map_iff in C as (y & C & _). discriminate.
    + intros [|i].
      * rewrite in_app_iff, in_map_iff. split.
        -- intros [H|(y & H & _)]; [|discriminate]. exists a. split; [reflexivity|]. destruct (p a); [reflexivity|destruct H].
        -- intros (x & Hx & Hp). injection Hx as <-. rewrite Hp. left. left. reflexivity.
      * rewrite in_app_iff, in_map_iff. cbn [nth_error]. rewrite <- I. split.
        -- intros [H|(y & H & Hy)]; [destruct (p a); [destruct H as [H|[]]; discriminate|destruct H]|]. injection H as ->. exact Hy.
        -- intros H. right. exists i. auto.
    + rewrite app_length, map_length, E. cbn [filter]. destruct (p a); reflexivity.
Qed.

Lemma filter_twice {A} (p q : A -> bool) l : (forall x, In x l -> q x = true -> p x = true) -> filter q (filter p l) = filter q l.
Proof.
  induction l as [|a l IH]; intros H; [reflexivity|]. cbn [filter]. destruct (p a) eqn:Ep; cbn [filter]; rewrite IH by (intros x Hx; apply H; right; exact Hx); [reflexivity|].
  destruct (q a) eqn:Eq; [|reflexivity]. rewrite (H a) in Ep by (auto; left; reflexivity). discriminate.
Qed.

Lemma mut_attempt_at mn mx o t c w g : tree_at w o t -> complete_tree t -> choosable None t c ->
  (forall n, In n (t_nodes t) -> clear_terminals t (delivers n)) -> (forall e, t_erc t = Some e -> erc_proper e) ->
  random_subtree t None (w_rng w) = (Ok (Some (flatten (p_sub c))), g) ->
  match mut_attempt mn mx [o] w with
  | (Ok true, w') => exists r, program t mn (Nat.max mn mx) 0 (delivers (label (p_sub c))) r /\ tree_at w' o (filled t c r)
  | (Ok false, _) => False
  | (Raise _, _) => True
  end.
Proof.
  intros (i & Hi & Hg) Hc Hch Hcl He Er0. pose proof (choosable_picked _ _ _ Hch) as Hp. pose proof Hch as (rt & Hs & Ef & Hsub & Hfirst & Hel). unfold mut_attempt.
  set (w1 := mkWorld (w_heap w) (w_next_id w) g).
  assert (E : pick_subtree None o w = (Ok (Some (flatten (p_sub c))), w1)).
  { unfold pick_subtree. rewrite (bind_eq_ok _ _ _ _ _ (load_tree_at _ _ _ _ Hi Hg)). rewrite (liftR_eq _ _ _ _ Er0). reflexivity. }
  assert (Em : mapM (pick_subtree None) [o] w = (Ok [Some (flatten (p_sub c))], w1)) by (cbn [mapM]; rewrite (bind_eq_ok _ _ _ _ _ E); reflexivity).
  rewrite (bind_eq_ok _ _ _ _ _ Em). cbn [all_somes combine]. assert (Hi1 : at_ w1 o = Some i) by exact Hi.
  destruct (flatten_hd (p_sub c)) as (rest & Er).
  assert (Hin : In (label (p_sub c)) (t_nodes t)) by (rewrite <- Ef; eapply subtree_label_in; eauto).
  unfold bind at 1. cbn [iterM]. unfold bind at 1. unfold mut_one. rewrite (bind_eq_ok _ _ _ _ _ (load_tree_at _ _ _ _ Hi1 Hg)).
  rewrite Er. rewrite (picked_label None t _ c Hc Hp). set (nt := delivers (label (p_sub c))) in *.
  destruct (grow_tree (grow_fuel mn mx 0) t mn mx (Fin (1 # 2)) 0 nt (w_rng w1)) as [[l|e] g'] eqn:Eg.
  - rewrite (bind_eq_ok _ _ _ _ _ (liftR_eq _ _ _ _ Eg)). rewrite <- Er. rewrite (picked_replace None t c _ Hp).
    apply (grow_sound t nt _ _ _ (Hcl _ Hin) He) in Eg as (r & Hpr & <-); [|left; reflexivity|lia].
    unfold bind, lift, put_genome. rewrite (modify_at _ _ _ i) by exact Hi1. cbn.
    exists r. split; [exact Hpr|]. eexists; split; [eapply at_put_same; exact Hi1|reflexivity].
  - rewrite (bind_eq_raise _ _ _ _ _ (liftR_eq _ _ _ _ Eg)). exact Logic.I.
Qed.

Lemma mutated_at op mn mx o t c w w' u g : op_kind op = OSubtreeMut mn mx -> 1 <= op_attempts op -> unit_draw u -> nle (Fin (unit_value u)) (op_prob op) = true ->
  tree_at w o t -> complete_tree t -> choosable None t c ->
  (forall n, In n (t_nodes t) -> clear_terminals t (delivers n)) -> (forall e, t_erc t = Some e -> erc_proper e) ->
  ahead (w_rng w) [u] -> random_subtree t None (advance 1 (w_rng w)) = (Ok (Some (flatten (p_sub c))), g) -> apply_operator op [o] w = (Ok [o], w') ->
  exists r, program t mn (Nat.max mn mx) 0 (delivers (label (p_sub c))) r /\ tree_at w' o (filled t c r).
Proof.
  intros Hop Ha Hu Hp (i & Hi & Hg) Hc Hch Hcl He U Er. unfold apply_operator, with_probability. rewrite (bind_eq_ok _ _ _ _ _ (liftR_eq _ _ _ _ (emits_unit u Hu _ U))).
  change (Fin (Z.of_N u # two53)) with (Fin (unit_value u)). rewrite Hp. cbn [length]. set (w0 := mkWorld _ _ _). assert (Hi0 : at_ w0 o = Some i) by exact Hi.
  assert (E2 : exists i1, iterM set_fitness_not_evaluated [o] w0 = (Ok tt, put_at w0 o i1) /\ i_genome i1 = GTree t).
  { cbn [iterM]. unfold set_fitness_not_evaluated. rewrite (bind_eq_ok _ _ _ _ _ (modify_at _ _ _ _ Hi0)). eexists. split; [reflexivity|exact Hg]. }
  destruct E2 as (i1 & E2 & Hg2). rewrite (bind_eq_ok _ _ _ _ _ E2). set (w1 := put_at w0 o i1).
  assert (Ht1 : tree_at w1 o t) by (exists i1; split; [eapply at_put_same; eauto|exact Hg2]).
  pose proof (mut_attempt_at mn mx o t c w1 g Ht1 Hc Hch Hcl He Er) as H.
  assert (Eop : op_apply op [o] w1 = failable_apply (op_attempts op) (fun _ => ok <- mut_attempt mn mx [o] ;; ret (ok, Some [o])) (ret (Some [o])) w1).
  { unfold op_apply. rewrite Hop. reflexivity. }
  unfold bind at 1. rewrite Eop. unfold failable_apply. destruct (op_attempts op) as [|k]; [lia|]. rewrite failable_step.
  destruct (mut_attempt mn mx [o] w1) as [[[|]|e] w2]; [|contradiction|discriminate]. destruct H as (r & Hr & Ht).
  assert (P2 : present [o] w2) by (destruct Ht as (j & Hj & _); intros o' [<-|[]]; eauto).
  destruct (records_ok (okind_name (op_kind op)) [o] [o] w2 P2 P2) as (w3 & E3 & K3).
  rewrite (bind_eq_ok _ _ _ _ _ E3). unfold ret. intros [= <-]. exists r. split; [exact Hr|]. eapply gkeep_tree; eauto.
Qed.

Lemma subtrees nt t : complete_tree t -> open_for nt t ->
  exists m (f : nat -> place), 0 < m /\ open_positions nt t m /\
    (forall d, d < m -> choosable nt t (f d)) /\
    (forall c, choosable nt t c -> exists q, occurrences (label (p_sub c)) (t_nodes t) q /\ number_of (fun d => d < m /\ f d = c) q) /\
    (forall d, d < m -> emits (random_subtree t nt) [N.of_nat d] (Some (flatten (p_sub (f d))))).
Proof.
  intros Hc (root & n0 & Hroot & Hn0 & He0). pose proof Hc as (Ho & Hh & rt & Hs & E).
  assert (Hrt : root = label rt). { rewrite <- E in Hroot. destruct (flatten_hd rt) as (r & Er). rewrite Er in Hroot. cbn in Hroot. congruence. }
  subst root. set (cands := filter (subtree_candidate (label rt) nt) (t_nodes t)).
  assert (Cand : forall n, In n (t_nodes t) -> (subtree_candidate (label rt) nt n = true <-> eligible (label rt) nt n)).
  { intros n Hn. apply eligible_iff. intros f ->. eapply complete_hinted; eauto. }
  assert (Pl : exists L, Forall2 (fun n c => choosable nt t c /\ label (p_sub c) = n /\ get_subtree_by_root t n = Ok (flatten (p_sub c))) cands L).
  { assert (H : forall n, In n cands -> exists c, choosable nt t c /\ label (p_sub c) = n /\ get_subtree_by_root t n = Ok (flatten (p_sub c))).
    { intros n Hn. apply filter_In in Hn as [Hn Hcand]. destruct (get_subtree_spec t rt n Hs E Ho Hn) as (pre & s & post & Eg & Hsub & Hl & Hf).
      exists (mkPlace pre s post). cbn [p_sub]. split; [|auto]. exists rt. cbn [p_before p_sub p_after]. rewrite Hl. split; [exact Hs|]. split; [exact E|]. split; [exact Hsub|]. split; [exact Hf|]. apply Cand; auto. }
    clear - H. induction cands as [|n l IH]; [exists []; constructor|]. destruct (H n (or_introl eq_refl)) as (c & Hc). destruct IH as (L & HL); [intros m Hm; apply H; right; exact Hm|].
    exists (c :: L). constructor; assumption. }
  destruct Pl as (L & HL). pose proof (Forall2_len _ _ _ HL) as Len.
  set (dflt := mkPlace [] rt []). exists (length cands), (fun d => nth d L dflt).
  assert (At : forall d, d < length cands -> exists n, nth_error cands d = Some n /\ choosable nt t (nth d L dflt) /\ label (p_sub (nth d L dflt)) = n /\ get_subtree_by_root t n = Ok (flatten (p_sub (nth d L dflt)))).
  { intros d Hd. destruct (nth_error_ex cands d Hd) as (n & Hn). exists n. split; [exact Hn|]. rewrite Len in Hd. apply (Forall2_nth_error _ _ _ _ _ _ HL Hn). apply nth_error_nth'. exact Hd. }
  assert (Pos : 0 < length cands).
  { assert (Hi : In n0 cands) by (apply filter_In; split; [exact Hn0|]; apply Cand; auto). destruct cands; [destruct Hi|cbn; lia]. }
  split; [exact Pos|]. split; [|split; [|split]].
  - unfold open_positions. eapply number_ext; [|apply (number_positions (subtree_candidate (label rt) nt) (t_nodes t))]. intros i. cbv beta. split.
    + intros (n & Hn & Hcd). exists (label rt), n. split; [exact Hroot|]. split; [exact Hn|]. apply Cand; [eapply nth_error_In; eauto|exact Hcd].
    + intros (r & n & Hr & Hn & Hel). rewrite Hroot in Hr. injection Hr as <-. exists n. split; [exact Hn|]. apply Cand; [eapply nth_error_In; eauto|exact Hel].
  - intros d Hd. destruct (At d Hd) as (n & _ & H & _). exact H.
  - intros c Hch. set (x := label (p_sub c)). exists (length (filter (fun y => node_eqb y x) (t_nodes t))). split.
    + unfold occurrences. eapply number_ext; [|apply number_positions]. intros i. cbv beta. split.
      * intros (y & Hy & Heq). apply node_eqb_iff in Heq. congruence.
      * intros Hy. exists x. split; [exact Hy|]. apply node_eqb_iff. reflexivity.
    + assert (Efl : filter (fun y => node_eqb y x) (t_nodes t) = filter (fun y => node_eqb y x) cands).
      { symmetry. apply filter_twice. intros y Hy Heq. apply node_eqb_iff in Heq. subst y. apply Cand; [exact Hy|].
        destruct Hch as (rt' & Hs' & E' & _ & _ & Hel). assert (rt' = rt) as -> by (apply flatten_inj; congruence). exact Hel. }
      rewrite Efl. eapply number_ext; [|apply number_positions]. intros d. cbv beta. split.
      * intros (y & Hy & Heq). apply node_eqb_iff in Heq. subst y. assert (Hd : d < length cands) by (apply nth_error_Some; congruence). split; [exact Hd|].
        destruct (At d Hd) as (n & Hn & Hcd & Hl & _). rewrite Hy in Hn. injection Hn as <-. eapply first_place; eauto.
      * intros [Hd Ec]. destruct (At d Hd) as (n & Hn & _ & Hl & _). rewrite Ec in Hl. exists n. split; [exact Hn|]. apply node_eqb_iff. auto.
  - intros d Hd. destruct (At d Hd) as (n & Hn & _ & _ & Eg).
    assert (Ech : emits (choice cands) [N.of_nat d] n).
    { unfold choice. destruct cands as [|y l]; [cbn in Hd; lia|]. eapply emits_bind1; [apply emits_randbelow; exact Hd|]. rewrite Hn. apply emits_ret. }
    unfold random_subtree. destruct (t_nodes t) as [|r l] eqn:En; [discriminate|]. injection Hroot as ->. fold cands.
    destruct cands as [|y l'] eqn:Ef; [cbn in Hd; lia|]. eapply emits_bind1; [exact Ech|]. eapply emits_lift; [exact Eg|]. apply emits_ret.
Qed.

Lemma places t : complete_tree t -> open_for None t ->
  (forall n, In n (t_nodes t) -> clear_terminals t (delivers n)) -> (forall e, t_erc t = Some e -> erc_proper e) ->
  exists m (f : nat -> place), 0 < m /\ open_positions None t m /\
    (forall d, d < m -> choosable None t (f d)) /\
    (forall c, choosable None t c -> exists q, occurrences (label (p_sub c)) (t_nodes t) q /\ number_of (fun d => d < m /\ f d = c) q) /\
    forall op mn mx o w w' u d, op_kind op = OSubtreeMut mn mx -> 1 <= op_attempts op -> unit_draw u -> nle (Fin (unit_value u)) (op_prob op) = true ->
      tree_at w o t -> d < m -> ahead (w_rng w) [u; N.of_nat d] -> apply_operator op [o] w = (Ok [o], w') ->
      exists r, program t mn (Nat.max mn mx) 0 (delivers (label (p_sub (f d)))) r /\ tree_at w' o (filled t (f d) r).
Proof.
  intros Hc Hop Hcl He. destruct (subtrees None t Hc Hop) as (m & f & Hm & Hpos & Hch & Hq & Hem). exists m, f. split; [exact Hm|]. split; [exact Hpos|]. split; [exact Hch|]. split; [exact Hq|].
  intros op mn mx o w w' u d Hk Ha Hu Hp Ht Hd U E. change [u; N.of_nat d] with ([u] ++ [N.of_nat d]) in U. apply ahead_app in U as [U1 U2].
  eapply mutated_at; eauto. apply (Hem d Hd). exact U2.
Qed.

(** ** A place that is never chosen *)

Definition fair_add : func := mkFunc 1 "add" [None; None] None.
Definition fair_x : node := TNode (TVar "x") None.
Definition fair_y : node := TNode (TVar "y") None.
Definition fair_tree : tree := mkTree [fair_add] [(TVar "x", None); (TVar "y", None)] None None [FNode fair_add; fair_x; fair_x].
Definition fair_rose : rtree := Rose (FNode fair_add) [Rose fair_x []; Rose fair_x []].

Lemma fair_complete : complete_tree fair_tree.
Proof.
  split; [intros f; cbn; intros [E|[E|[E|[]]]]; try discriminate; injection E as <-; left; reflexivity|].
  split; [intros f [<-|[]]; right; cbn; intuition|]. exists fair_rose. split; [repeat split|reflexivity].
Qed.

Lemma fair_clear : clear_terminals fair_tree None.
Proof.
  left. split; [intros a [->|(f & [<-|[]] & Ha)]; [reflexivity|]; cbn in Ha; intuition|]. intros k a [E|[E|[]]]; congruence.
Qed.

Lemma second_refuted : exists op mn mx t c r o w, op_kind op = OSubtreeMut mn mx /\ 1 <= op_attempts op /\ nle (Fin 1) (op_prob op) = true /\ tree_at w o t /\ complete_tree t /\
  place_in t c /\ (exists root, hd_error (t_nodes t) = Some root /\ eligible root None (label (p_sub c))) /\
  program t mn (Nat.max mn mx) 0 (delivers (label (p_sub c))) r /\
  forall g w', apply_operator op [o] (with_rng w g) = (Ok [o], w') -> ~ tree_at w' o (filled t c r).
Proof.
  exists (mkOper (OSubtreeMut 0 0) (Fin 1) 1 5), 0, 0, fair_tree, (mkPlace [FNode fair_add; fair_x] (Rose fair_x []) []), (Rose fair_y []), 0.
  exists (mkWorld [mkInd 0 0 (mkFit KSimple VNone false (HB true) false false (Fin 0) (Fin 0)) 0 [] [] false [] (GTree fair_tree)] 1 (seeded_with [])).
  assert (Ht : tree_at (mkWorld [mkInd 0 0 (mkFit KSimple VNone false (HB true) false false (Fin 0) (Fin 0)) 0 [] [] false [] (GTree fair_tree)] 1 (seeded_with [])) 0 fair_tree) by (eexists; split; reflexivity).
  split; [reflexivity|]. split; [cbn; lia|]. split; [reflexivity|]. split; [exact Ht|]. split; [exact fair_complete|].
  assert (Hsub : subtree_at fair_rose [FNode fair_add; fair_x] (Rose fair_x []) []) by exact (Below (FNode fair_add) [Rose fair_x []] (Rose fair_x []) [] [] _ [] (Here _)).
  split; [exists fair_rose; split; [repeat split|]; split; [reflexivity|exact Hsub]|].
  split; [eexists; split; [reflexivity|left; reflexivity]|]. split; [apply Terminal; [apply Listed; right; left; reflexivity|lia]|].
  intros g w' E Ht'.
  assert (N : forall n, In n (t_nodes fair_tree) -> delivers n = None) by (intros n; cbn; intros [<-|[<-|[<-|[]]]]; reflexivity).
  assert (R : regrown 0 0 fair_tree (filled fair_tree (mkPlace [FNode fair_add; fair_x] (Rose fair_x []) []) (Rose fair_y []))).
  { apply (tree_moves (mkOper (OSubtreeMut 0 0) (Fin 1) 1 5) 0 0 0 _ fair_tree _ eq_refl ltac:(cbn; lia) eq_refl Ht fair_complete); [| | |eauto].
    - eexists _, fair_x. split; [reflexivity|]. split; [cbn; auto|left; reflexivity].
    - intros n Hn. rewrite (N n Hn). exact fair_clear.
    - discriminate. }
  destruct R as (rt & c & r & Hs & Ef & Hs2 & Hf & _ & Hp & Eq). assert (rt = fair_rose) as -> by (apply flatten_inj; [exact Hs|repeat split|exact Ef]).
  assert (Hr : exists n, r = Rose n []). { inversion Hp; subst; [eauto|]. cbn in *. lia. } destruct Hr as (n & ->).
  unfold filled in Eq. injection Eq as Eq. cbn [p_before p_sub p_after flatten flat_map app] in Eq. destruct c as [pre s post]. cbn [p_before p_sub p_after] in *.
  pose proof (subtree_flatten _ _ _ _ Hs2) as Fl. cbn in Fl.
  assert (Last : forall (l : list node) x y u v, l ++ [x] = u ++ v ++ [y] -> x = y). { intros l x y u v H. rewrite app_assoc in H. apply app_inj_tail in H. apply H. }
  destruct pre as [|a [|a' [|a'' pre]]]; cbn [app] in Eq.
  - assert (post = [fair_x; fair_y]) by congruence. subst post. specialize (Last [FNode fair_add; fair_x] fair_x fair_y [] (flatten s ++ [fair_x])). cbn in Last. rewrite <- app_assoc in Last. specialize (Last Fl). discriminate.
  - assert (post = [fair_y]) by congruence. subst post. specialize (Last [FNode fair_add; fair_x] fair_x fair_y [a] (flatten s) Fl). discriminate.
  - assert (a = FNode fair_add /\ a' = fair_x /\ post = []) as (-> & -> & ->) by (repeat split; congruence). rewrite app_nil_r in Fl. destruct (flatten_hd s) as (rest & Es). rewrite Es in Fl. cbn in Fl. injection Fl as Fl _. apply Hf. right. left. exact Fl.
  - destruct pre; discriminate.
Qed.

(** ** Functions, terminals and constants *)

Lemma positions_nth {A} (p : A -> bool) l : forall i,
  length (positions_from p i l) = length (filter p l) /\ NoDup (positions_from p i l) /\
  forall d x, nth_error (filter p l) d = Some x -> exists k, nth_error (positions_from p i l) d = Some (i + k) /\ nth_error l k = Some x.
Proof.
  induction l as [|a l IH]; intros i; cbn [positions_from filter]; [repeat split; [constructor|intros [|d] x; discriminate]|].
  destruct (IH (S i)) as (L & N & I). destruct (p a).
  - split; [cbn [length]; lia|]. split; [constructor; [|exact N]; intros C; apply positions_from_In in C as (k & x & E & _); lia|].
    intros [|d] x E; [injection E as <-; exists 0; rewrite Nat.add_0_r; auto|]. destruct (I d x E) as (k & E1 & E2). exists (S k). split; [cbn [nth_error]; rewrite E1; f_equal; lia|exact E2].
  - split; [exact L|]. split; [exact N|]. intros d x E. destruct (I d x E) as (k & E1 & E2). exists (S k). split; [rewrite E1; f_equal; lia|exact E2].
Qed.

Lemma positions_paired {A} (p : A -> bool) (P : A -> Prop) l : (forall x, p x = true <-> P x) ->
  exists h : nat -> nat, bijection (fun d => d < length (filter p l)) (fun i => exists x, nth_error l i = Some x /\ P x) h /\
    forall d, d < length (filter p l) -> nth_error (filter p l) d = nth_error l (h d) /\ nth_error (positions_from p 0 l) d = Some (h d).
Proof.
  intros HP. destruct (positions_nth p l 0) as (L & N & I). exists (fun d => nth d (positions_from p 0 l) 0).
  assert (At : forall d, d < length (filter p l) -> exists x, nth_error (filter p l) d = Some x /\ nth_error l (nth d (positions_from p 0 l) 0) = Some x /\
    nth_error (positions_from p 0 l) d = Some (nth d (positions_from p 0 l) 0)).
  { intros d Hd. destruct (nth_error_ex _ d Hd) as (x & Hx). exists x. split; [exact Hx|]. destruct (I d x Hx) as (k & E1 & E2). cbn in E1.
    rewrite (nth_error_nth _ _ _ E1). auto. }
  split; [|intros d Hd; destruct (At d Hd) as (x & -> & -> & ->); auto]. split; [|split].
  - intros d Hd. destruct (At d Hd) as (x & H1 & H2 & _). exists x. split; [exact H2|]. apply HP. apply nth_error_In in H1. apply filter_In in H1. tauto.
  - intros d d' Hd Hd' E. rewrite <- L in Hd, Hd'. exact (proj1 (NoDup_nth (positions_from p 0 l) 0) N d d' Hd Hd' E).
  - intros i (x & Hx & Px). assert (Hi : In i (positions_from p 0 l)) by (apply positions_from_In; exists i, x; split; [reflexivity|]; split; [exact Hx|apply HP; exact Px]).
    apply (In_nth _ _ 0) in Hi as (d & Hd & E). exists d. split; [rewrite <- L; exact Hd|exact E].
Qed.

Lemma emits_choice_nth {A} (l : list A) d x : nth_error l d = Some x -> emits (choice l) [N.of_nat d] x.
Proof.
  intros E. assert (Hd : d < length l) by (apply nth_error_Some; congruence). unfold choice. destruct l as [|y l]; [cbn in Hd; lia|].
  eapply emits_bind1; [apply emits_randbelow; exact Hd|]. rewrite E. apply emits_ret.
Qed.

Lemma functions t a : (forall f, In f (t_fset t) -> hinted f) ->
  exists m h, bijection (fun d => d < m) (fun i => exists f, nth_error (t_fset t) i = Some f /\ f_ret f = a) h /\
    forall d f g, d < m -> nth_error (t_fset t) (h d) = Some f -> ahead g [N.of_nat d] -> random_function t a g = (Ok (Some (FNode f)), later 1 g).
Proof.
  intros Hh. destruct (positions_paired (fun f => oty_eqb (get_return_type f) a) (fun f => f_ret f = a) (t_fset t)) as (h & Hb & Hn); [intros f; apply oty_eqb_iff|].
  exists (length (filter (fun f => oty_eqb (get_return_type f) a) (t_fset t))), h. split; [exact Hb|]. intros d f g Hd Hf U. destruct (Hn d Hd) as [E _]. rewrite Hf in E.
  unfold random_function. destruct (filter _ _) as [|c cs] eqn:Ef; [cbn in Hd; lia|].
  refine (emits_bind1 _ _ _ _ _ (emits_choice_nth _ _ _ E) _ g U). eapply emits_lift; [apply function_node_hinted, Hh; eapply nth_error_In; exact Hf|apply emits_ret].
Qed.

Lemma erc_any e k tag : erc_proper e -> exists c, erc_gives e c /\ emits (draw_erc e) [k; tag] c.
Proof.
  destruct e as [lo hi|lo hi]; cbn [erc_proper draw_erc erc_gives].
  - intros [A B]. destruct lo as [a| | |]; try discriminate. destruct hi as [b| | |]; try discriminate.
    exists (TNum true (Fin (a + (b - a) * (Z.of_N (N.modulo k (2 ^ 53)) # two53))) tag). split.
    + do 2 eexists. split; [|reflexivity]. exists a, b, (N.modulo k (2 ^ 53)). split; [reflexivity|]. split; [reflexivity|]. split; [apply N.mod_lt; discriminate|reflexivity].
    + change [k; tag] with ([k] ++ [tag]). eapply emits_bind; [|unfold new_number; apply (emits_next _ tag); intros q; apply emits_ret].
      unfold uniform. apply (emits_bind1 _ _ _ (Fin (Z.of_N (N.modulo k (2 ^ 53)) # two53))); [|apply emits_ret]. apply emits_next. intros q. cbn [d_n]. apply emits_ret.
  - intros (a & b & -> & -> & H). exists (TNum false (nof_Z (a + Z.of_N (N.modulo k (Z.to_N (b - a + 1))))) tag). split.
    + do 2 eexists. split; [|reflexivity]. exists a, b. eexists. split; [reflexivity|]. split; [reflexivity|]. split; [|reflexivity].
      pose proof (N.mod_lt k (Z.to_N (b - a + 1))). lia.
    + change [k; tag] with ([k] ++ [tag]). eapply emits_bind; [|unfold new_number; apply (emits_next _ tag); intros q; apply emits_ret].
      unfold randint. rewrite !num_to_Z_of. destruct (Z.ltb_spec b a); [lia|]. apply emits_next. intros q. apply emits_ret.
Qed.

Lemma terminals t a :
  exists m h, bijection (fun d => d < m) (fun i => exists v, nth_error (t_tset t) i = Some (v, a)) h /\
    ((t_erc t = None \/ exists s, a = Some s /\ is_number_type s = false) ->
      forall d v g, d < m -> nth_error (t_tset t) (h d) = Some (v, a) -> ahead g [N.of_nat d] ->
        exists b, random_terminal t a g = (Ok (Some (TNode v b)), later 1 g)) /\
    (forall e, t_erc t = Some e -> erc_proper e -> (a = None \/ exists s, a = Some s /\ is_number_type s = true) ->
      forall k tag d g, ahead g [k; tag; N.of_nat d] ->
        (d < m -> forall v, nth_error (t_tset t) (h d) = Some (v, a) -> exists b, random_terminal t a g = (Ok (Some (TNode v b)), later 3 g)) /\
        (d = m -> exists c b, erc_gives e c /\ random_terminal t a g = (Ok (Some (TNode c b)), later 3 g))).
Proof.
  destruct (positions_paired (fun e => oty_eqb (snd e) a) (fun e => snd e = a) (t_tset t)) as (h & Hb & Hn); [intros f; apply oty_eqb_iff|].
  exists (length (filter (fun e => oty_eqb (snd e) a) (t_tset t))), h.
  assert (Rel : forall d v, d < length (filter (fun e => oty_eqb (snd e) a) (t_tset t)) -> nth_error (t_tset t) (h d) = Some (v, a) ->
    nth_error (map fst (filter (fun e => oty_eqb (snd e) a) (t_tset t))) d = Some v).
  { intros d v Hd Hv. destruct (Hn d Hd) as [E _]. rewrite Hv in E. rewrite nth_error_map, E. reflexivity. }
  assert (Pick : forall l d v, nth_error l d = Some v -> exists b, emits
      (match l with [] => ret None | _ :: _ => v0 <- choice l ;; ret (Some (TNode v0 (tset_get v0 (t_tset t) (match a with None => None | Some _ => Some (tval_type v0) end)))) end)
      [N.of_nat d] (Some (TNode v b))).
  { intros l d v E. destruct l as [|c cs]; [destruct d; discriminate|]. eexists. eapply emits_bind1; [apply emits_choice_nth; exact E|apply emits_ret]. }
  split; [|split].
  - destruct Hb as (B1 & B2 & B3). split; [|split].
    + intros d Hd. destruct (B1 d Hd) as ([v b] & E & Ea). cbn in Ea. subst b. eauto.
    + exact B2.
    + intros i (v & E). apply B3. exists (v, a). auto.
  - intros Hno d v g Hd Hv U. assert (Ea : erc_applies t a = None).
    { unfold erc_applies. destruct Hno as [->|(s & -> & Hs)]; [reflexivity|]. destruct (t_erc t); [|reflexivity]. rewrite Hs. reflexivity. }
    destruct (Pick _ _ _ (Rel d v Hd Hv)) as (b & Hp). exists b. unfold random_terminal. cbv zeta. rewrite Ea. exact (Hp g U).
  - intros e He Hpr Hnum k tag d g U. assert (Ea : erc_applies t a = Some e).
    { unfold erc_applies. rewrite He. destruct Hnum as [->|(s & -> & Hs)]; [reflexivity|]. rewrite Hs. reflexivity. }
    destruct (erc_any e k tag Hpr) as (c & Hg & Hc). change [k; tag; N.of_nat d] with ([k; tag] ++ [N.of_nat d]) in U. set (rel := map fst (filter (fun e => oty_eqb (snd e) a) (t_tset t))) in *.
    assert (All : forall v, nth_error (rel ++ [c]) d = Some v -> exists b, random_terminal t a g = (Ok (Some (TNode v b)), later 3 g)).
    { intros v Hv. destruct (Pick _ _ _ Hv) as (b & Hp). exists b. unfold random_terminal. cbv zeta. rewrite Ea. fold rel.
      refine (emits_bind _ _ [k; tag] [N.of_nat d] (rel ++ [c]) _ _ _ g U); [eapply emits_bind1; [exact Hc|apply emits_ret]|exact Hp]. }
    split.
    + intros Hd v Hv. apply All. rewrite nth_error_app1; [exact (Rel d v Hd Hv)|]. unfold rel. rewrite map_length. exact Hd.
    + intros ->. assert (Hc' : nth_error (rel ++ [c]) (length (filter (fun e => oty_eqb (snd e) a) (t_tset t))) = Some c).
      { rewrite nth_error_app2; unfold rel; rewrite map_length; [rewrite Nat.sub_diag; reflexivity|lia]. }
      destruct (All c Hc') as (b & E). exists c, b. auto.
Qed.

Lemma constant_positions t : exists m h, bijection (fun d => d < m) (fun i => exists b x tag s, nth_error (t_nodes t) i = Some (TNode (TNum b x tag) s)) h /\
  forall d, d < m -> emits (get_random_numeric_node t) [N.of_nat d] (Some (h d)).
Proof.
  destruct (positions_paired is_numeric_node (fun n => is_numeric_node n = true) (t_nodes t)) as (h & Hb & Hn); [intros n; reflexivity|].
  exists (length (filter is_numeric_node (t_nodes t))), h. split.
  - destruct Hb as (B1 & B2 & B3). split; [|split]; [|exact B2|].
    + intros d Hd. apply numeric_iff. exact (B1 d Hd).
    + intros i Hi. apply B3. apply numeric_iff. exact Hi.
  - intros d Hd. destruct (Hn d Hd) as [_ E]. unfold get_random_numeric_node. destruct (positions_from is_numeric_node 0 (t_nodes t)) as [|c cs]; [destruct d; discriminate|].
    eapply emits_bind1; [apply emits_choice_nth; exact E|apply emits_ret].
Qed.

Lemma constants t : exists m h, bijection (fun d => d < m) (fun i => exists b x tag s, nth_error (t_nodes t) i = Some (TNode (TNum b x tag) s)) h /\
  forall op mu sigma o w u d, op_kind op = OErc mu sigma -> 1 <= op_attempts op -> unit_draw u -> nle (Fin (unit_value u)) (op_prob op) = true ->
    tree_at w o t -> d < m -> ahead (w_rng w) [u; N.of_nat d] ->
    exists w' t' b x tag s z tag', apply_operator op [o] w = (Ok [o], w') /\ tree_at w' o t' /\ nth_error (t_nodes t) (h d) = Some (TNode (TNum b x tag) s) /\
      nth_error (t_nodes t') (h d) = Some (TNode (TNum true (nadd x (nadd mu (nmul (Fin z) sigma))) tag') s) /\
      forall i, i <> h d -> nth_error (t_nodes t') i = nth_error (t_nodes t) i.
Proof.
  destruct (constant_positions t) as (m & h & Hb & Hem). exists m, h. split; [exact Hb|].
  intros op mu sigma o w u d Hop Ha Hu Hp (i & Hi & Hg) Hd U. change [u; N.of_nat d] with ([u] ++ [N.of_nat d]) in U. apply ahead_app in U as [U1 U2].
  destruct (proj1 Hb d Hd) as (b & x & tag & s & Hn).
  unfold apply_operator, with_probability. rewrite (bind_eq_ok _ _ _ _ _ (liftR_eq _ _ _ _ (emits_unit u Hu _ U1))).
  change (Fin (Z.of_N u # two53)) with (Fin (unit_value u)). rewrite Hp. cbn [length]. set (w0 := mkWorld _ _ _). assert (Hi0 : at_ w0 o = Some i) by exact Hi.
  assert (E2 : exists i1, iterM set_fitness_not_evaluated [o] w0 = (Ok tt, put_at w0 o i1) /\ i_genome i1 = GTree t).
  { cbn [iterM]. unfold set_fitness_not_evaluated. rewrite (bind_eq_ok _ _ _ _ _ (modify_at _ _ _ _ Hi0)). eexists. split; [reflexivity|exact Hg]. }
  destruct E2 as (i1 & E2 & Hg2). rewrite (bind_eq_ok _ _ _ _ _ E2). set (w1 := put_at w0 o i1).
  assert (Hi1 : at_ w1 o = Some i1) by (eapply at_put_same; eauto).
  assert (E3 : exists z tag' t' w3, erc_attempt mu sigma [o] w1 = (Ok true, w3) /\ tree_at w3 o t' /\
    t_nodes t' = list_set (t_nodes t) (h d) (TNode (TNum true (nadd x (nadd mu (nmul (Fin z) sigma))) tag') s)).
  { unfold erc_attempt. set (w2 := mkWorld (w_heap w1) (w_next_id w1) (advance 1 (w_rng w1))). assert (Hi2 : at_ w2 o = Some i1) by exact Hi1.
    assert (Em : mapM (fun o => t <- load_tree o ;; liftR (get_random_numeric_node t)) [o] w1 = (Ok [Some (h d)], w2)).
    { cbn [mapM]. erewrite bind_eq_ok; [reflexivity|]. rewrite (bind_eq_ok _ _ _ _ _ (load_tree_at _ _ _ _ Hi1 Hg2)). apply liftR_eq. apply (Hem d Hd). exact U2. }
    rewrite (bind_eq_ok _ _ _ _ _ Em). cbn [all_somes combine iterM]. unfold erc_one, gauss, next_draw. unfold bind at 1 2 3. rewrite (load_tree_at _ _ _ _ Hi2 Hg2).
    unfold bind, liftR, ret. cbn. rewrite Hn. unfold put_genome. rewrite (modify_at _ _ _ i1) by exact Hi1. cbn.
    do 4 eexists. split; [reflexivity|]. split; [eexists; split; [eapply at_put_same; exact Hi1|reflexivity]|]. reflexivity. }
  destruct E3 as (z & tag' & t' & w2 & E3 & Ht & En).
  assert (Eop : op_apply op [o] w1 = failable_apply (op_attempts op) (fun _ => ok <- erc_attempt mu sigma [o] ;; ret (ok, Some [o])) (ret (Some [o])) w1).
  { unfold op_apply. rewrite Hop. reflexivity. }
  unfold bind at 1. rewrite Eop. unfold failable_apply. destruct (op_attempts op) as [|k]; [lia|]. rewrite failable_step. rewrite E3.
  assert (P2 : present [o] w2) by (destruct Ht as (j & Hj & _); intros o' [<-|[]]; eauto).
  destruct (records_ok (okind_name (op_kind op)) [o] [o] w2 P2 P2) as (w3 & E4 & K3).
  rewrite (bind_eq_ok _ _ _ _ _ E4). unfold ret. exists w3, t', b, x, tag, s, z, tag'. split; [reflexivity|]. split; [eapply gkeep_tree; eauto|]. split; [exact Hn|]. rewrite En.
  split; [apply nth_list_set_same; apply nth_error_Some; congruence|]. intros j Hj. apply nth_list_set_other. congruence.
Qed.
