(** Proofs about rounding to doubles. *)
From Coq Require Import Lia Lqa QArith Qround Qabs Qpower Setoid Morphisms.
From Verif.Model Require Import Double.
Local Open Scope Q_scope.

Lemma two_pos e : 0 < 2 ^ e.
Proof. apply Qpower_0_lt. reflexivity. Qed.
#[local] Hint Resolve two_pos : core.

Lemma two_ne e : ~ 2 ^ e == 0.
Proof. intros E. pose proof (two_pos e). rewrite E in H. discriminate. Qed.
#[local] Hint Resolve two_ne : core.

Lemma two_add a b : 2 ^ (a + b) == 2 ^ a * 2 ^ b.
Proof. apply Qpower_plus. discriminate. Qed.

Lemma two_Z n : (0 <= n)%Z -> inject_Z (2 ^ n) == 2 ^ n.
Proof. intros H. rewrite Zpower_Qpower by exact H. reflexivity. Qed.

Lemma two_le a b : (a <= b)%Z -> 2 ^ a <= 2 ^ b.
Proof. intros H. apply Qpower_le_compat_l; [exact H|discriminate]. Qed.

Lemma two_lt_inv a b : 2 ^ a < 2 ^ b -> (a < b)%Z.
Proof. intros H. eapply Qpower_lt_compat_l_inv; [exact H|reflexivity]. Qed.

(** ** The leading digit *)

Lemma Qfrac q : q == inject_Z (Qnum q) / inject_Z (Zpos (Qden q)).
Proof. destruct q as [n d]. unfold Qdiv, Qinv, Qmult, Qeq, inject_Z. simpl. lia. Qed.

Lemma ilog2_spec q : 0 < q -> 2 ^ ilog2 q <= q < 2 ^ (ilog2 q + 1).
Proof.
  intros H. unfold ilog2. set (a := Z.log2 (Qnum q)). set (b := Z.log2 (Zpos (Qden q))).
  assert (Hn : (0 < Qnum q)%Z) by (destruct q as [n d]; unfold Qlt in H; simpl in *; lia).
  destruct (Z.log2_spec (Qnum q) Hn) as [N1 N2]. fold a in N1, N2.
  destruct (Z.log2_spec (Zpos (Qden q))) as [D1 D2]; [reflexivity|]. fold b in D1, D2.
  assert (Ha : (0 <= a)%Z) by apply Z.log2_nonneg. assert (Hb : (0 <= b)%Z) by apply Z.log2_nonneg.
  set (n := inject_Z (Qnum q)) in *. set (d := inject_Z (Zpos (Qden q))) in *.
  assert (Q1 : 2 ^ a <= n) by (unfold n, d; rewrite <- two_Z by lia; rewrite <- Zle_Qle; exact N1).
  assert (Q2 : n < 2 ^ (a + 1)) by (unfold n, d; rewrite <- two_Z by lia; rewrite <- Zlt_Qlt; lia).
  assert (Q3 : 2 ^ b <= d) by (unfold n, d; rewrite <- two_Z by lia; rewrite <- Zle_Qle; exact D1).
  assert (Q4 : d < 2 ^ (b + 1)) by (unfold n, d; rewrite <- two_Z by lia; rewrite <- Zlt_Qlt; lia).
  assert (Dp : 0 < d) by (eapply Qlt_le_trans; [apply (two_pos b)|exact Q3]).
  assert (E : q * d == n) by (rewrite (Qfrac q); fold n; fold d; field; intro X; rewrite X in Dp; discriminate).
  assert (U : q < 2 ^ (a - b + 1)).
  { apply Qnot_le_lt. intros L. apply (Qlt_irrefl n). eapply Qlt_le_trans; [exact Q2|]. rewrite <- E.
    replace (a + 1)%Z with (a - b + 1 + b)%Z by lia. rewrite two_add.
    eapply Qle_trans; [|apply Qmult_le_compat_r; [exact L|lra]].
    rewrite Qmult_comm, (Qmult_comm _ d). apply Qmult_le_compat_r; [exact Q3|apply Qlt_le_weak; auto]. }
  assert (L : 2 ^ (a - b - 1) <= q).
  { apply Qnot_lt_le. intros L. apply (Qlt_irrefl n). eapply Qlt_le_trans; [|exact Q1]. rewrite <- E.
    assert (EA : 2 ^ a == 2 ^ (a - b - 1) * 2 ^ (b + 1)) by (rewrite <- two_add; replace (a - b - 1 + (b + 1))%Z with a by lia; reflexivity).
    rewrite EA.
    apply Qlt_trans with (2 ^ (a - b - 1) * d).
    - apply Qmult_lt_compat_r; [exact Dp|exact L].
    - rewrite Qmult_comm, (Qmult_comm (2 ^ (a - b - 1))). apply Qmult_lt_compat_r; auto. }
  destruct (Qle_bool (2 ^ (a - b)) q) eqn:C.
  - apply Qle_bool_iff in C. split; [exact C|]. replace (a - b + 1)%Z with (a - b + 1)%Z by lia. exact U.
  - split; [exact L|]. replace (a - b - 1 + 1)%Z with (a - b)%Z by lia. apply Qnot_le_lt. intros X.
    apply Qle_bool_iff in X. congruence.
Qed.

Lemma ilog2_mono q r : 0 < q -> q <= r -> (ilog2 q <= ilog2 r)%Z.
Proof.
  intros H L. assert (R : 0 < r) by lra. destruct (ilog2_spec q H) as [A _], (ilog2_spec r R) as [_ B].
  assert (2 ^ ilog2 q < 2 ^ (ilog2 r + 1)) by lra. apply two_lt_inv in H0. lia.
Qed.

Lemma ilog2_compat q r : 0 < q -> q == r -> ilog2 q = ilog2 r.
Proof. intros H E. apply Z.le_antisymm; apply ilog2_mono; try rewrite <- E; try exact H; apply Qle_refl. Qed.

(** ** Nearest integer *)

Lemma round_even_near q : inject_Z (round_even q) - (1 # 2) <= q <= inject_Z (round_even q) + (1 # 2).
Proof.
  unfold round_even. pose proof (Qfloor_le q) as A. pose proof (Qlt_floor q) as B. set (f := Qfloor q) in *.
  rewrite inject_Z_plus in B. change (inject_Z 1) with 1 in B.
  destruct (Qcompare (q - inject_Z f) (1 # 2)) eqn:C.
  - apply Qeq_alt in C. destruct (Z.even f); [|rewrite inject_Z_plus; change (inject_Z 1) with 1]; lra.
  - apply Qlt_alt in C. lra.
  - apply Qgt_alt in C. rewrite inject_Z_plus. change (inject_Z 1) with 1. lra.
Qed.

#[export] Instance round_even_comp : Proper (Qeq ==> eq) round_even.
Proof.
  intros x y E. unfold round_even. rewrite (Qfloor_comp x y E).
  assert (C : (x - inject_Z (Qfloor y) ?= 1 # 2) = (y - inject_Z (Qfloor y) ?= 1 # 2)) by (rewrite E; reflexivity).
  rewrite C. reflexivity.
Qed.

Lemma round_even_mono x y : x <= y -> (round_even x <= round_even y)%Z.
Proof.
  intros L. unfold round_even. pose proof (Qfloor_resp_le x y L) as F. set (f := Qfloor x) in *. set (g := Qfloor y) in *.
  assert (B : forall q z, (z <= match q with Lt => z | Gt => z + 1 | Eq => if Z.even z then z else z + 1 end <= z + 1)%Z)
    by (intros q z; destruct q; [destruct (Z.even z)| |]; lia).
  destruct (Z.eq_dec f g) as [E|E].
  - rewrite <- E. destruct (Qcompare (x - inject_Z f) (1 # 2)) eqn:C1; destruct (Qcompare (y - inject_Z f) (1 # 2)) eqn:C2;
      try (destruct (Z.even f); lia); exfalso;
      repeat match goal with
      | H : Qcompare _ _ = Eq |- _ => apply Qeq_alt in H
      | H : Qcompare _ _ = Lt |- _ => apply Qlt_alt in H
      | H : Qcompare _ _ = Gt |- _ => apply Qgt_alt in H
      end; lra.
  - pose proof (B (Qcompare (x - inject_Z f) (1 # 2)) f). pose proof (B (Qcompare (y - inject_Z g) (1 # 2)) g). lia.
Qed.

Lemma round_even_Z z : round_even (inject_Z z) = z.
Proof.
  unfold round_even. rewrite Qfloor_Z. replace (inject_Z z - inject_Z z ?= 1 # 2) with Lt; [reflexivity|].
  symmetry. apply -> Qlt_alt. lra.
Qed.

(** ** Rounding *)

#[export] Instance double_comp : Proper (Qeq ==> Qeq) double.
Proof.
  intros x y E. unfold double.
  destruct (Qeq_bool x 0) eqn:X; destruct (Qeq_bool y 0) eqn:Y; try reflexivity.
  - apply Qeq_bool_iff in X. apply Qeq_bool_neq in Y. exfalso. apply Y. rewrite <- E. exact X.
  - apply Qeq_bool_iff in Y. apply Qeq_bool_neq in X. exfalso. apply X. rewrite E. exact Y.
  - apply Qeq_bool_neq in X.
    assert (U : ulp_exp (Qabs x) = ulp_exp (Qabs y)).
    { unfold ulp_exp. rewrite (ilog2_compat (Qabs x) (Qabs y)); [reflexivity| |rewrite E; reflexivity].
      apply Qnot_le_lt. intros L. apply X. pose proof (Qabs_nonneg x). pose proof (Qle_Qabs x). pose proof (Qle_Qabs (- x)).
      rewrite Qabs_opp in H1. lra. }
    rewrite U. assert (R : round_even (x / 2 ^ ulp_exp (Qabs y)) = round_even (y / 2 ^ ulp_exp (Qabs y))) by (rewrite E; reflexivity).
    rewrite R. reflexivity.
Qed.

Lemma double_0 q : q == 0 -> double q == 0.
Proof. intros E. rewrite E. reflexivity. Qed.

Lemma double_pos q : 0 < q -> double q == inject_Z (round_even (q / 2 ^ ulp_exp q)) * 2 ^ ulp_exp q.
Proof.
  intros H. unfold double. destruct (Qeq_bool q 0) eqn:E; [apply Qeq_bool_iff in E; lra|].
  assert (A : Qabs q == q) by (apply Qabs_pos; lra).
  assert (U : ulp_exp (Qabs q) = ulp_exp q) by (unfold ulp_exp; rewrite (ilog2_compat (Qabs q) q); [reflexivity|lra|exact A]).
  rewrite U. reflexivity.
Qed.

(** Numbers with at most 53 digits are doubles. *)
Lemma double_exact m e : (0 <= m <= 2 ^ 53)%Z -> (-1074 <= e)%Z -> double (inject_Z m * 2 ^ e) == inject_Z m * 2 ^ e.
Proof.
  intros Hm He. destruct (Z.eq_dec m 0) as [->|Hm0].
  { assert (Z0 : inject_Z 0 * 2 ^ e == 0) by ring. rewrite Z0. reflexivity. }
  set (q := inject_Z m * 2 ^ e).
  assert (M1 : 1 <= inject_Z m) by (change 1 with (inject_Z 1); rewrite <- Zle_Qle; lia).
  assert (Hq : 0 < q) by (unfold q; apply Qlt_le_trans with (1 * 2 ^ e); [rewrite Qmult_1_l; auto|apply Qmult_le_compat_r; [exact M1|apply Qlt_le_weak; auto]]).
  rewrite double_pos by exact Hq.
  assert (S : inject_Z (2 ^ 53) == 2 ^ 53) by (apply two_Z; lia).
  assert (QU : q <= 2 ^ (53 + e)).
  { rewrite two_add. unfold q. apply Qmult_le_compat_r; [|apply Qlt_le_weak; auto]. rewrite <- S. rewrite <- Zle_Qle. lia. }
  destruct (ilog2_spec q Hq) as [L U].
  assert (IL : (ilog2 q <= 53 + e)%Z).
  { destruct (Z.le_gt_cases (ilog2 q) (53 + e)) as [C|C]; [exact C|]. exfalso.
    assert (2 ^ (53 + e) < 2 ^ ilog2 q) by (apply Qpower_lt_compat_l; [lia|reflexivity]). lra. }
  destruct (Z.eq_dec (ilog2 q) (53 + e)) as [E|E].
  - (* then q = 2^(53+e) *)
    rewrite E in L. assert (Q : q == 2 ^ (53 + e)) by lra.
    assert (UE : ulp_exp q = (e + 1)%Z) by (unfold ulp_exp; rewrite E; lia).
    rewrite UE. assert (D : q / 2 ^ (e + 1) == inject_Z (2 ^ 52)).
    { rewrite Q. replace (53 + e)%Z with (52 + (e + 1))%Z by lia. rewrite two_add, two_Z by lia. field. auto. }
    rewrite D, round_even_Z. rewrite <- D. field. auto.
  - assert (UE : (ulp_exp q <= e)%Z) by (unfold ulp_exp; lia).
    assert (D : q / 2 ^ ulp_exp q == inject_Z (m * 2 ^ (e - ulp_exp q))).
    { rewrite inject_Z_mult, two_Z by lia. unfold q at 1. replace e with (e - ulp_exp q + ulp_exp q)%Z at 1 by lia.
      rewrite two_add. field. auto. }
    rewrite D, round_even_Z, <- D. field. auto.
Qed.

Lemma double_Z n : (0 <= n <= 2 ^ 53)%Z -> double (inject_Z n) == inject_Z n.
Proof.
  intros H. assert (E : inject_Z n == inject_Z n * 2 ^ 0) by (change (2 ^ 0) with 1; ring).
  rewrite E. apply double_exact; [exact H|lia].
Qed.

Lemma double_nonneg q : 0 <= q -> 0 <= double q.
Proof.
  intros H. destruct (Qlt_le_dec 0 q) as [P|P]; [|rewrite double_0 by lra; lra].
  rewrite double_pos by exact P. apply Qmult_le_0_compat; [|apply Qlt_le_weak; auto].
  change 0 with (inject_Z 0). rewrite <- Zle_Qle. rewrite <- (round_even_Z 0). apply round_even_mono.
  change (inject_Z 0) with 0. apply Qle_shift_div_l; [auto|]. lra.
Qed.

Lemma double_mono q r : 0 <= q -> q <= r -> double q <= double r.
Proof.
  intros Hq L. destruct (Qlt_le_dec 0 q) as [P|P].
  2: { rewrite (double_0 q) by lra. apply double_nonneg. lra. }
  assert (Pr : 0 < r) by lra. rewrite (double_pos q P), (double_pos r Pr).
  assert (I : (ilog2 q <= ilog2 r)%Z) by (apply ilog2_mono; auto).
  assert (U : (ulp_exp q <= ulp_exp r)%Z) by (unfold ulp_exp; lia).
  destruct (Z.eq_dec (ulp_exp q) (ulp_exp r)) as [E|E].
  - rewrite E. apply Qmult_le_compat_r; [|apply Qlt_le_weak; auto]. rewrite <- Zle_Qle. apply round_even_mono.
    apply Qle_shift_div_l; [auto|]. unfold Qdiv. rewrite <- Qmult_assoc, (Qmult_comm (/ _)), Qmult_inv_r by auto. lra.
  - (* the power of two in between *)
    set (u := ulp_exp q) in *. set (v := ulp_exp r) in *.
    assert (V : v = (ilog2 r - 52)%Z) by (unfold v, u, ulp_exp in *; lia).
    assert (QU : q <= 2 ^ (53 + u)).
    { destruct (ilog2_spec q P) as [_ B]. apply Qlt_le_weak. eapply Qlt_le_trans; [exact B|]. apply two_le. unfold u, ulp_exp. lia. }
    apply Qle_trans with (2 ^ (53 + u)).
    + rewrite two_add, <- (two_Z 53) by lia. apply Qmult_le_compat_r; [|apply Qlt_le_weak; auto]. rewrite <- Zle_Qle.
      rewrite <- (round_even_Z (2 ^ 53)). apply round_even_mono. rewrite (two_Z 53) by lia.
      apply Qle_shift_div_r; [auto|]. rewrite <- two_add. exact QU.
    + apply Qle_trans with (2 ^ (52 + v)); [apply two_le; lia|]. rewrite two_add, <- (two_Z 52) by lia.
      apply Qmult_le_compat_r; [|apply Qlt_le_weak; auto]. rewrite <- Zle_Qle.
      rewrite <- (round_even_Z (2 ^ 52)). apply round_even_mono. rewrite (two_Z 52) by lia.
      apply Qle_shift_div_l; [auto|]. rewrite <- two_add, V. replace (52 + (ilog2 r - 52))%Z with (ilog2 r) by lia.
      apply ilog2_spec. exact Pr.
Qed.

(** The rounding error. *)
Lemma double_error q : 0 <= q -> Qabs (double q - q) <= q * 2 ^ (-53) + 2 ^ (-1075).
Proof.
  intros Hq. destruct (Qlt_le_dec 0 q) as [P|P].
  2: { rewrite (double_0 q) by lra. rewrite Qabs_wd with (y := 0) by lra. change (Qabs 0) with 0.
       pose proof (two_pos (-53)). pose proof (two_pos (-1075)). assert (q == 0) by lra. rewrite H1. lra. }
  rewrite double_pos by exact P. set (u := ulp_exp q). pose proof (round_even_near (q / 2 ^ u)) as [A B].
  set (z := inject_Z (round_even (q / 2 ^ u))) in *.
  assert (Q : q == q / 2 ^ u * 2 ^ u) by (field; auto).
  assert (E : Qabs (z * 2 ^ u - q) <= (1 # 2) * 2 ^ u).
  { rewrite Q at 1. apply Qabs_Qle_condition. split.
    - setoid_replace (z * 2 ^ u - q / 2 ^ u * 2 ^ u) with ((z - q / 2 ^ u) * 2 ^ u) by ring.
      setoid_replace (- ((1 # 2) * 2 ^ u)) with ((- (1 # 2)) * 2 ^ u) by ring. apply Qmult_le_compat_r; [lra|apply Qlt_le_weak; auto].
    - setoid_replace (z * 2 ^ u - q / 2 ^ u * 2 ^ u) with ((z - q / 2 ^ u) * 2 ^ u) by ring.
      apply Qmult_le_compat_r; [lra|apply Qlt_le_weak; auto]. }
  eapply Qle_trans; [exact E|]. setoid_replace (1 # 2) with (2 ^ (-1)) by reflexivity. rewrite <- two_add.
  pose proof (two_pos (-1075)) as T1. pose proof (two_pos (-53)) as T2.
  unfold u, ulp_exp. destruct (Z.max_spec (-1074) (ilog2 q - 52)) as [[_ ->]|[_ ->]].
  - replace (-1 + (ilog2 q - 52))%Z with (ilog2 q + -53)%Z by lia. rewrite two_add.
    apply Qle_trans with (q * 2 ^ (-53)); [|lra]. apply Qmult_le_compat_r; [apply ilog2_spec; exact P|lra].
  - replace (-1 + -1074)%Z with (-1075)%Z by lia. assert (0 <= q * 2 ^ (-53)) by (apply Qmult_le_0_compat; lra). lra.
Qed.

(** Also negative numbers with at most 53 digits are doubles. *)
Lemma on_grid m e : (0 < m <= 2 ^ 53)%Z -> (-1074 <= e)%Z ->
  exists z, inject_Z m * 2 ^ e / 2 ^ ulp_exp (inject_Z m * 2 ^ e) == inject_Z z.
Proof.
  intros Hm He. set (q := inject_Z m * 2 ^ e).
  assert (M1 : 1 <= inject_Z m) by (change 1 with (inject_Z 1); rewrite <- Zle_Qle; lia).
  assert (Hq : 0 < q) by (unfold q; apply Qlt_le_trans with (1 * 2 ^ e); [rewrite Qmult_1_l; auto|apply Qmult_le_compat_r; [exact M1|apply Qlt_le_weak; auto]]).
  pose proof (double_exact m e ltac:(lia) He) as D. fold q in D. rewrite (double_pos q Hq) in D.
  exists (round_even (q / 2 ^ ulp_exp q)). rewrite <- D at 1. field. auto.
Qed.

Lemma double_exact_neg m e : (0 <= m <= 2 ^ 53)%Z -> (-1074 <= e)%Z -> double (- (inject_Z m * 2 ^ e)) == - (inject_Z m * 2 ^ e).
Proof.
  intros Hm He. destruct (Z.eq_dec m 0) as [->|Hm0].
  { assert (Z0 : - (inject_Z 0 * 2 ^ e) == 0) by ring. rewrite Z0. reflexivity. }
  destruct (on_grid m e ltac:(lia) He) as (z & Hz). set (q := inject_Z m * 2 ^ e) in *.
  assert (M1 : 1 <= inject_Z m) by (change 1 with (inject_Z 1); rewrite <- Zle_Qle; lia).
  assert (Hq : 0 < q) by (unfold q; apply Qlt_le_trans with (1 * 2 ^ e); [rewrite Qmult_1_l; auto|apply Qmult_le_compat_r; [exact M1|apply Qlt_le_weak; auto]]).
  unfold double. destruct (Qeq_bool (- q) 0) eqn:E; [apply Qeq_bool_iff in E; lra|].
  assert (U : ulp_exp (Qabs (- q)) = ulp_exp q).
  { unfold ulp_exp. rewrite (ilog2_compat (Qabs (- q)) q); [reflexivity| |]; rewrite Qabs_opp, Qabs_pos by lra; [exact Hq|reflexivity]. }
  rewrite U. assert (D : - q / 2 ^ ulp_exp q == inject_Z (- z)).
  { rewrite inject_Z_opp, <- Hz. unfold Qdiv. ring. }
  rewrite D, round_even_Z, <- D. field. auto.
Qed.
