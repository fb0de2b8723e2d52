(** Proofs about the construction of subpopulations (C45). *)
From Coq Require Import Lia Lqa QArith Qround Qabs Qpower Setoid Morphisms.
From Verif.Proofs Require Import DoubleP.
From Verif.Model Require Import Num Construct.
Open Scope nat_scope.
Open Scope list_scope.
Local Open Scope Q_scope.

Lemma of_count_nonneg n : 0 <= of_count n.
Proof. unfold of_count. change 0 with (inject_Z 0). rewrite <- Zle_Qle. lia. Qed.

Lemma double_count n : (Z.of_nat n <= 2 ^ 53)%Z -> double (of_count n) == of_count n.
Proof. intros H. apply double_Z. lia. Qed.

Lemma n_elite_bounds rate n : 0 <= rate <= 1 -> (Z.of_nat n <= 2 ^ 53)%Z -> (0 <= n_elite_of rate n <= Z.of_nat n)%Z.
Proof.
  intros [R0 R1] Hn. unfold n_elite_of, dmul. pose proof (of_count_nonneg n) as P. pose proof (double_count n Hn) as D.
  assert (A : 0 <= rate * double (of_count n)) by (rewrite D; apply Qmult_le_0_compat; lra).
  assert (B : rate * double (of_count n) <= of_count n).
  { rewrite D. setoid_replace (of_count n) with (1 * of_count n) at 2 by ring. apply Qmult_le_compat_r; lra. }
  split.
  - rewrite <- (round_even_Z 0). apply round_even_mono. change (inject_Z 0) with 0. apply double_nonneg. exact A.
  - apply Z.le_trans with (round_even (of_count n)); [|unfold of_count; rewrite round_even_Z; apply Z.le_refl].
    apply round_even_mono. apply Qle_trans with (double (of_count n)); [apply double_mono; [exact A|exact B]|rewrite D; apply Qle_refl].
Qed.

Lemma n_elite_near rate n : 0 <= rate -> (Z.of_nat n <= 2 ^ 53)%Z ->
  Qabs (inject_Z (n_elite_of rate n) - rate * of_count n) <= (1 # 2) + rate * of_count n * 2 ^ (-53) + 2 ^ (-1075).
Proof.
  intros R0 Hn. unfold n_elite_of, dmul. pose proof (of_count_nonneg n) as P. pose proof (double_count n Hn) as D.
  set (q := rate * of_count n). assert (E : rate * double (of_count n) == q) by (unfold q; rewrite D; reflexivity).
  assert (Hq : 0 <= q) by (apply Qmult_le_0_compat; lra).
  rewrite E. pose proof (round_even_near (double q)) as [A B]. pose proof (double_error q Hq) as C.
  apply Qabs_Qle_condition in C. apply Qabs_Qle_condition. set (z := inject_Z (round_even (double q))) in *.
  set (x := q * 2 ^ (-53)) in *. set (y := 2 ^ (-1075)) in *. set (d := double q) in *. clearbody x y d z. lra.
Qed.

Lemma n_elite_mono r1 r2 n : 0 <= r1 -> r1 <= r2 -> (Z.of_nat n <= 2 ^ 53)%Z -> (n_elite_of r1 n <= n_elite_of r2 n)%Z.
Proof.
  intros R0 R Hn. unfold n_elite_of, dmul. pose proof (of_count_nonneg n) as P. rewrite (double_count n Hn).
  apply round_even_mono, double_mono; [apply Qmult_le_0_compat; lra|apply Qmult_le_compat_r; lra].
Qed.

Lemma n_elite_all n : (Z.of_nat n <= 2 ^ 53)%Z -> n_elite_of 1 n = Z.of_nat n.
Proof.
  intros Hn. unfold n_elite_of, dmul.
  assert (E : 1 * double (of_count n) == inject_Z (Z.of_nat n)) by (rewrite double_count by exact Hn; unfold of_count; ring).
  rewrite E, (double_count n Hn : double (inject_Z (Z.of_nat n)) == _). apply round_even_Z.
Qed.

(** ** Sums of equal powers of two *)

Lemma two_step k i : double (inject_Z i * 2 ^ k + 2 ^ k) == double (inject_Z (i + 1) * 2 ^ k).
Proof. rewrite inject_Z_plus. apply double_comp. change (inject_Z 1) with 1. ring. Qed.

Lemma sum_plain_powers k x n : (-1074 <= k)%Z -> x == 2 ^ k -> forall i acc, acc == inject_Z (Z.of_nat i) * 2 ^ k ->
  (Z.of_nat (i + n) <= 2 ^ 53)%Z -> fold_left dadd (repeat x n) acc == inject_Z (Z.of_nat (i + n)) * 2 ^ k.
Proof.
  intros Hk Hx. induction n as [|n IH]; intros i acc Ha Hi; simpl.
  - rewrite Nat.add_0_r. exact Ha.
  - replace (i + S n)%nat with (S i + n)%nat by lia. apply IH.
    + unfold dadd. rewrite Ha, Hx, two_step. replace (Z.of_nat i + 1)%Z with (Z.of_nat (S i)) by lia. apply double_exact; lia.
    + lia.
Qed.

Lemma cs_step k i s x : (-1074 <= k)%Z -> x == 2 ^ k -> (Z.of_nat (S i) <= 2 ^ 53)%Z ->
  fst s == inject_Z (Z.of_nat i) * 2 ^ k -> snd s == 0 ->
  fst (cs_add s x) == inject_Z (Z.of_nat (S i)) * 2 ^ k /\ snd (cs_add s x) == 0.
Proof.
  intros Hk Hx Hi H1 H2.
  assert (T : dadd (fst s) x == inject_Z (Z.of_nat (S i)) * 2 ^ k).
  { unfold dadd. rewrite H1, Hx, two_step. replace (Z.of_nat i + 1)%Z with (Z.of_nat (S i)) by lia. apply double_exact; lia. }
  assert (S1 : inject_Z (Z.of_nat (S i)) == inject_Z (Z.of_nat i) + 1).
  { replace (Z.of_nat (S i)) with (Z.of_nat i + 1)%Z by lia. rewrite inject_Z_plus. reflexivity. }
  unfold cs_add. destruct (Qle_bool (Qabs x) (Qabs (fst s))); cbn [fst snd]; (split; [exact T|]).
  - assert (D : dsub (fst s) (dadd (fst s) x) == - (1 * 2 ^ k)).
    { unfold dsub. rewrite T, H1, S1. setoid_replace (inject_Z (Z.of_nat i) * 2 ^ k - (inject_Z (Z.of_nat i) + 1) * 2 ^ k) with (- (inject_Z 1 * 2 ^ k)) by (change (inject_Z 1) with 1; ring).
      rewrite double_exact_neg by lia. reflexivity. }
    unfold dadd at 1 2. rewrite D, Hx, H2. setoid_replace (- (1 * 2 ^ k) + 2 ^ k) with 0 by ring. reflexivity.
  - assert (D : dsub x (dadd (fst s) x) == - (inject_Z (Z.of_nat i) * 2 ^ k)).
    { unfold dsub. rewrite T, Hx, S1. setoid_replace (2 ^ k - (inject_Z (Z.of_nat i) + 1) * 2 ^ k) with (- (inject_Z (Z.of_nat i) * 2 ^ k)) by ring.
      rewrite double_exact_neg by lia. reflexivity. }
    unfold dadd at 1 2. rewrite D, H1, H2. setoid_replace (- (inject_Z (Z.of_nat i) * 2 ^ k) + inject_Z (Z.of_nat i) * 2 ^ k) with 0 by ring. reflexivity.
Qed.

Lemma cs_powers k x n : (-1074 <= k)%Z -> x == 2 ^ k -> forall i s, fst s == inject_Z (Z.of_nat i) * 2 ^ k -> snd s == 0 ->
  (Z.of_nat (i + n) <= 2 ^ 53)%Z ->
  fst (fold_left cs_add (repeat x n) s) == inject_Z (Z.of_nat (i + n)) * 2 ^ k /\ snd (fold_left cs_add (repeat x n) s) == 0.
Proof.
  intros Hk Hx. induction n as [|n IH]; intros i s H1 H2 Hi; simpl.
  - rewrite Nat.add_0_r. auto.
  - replace (i + S n)%nat with (S i + n)%nat by lia. destruct (cs_step k i s x Hk Hx ltac:(lia) H1 H2) as [A B]. apply IH; [exact A|exact B|lia].
Qed.

Lemma map_const {A B} (x : B) (l : list A) : map (fun _ => x) l = repeat x (length l).
Proof. induction l; simpl; [|rewrite IHl]; reflexivity. Qed.

Lemma pow_nat k : Z.of_nat (2 ^ k) = (2 ^ Z.of_nat k)%Z.
Proof. rewrite Nat2Z.inj_pow. reflexivity. Qed.

Lemma default_powers cs k : (k <= 53)%nat -> length cs = (2 ^ k)%nat ->
  sum_plain (default_pcr cs) == 1 /\ sum_compensated (default_pcr cs) == 1.
Proof.
  intros Hk Hl. unfold default_pcr. rewrite map_const, Hl.
  assert (X : ddiv 1 (of_count (2 ^ k)) == 2 ^ (- Z.of_nat k)).
  { unfold ddiv, of_count. rewrite pow_nat, two_Z by lia.
    setoid_replace (1 / 2 ^ Z.of_nat k) with (inject_Z 1 * 2 ^ (- Z.of_nat k)) by (rewrite Qpower_opp; unfold Qdiv; reflexivity).
    rewrite double_exact by lia. change (inject_Z 1) with 1. ring. }
  assert (B : (Z.of_nat (0 + 2 ^ k) <= 2 ^ 53)%Z) by (rewrite Nat.add_0_l, pow_nat; apply Z.pow_le_mono_r; lia).
  assert (F : inject_Z (Z.of_nat (0 + 2 ^ k)) * 2 ^ (- Z.of_nat k) == 1).
  { rewrite Nat.add_0_l, pow_nat, two_Z by lia. rewrite <- two_add. replace (Z.of_nat k + - Z.of_nat k)%Z with 0%Z by lia. reflexivity. }
  split.
  - unfold sum_plain. rewrite (sum_plain_powers (- Z.of_nat k) _ _ ltac:(lia) X 0 0); [exact F|simpl; ring|exact B].
  - unfold sum_compensated. destruct (cs_powers (- Z.of_nat k) _ (2 ^ k) ltac:(lia) X 0 (0, 0)) as [P Q]; [simpl; ring|reflexivity|exact B|].
    unfold dadd. rewrite P, Q, F. reflexivity.
Qed.

Lemma init_accepts sum cs pcr ops sels rate size inds h s :
  subpopulation_init sum (Some cs) pcr ops sels rate size inds h = Ok s <->
  cs <> [] /\
  exists p os, (pcr = Some p \/ pcr = None /\ p = map (fun _ => ddiv 1 (of_count (length cs))) cs) /\
    length p = length cs /\ sum p == 1 /\ ops = Some os /\
    s = mkSub cs (map Fin p) os (match sels with None => [SelTournament 10 true 1] | Some l => l end) size h
              (Z.to_nat (n_elite_of rate size)) inds.
Proof.
  unfold subpopulation_init. destruct cs as [|c cs0].
  - split; [discriminate|]. intros [H _]. congruence.
  - set (cs := c :: cs0). set (p := match pcr with None => default_pcr cs | Some p => p end). split.
    + intros H. split; [unfold cs; discriminate|].
      destruct (length cs =? length p)%nat eqn:E1; [|discriminate]. destruct (Qeq_bool (sum p) 1) eqn:E2; [|discriminate].
      destruct ops as [os|]; [|discriminate]. cbn [negb] in H. injection H as <-. exists p, os.
      split; [unfold p; destruct pcr; auto|]. apply Nat.eqb_eq in E1. apply Qeq_bool_iff in E2. auto.
    + intros (_ & p' & os & Hp & L & S & -> & ->). assert (E : p = p') by (unfold p; destruct Hp as [->|[-> ->]]; reflexivity).
      rewrite E. apply Qeq_bool_iff in S. rewrite L, Nat.eqb_refl, S. reflexivity.
Qed.

Lemma init_powers sum cs ops sels rate size inds h k : sum = sum_plain \/ sum = sum_compensated ->
  (k <= 53)%nat -> length cs = (2 ^ k)%nat -> exists s, subpopulation_init sum (Some cs) None (Some ops) sels rate size inds h = Ok s.
Proof.
  intros Hs Hk Hl. eexists. apply init_accepts. split.
  - intros ->. simpl in Hl. symmetry in Hl. apply Nat.pow_nonzero in Hl; [exact Hl|discriminate].
  - exists (default_pcr cs), ops. split; [right; split; reflexivity|]. split; [apply map_length|].
    split; [|split; reflexivity]. destruct (default_powers cs k Hk Hl). destruct Hs as [-> | ->]; assumption.
Qed.

Lemma init_six cs ops sels rate size inds h : length cs = 6%nat ->
  subpopulation_init sum_plain (Some cs) None ops sels rate size inds h = Raise ValueError.
Proof.
  intros H. unfold subpopulation_init. destruct cs as [|c cs0]; [reflexivity|]. set (cs := c :: cs0) in *.
  replace (Qeq_bool (sum_plain (default_pcr cs)) 1) with false; [destruct (negb _); reflexivity|].
  unfold default_pcr. rewrite map_const, H. vm_compute. reflexivity.
Qed.

Lemma init_49 cs ops sels rate size inds h : length cs = 49%nat ->
  subpopulation_init sum_compensated (Some cs) None ops sels rate size inds h = Raise ValueError.
Proof.
  intros H. unfold subpopulation_init. destruct cs as [|c cs0]; [reflexivity|]. set (cs := c :: cs0) in *.
  replace (Qeq_bool (sum_compensated (default_pcr cs)) 1) with false; [destruct (negb _); reflexivity|].
  unfold default_pcr. rewrite map_const, H. vm_compute. reflexivity.
Qed.
