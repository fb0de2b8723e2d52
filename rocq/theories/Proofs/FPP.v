(** Proofs about fitness proportionate selection. *)
From Coq Require Import QArith Lqa.
From Verif.Proofs Require Export SelP.
From Verif.Spec Require Export FPSpec.
From Verif.Model Require Import FP.
Open Scope Q_scope.

Lemma Qsum_total l : Qsum l = total l.
Proof. induction l as [|x l IH]; simpl; congruence. Qed.

Lemma total_app l l' : total (l ++ l') == total l + total l'.
Proof. induction l as [|x l IH]; simpl; [ring|]. rewrite IH. ring. Qed.

Lemma total_nonneg l : (forall p, In p l -> 0 <= p) -> 0 <= total l.
Proof.
  induction l as [|x l IH]; intros H; simpl; [lra|].
  assert (0 <= x) by (apply H; left; reflexivity). assert (0 <= total l) by (apply IH; intros; apply H; right; assumption). lra.
Qed.

Lemma total_ge l x : (forall p, In p l -> 0 <= p) -> In x l -> x <= total l.
Proof.
  induction l as [|y l IH]; intros H [].
  - subst y. simpl. assert (0 <= total l) by (apply total_nonneg; intros; apply H; right; assumption). lra.
  - simpl. assert (x <= total l) by (apply IH; [intros; apply H; right; assumption|assumption]).
    assert (0 <= y) by (apply H; left; reflexivity). lra.
Qed.

Lemma total_div l T : total (map (fun e => e / T) l) == total l / T.
Proof.
  induction l as [|x l IH]; simpl; [unfold Qdiv; ring|]. rewrite IH. unfold Qdiv. ring.
Qed.

Lemma firstn_total_mono l i j : (forall p, In p l -> 0 <= p) -> (i <= j)%nat -> total (firstn i l) <= total (firstn j l).
Proof.
  revert i j. induction l as [|x l IH]; intros i j H Hij; [rewrite !firstn_nil; simpl; lra|].
  destruct i, j; simpl.
  - lra.
  - assert (0 <= x) by (apply H; left; reflexivity).
    assert (0 <= total (firstn j l)).
    { apply total_nonneg. intros p Hp. apply H. right. apply (firstn_skipn j l) in Hp || (rewrite <- (firstn_skipn j l); apply in_or_app; left; exact Hp). }
    lra.
  - lia.
  - assert (total (firstn i l) <= total (firstn j l)) by (apply IH; [intros; apply H; right; assumption|lia]). lra.
Qed.

(** ** The inverse of the cumulative distribution *)

Definition cnt (T u : Q) (cs : list Q) : nat := length (filter (fun c => Qle_bool (c / T) u) cs).

Lemma div_le a b T : 0 < T -> a <= b -> a / T <= b / T.
Proof. intros HT H. unfold Qdiv. apply Qmult_le_compat_r; [exact H|]. apply Qlt_le_weak. apply Qinv_lt_0_compat. exact HT. Qed.

Lemma cnt_zero T u ps : forall acc, 0 < T -> (forall p, In p ps -> 0 <= p) -> u < acc / T -> cnt T u (cumsum acc ps) = O.
Proof.
  induction ps as [|p ps IH]; intros acc HT H Hu; simpl; [reflexivity|]. unfold cnt. simpl.
  assert (0 <= p) by (apply H; left; reflexivity).
  assert (acc / T <= (acc + p) / T) by (apply div_le; [exact HT|lra]).
  destruct (Qle_bool ((acc + p) / T) u) eqn:E; [apply Qle_bool_iff in E; lra|].
  apply IH; [exact HT|intros; apply H; right; assumption|lra].
Qed.

Lemma cnt_interval T u ps : forall acc, 0 < T -> (forall p, In p ps -> 0 <= p) ->
  acc / T <= u -> u < (acc + total ps) / T ->
  let i := cnt T u (cumsum acc ps) in
  (i < length ps)%nat /\ (acc + total (firstn i ps)) / T <= u /\ u < (acc + total (firstn (S i) ps)) / T.
Proof.
  induction ps as [|p ps IH]; intros acc HT H H1 H2; simpl in *.
  - exfalso. assert (E : (acc + 0) / T == acc / T) by (unfold Qdiv; ring). rewrite E in H2. lra.
  - unfold cnt. simpl. destruct (Qle_bool ((acc + p) / T) u) eqn:E.
    + apply Qle_bool_iff in E.
      assert (E2 : (acc + p + total ps) / T == (acc + (p + total ps)) / T) by (unfold Qdiv; ring).
      destruct (IH (acc + p) HT) as (A & B & C); [intros; apply H; right; assumption|exact E|rewrite E2; exact H2|].
      set (i := cnt T u (cumsum (acc + p) ps)) in *.
      change ((S i < S (length ps))%nat /\ (acc + (p + total (firstn i ps))) / T <= u /\ u < (acc + (p + total (firstn (S i) ps))) / T).
      change (u < (acc + p + total (firstn (S i) ps)) / T) in C.
      split; [apply -> Nat.succ_lt_mono; exact A|]. split.
      * eapply Qle_trans; [|exact B]. apply Qle_lteq. right. unfold Qdiv. ring.
      * eapply Qlt_le_trans; [exact C|]. apply Qle_lteq. right. unfold Qdiv. ring.
    + assert (Hu : u < (acc + p) / T).
      { destruct (Qlt_le_dec u ((acc + p) / T)) as [?|Hle]; [assumption|]. apply Qle_bool_iff in Hle. congruence. }
      fold (cnt T u (cumsum (acc + p) ps)). rewrite cnt_zero; [|exact HT|intros; apply H; right; assumption|exact Hu].
      simpl. split; [lia|].
      assert (Ea : (acc + 0) / T == acc / T) by (unfold Qdiv; ring). rewrite Ea. split; [exact H1|].
      assert (Eb : (acc + (p + 0)) / T == (acc + p) / T) by (unfold Qdiv; ring). rewrite Eb. exact Hu.
Qed.

Lemma cumsum_last ps : forall acc d, ps <> [] -> last (cumsum acc ps) d == acc + total ps.
Proof.
  induction ps as [|p ps IH]; intros acc d H; [congruence|]. destruct ps as [|q ps].
  - simpl. ring.
  - change (last (cumsum acc (p :: q :: ps)) d) with (last (cumsum (acc + p) (q :: ps)) d).
    rewrite IH by discriminate. simpl. ring.
Qed.

Lemma pick_interval n ps u i : distribution n ps -> 0 <= u -> u < 1 ->
  cdf_index ps u = i <-> (i < n)%nat /\ total (firstn i ps) <= u /\ u < total (firstn (S i) ps).
Proof.
  intros (L & Hp & Ht) H0 H1.
  assert (Hne : ps <> []) by (intros ->; simpl in Ht; lra).
  assert (Hl : last (cumsum 0 ps) 1 == 1) by (rewrite cumsum_last by exact Hne; rewrite Ht; ring).
  assert (K : let k := cdf_index ps u in (k < n)%nat /\ total (firstn k ps) <= u /\ u < total (firstn (S k) ps)).
  { unfold cdf_index. fold (cnt (last (cumsum 0 ps) 1) u (cumsum 0 ps)). set (T := last (cumsum 0 ps) 1) in *.
    assert (D : forall x, (0 + x) / T == x) by (intros x; rewrite Hl; field).
    destruct (cnt_interval T u ps 0) as (A & B & C); [rewrite Hl; lra|exact Hp| | |].
    - assert (E : 0 / T == 0) by (unfold Qdiv; ring). rewrite E. exact H0.
    - rewrite D, Ht. exact H1.
    - rewrite D in B. rewrite D in C. split; [lia|]. split; assumption. }
  destruct K as (A & B & C). split.
  - intros <-. auto.
  - intros (A' & B' & C'). destruct (Nat.lt_trichotomy (cdf_index ps u) i) as [Hlt|[E|Hlt]]; [|exact E|].
    + pose proof (firstn_total_mono ps (S (cdf_index ps u)) i Hp Hlt). lra.
    + pose proof (firstn_total_mono ps (S i) (cdf_index ps u) Hp Hlt). lra.
Qed.

(** ** Softmax *)

Lemma Qmax_of_spec l : forall x, In (Qmax_of x l) (x :: l) /\ forall y, In y (x :: l) -> y <= Qmax_of x l.
Proof.
  unfold Qmax_of. induction l as [|z l IH]; intros x; simpl.
  - split; [auto|]. intros y [<-|[]]. lra.
  - destruct (IH (if Qlt_b x z then z else x)) as [A B]. split.
    + destruct A as [A|A]; [|auto]. rewrite <- A. destruct (Qlt_b x z); auto.
    + assert (M : x <= (if Qlt_b x z then z else x) /\ z <= (if Qlt_b x z then z else x)).
      { destruct (Qlt_b x z) eqn:E; [apply Qlt_b_spec in E; lra|apply Qlt_b_false in E; lra]. }
      assert (M2 : (if Qlt_b x z then z else x) <= fold_left (fun a b => if Qlt_b a b then b else a) l (if Qlt_b x z then z else x)) by (apply B; left; reflexivity).
      intros y [<-|[<-|Hy]]; [lra|lra|]. apply B. right. exact Hy.
Qed.

Section Exp.
  Variable ex : Q -> Q.
  Hypothesis EX : exp_like ex.

  Lemma ex_compat x y : x == y -> ex x == ex y.
  Proof. destruct EX as (_ & M & _). intros E. apply Qle_antisym; apply M; rewrite E; apply Qle_refl. Qed.

  Lemma softmax_spec l : l <> [] -> exists m T, 0 < T /\ softmax ex l = map (fun y => ex (y - m) / T) l /\ total (softmax ex l) == 1.
  Proof.
    intros Hne. destruct l as [|x r]; [congruence|]. set (l := x :: r) in *.
    destruct (Qmax_of_spec r x) as [Hin Hmax]. destruct EX as (N & M & O1).
    set (m := Qmax_of x r) in *. set (es := map (fun y => ex (y - m)) l).
    assert (HT : 0 < Qsum es).
    { rewrite Qsum_total. assert (ex (m - m) <= total es).
      { apply total_ge.
        - intros p Hp. apply in_map_iff in Hp. destruct Hp as (y & <- & _). apply N.
        - apply in_map_iff. exists m. auto. }
      assert (E : ex (m - m) == 1) by (transitivity (ex 0); [apply ex_compat; ring|exact O1]). lra. }
    exists m, (Qsum es). split; [exact HT|].
    assert (E : softmax ex l = map (fun e => e / Qsum es) es) by reflexivity. split.
    - rewrite E. unfold es at 2. rewrite map_map. reflexivity.
    - rewrite E, total_div. rewrite (Qsum_total es) in *. field. intro Hz. lra.
  Qed.
End Exp.

(** ** The scores *)

Lemma nmin_fold xs : forall x, (exists y, In y (x :: xs) /\ (is_nan y = true \/ nlt y (Fin 0) = true)) ->
  fold_left nmin2 xs x = NaN \/ nlt (fold_left nmin2 xs x) (Fin 0) = true.
Proof.
  induction xs as [|z xs IH]; intros x (y & Hy & B); simpl.
  - destruct Hy as [<-|[]]. destruct B as [B|B]; [left; destruct x; try discriminate; reflexivity|right; exact B].
  - apply IH. destruct Hy as [<-|[<-|Hy]].
    + exists (nmin2 x z). split; [left; reflexivity|]. unfold nmin2. destruct B as [B|B].
      * rewrite B. left. exact B.
      * destruct (is_nan x) eqn:Ex; [left; exact Ex|]. destruct (is_nan z) eqn:Ez; [left; exact Ez|].
        destruct (nlt z x) eqn:E; [right; eapply nlt_trans; eauto|right; exact B].
    + exists (nmin2 x z). split; [left; reflexivity|]. unfold nmin2.
      destruct (is_nan x) eqn:Ex; [left; exact Ex|]. destruct (is_nan z) eqn:Ez; [left; exact Ez|].
      destruct B as [B|B]; [congruence|]. destruct (nlt z x) eqn:E; [right; exact B|]. right.
      destruct (nlt_total z x Ez Ex) as [H|[H|H]]; [congruence|rewrite <- (nlt_compat z x (Fin 0) (Fin 0)); auto|eapply nlt_trans; eauto].
    + exists y. split; [right; exact Hy|exact B].
Qed.

Lemma nmin_good xs : forall x, (forall y, In y (x :: xs) -> is_nan y = false) ->
  In (fold_left nmin2 xs x) (x :: xs) /\ forall y, In y (x :: xs) -> nlt y (fold_left nmin2 xs x) = false.
Proof.
  induction xs as [|z xs IH]; intros x H; simpl.
  - split; [auto|]. intros y [<-|[]]. apply nlt_irrefl.
  - assert (Nx : is_nan x = false) by (apply H; left; reflexivity).
    assert (Nz : is_nan z = false) by (apply H; right; left; reflexivity).
    assert (Nm : is_nan (nmin2 x z) = false) by (unfold nmin2; rewrite Nx, Nz; destruct (nlt z x); assumption).
    destruct (IH (nmin2 x z)) as [A B].
    { intros y [<-|Hy]; [exact Nm|apply H; right; right; exact Hy]. }
    split.
    + destruct A as [A|A]; [|auto]. rewrite <- A. unfold nmin2. rewrite Nx, Nz. destruct (nlt z x); auto.
    + assert (Nf : is_nan (fold_left nmin2 xs (nmin2 x z)) = false).
      { destruct A as [A|A]; [rewrite <- A; exact Nm|apply H; right; right; exact A]. }
      assert (M : nlt x (nmin2 x z) = false /\ nlt z (nmin2 x z) = false).
      { unfold nmin2. rewrite Nx, Nz. destruct (nlt z x) eqn:E; split; try apply nlt_irrefl; [apply nlt_asym; exact E|exact E]. }
      assert (M2 : nlt (nmin2 x z) (fold_left nmin2 xs (nmin2 x z)) = false) by (apply B; left; reflexivity).
      intros y [<-|[<-|Hy]].
      * eapply nlt_negtrans; [| | |apply M|exact M2]; assumption.
      * eapply nlt_negtrans; [| | |apply M|exact M2]; assumption.
      * apply B. right. exact Hy.
Qed.

(** The numbers the probabilities are computed from. *)
Definition fp_score (higher : bool) (s : Q) (x : num) : Q :=
  if higher then match x with Fin q => q | _ => 0 end
  else match x with Fin q => / (q + s) | _ => 0 end.

Lemma usable_num h x : usable h x -> is_nan x = false /\ nlt x (Fin 0) = false.
Proof. destruct x as [q| | |]; simpl; intros H; try contradiction; auto. split; [reflexivity|]. apply Qlt_b_false. exact H. Qed.

Lemma not_usable h x : ~ usable h x -> is_nan x = true \/ nlt x (Fin 0) = true \/ (x = PInf /\ h = true).
Proof.
  destruct x as [q| | |]; simpl; intros H; auto.
  - right. left. apply Qlt_b_spec. lra.
  - right. right. destruct h; [auto|]. exfalso. apply H. reflexivity.
Qed.

Definition usable_dec h x : {usable h x} + {~ usable h x}.
Proof.
  destruct x as [q| | |]; simpl; auto.
  - destruct (Qlt_le_dec q 0); [right; lra|left; assumption].
  - destruct h; [right; discriminate|left; reflexivity].
Defined.

(** If all scores are usable, [fp_probs] works on some non-negative rationals in the right order. *)
Lemma fp_probs_ok ex h xs : xs <> [] -> (forall x, In x xs -> usable h x) ->
  exists s, (s == 0 \/ s == 1) /\ (forall x, In x xs -> 0 <= fp_score h s x) /\
    (h = false -> forall q, In (Fin q) xs -> 0 < q + s) /\
    let qs := map (fp_score h s) xs in
    fp_probs ex h xs = Ok (if Qeq_bool (Qsum qs) 1 then qs else softmax ex qs).
Proof.
  intros Hne HU. destruct xs as [|x r]; [congruence|]. unfold fp_probs, np_min.
  destruct (nmin_good r x) as [A B]; [intros y Hy; apply (usable_num h y), HU, Hy|].
  set (m := fold_left nmin2 r x) in *. set (xs := x :: r) in *.
  pose proof (HU m A) as Um. destruct (usable_num h m Um) as [Nm Lm]. rewrite Lm.
  set (s := if neq_num m (Fin 0) then 1 else 0).
  exists s. split; [unfold s; destruct (neq_num m (Fin 0)); [right|left]; reflexivity|].
  assert (P : forall q, In (Fin q) xs -> 0 < q + s).
  { intros q Hq. pose proof (HU _ Hq) as U. simpl in U. unfold s. destruct (neq_num m (Fin 0)) eqn:E; [lra|].
    destruct m as [mq| | |]; try discriminate; simpl in *; try contradiction.
    - assert (~ mq == 0) by (intro Z; apply Qeq_bool_iff in Z; congruence). specialize (B _ Hq). simpl in B. apply Qlt_b_false in B. lra.
    - specialize (B _ Hq). discriminate. }
  assert (F : forall y, In y xs -> 0 <= fp_score h s y).
  { intros y Hy. pose proof (HU _ Hy) as U. unfold fp_score. destruct h.
    - destruct y; simpl in *; try contradiction; [exact U|discriminate].
    - destruct y as [q| | |]; simpl in *; try lra. apply Qlt_le_weak, Qinv_lt_0_compat, P, Hy. }
  split; [exact F|]. split; [intros _; exact P|]. cbv zeta.
  assert (R : rmap finite (if h then xs else map (fun x => np_inv (nadd x (if neq_num m (Fin 0) then Fin 1 else Fin 0))) xs) = Ok (map (fp_score h s) xs)).
  { destruct h.
    - apply rmap_total. intros y Hy. pose proof (HU _ Hy) as U. destruct y; simpl in *; try contradiction; [reflexivity|discriminate].
    - assert (Es : (if neq_num m (Fin 0) then Fin 1 else Fin 0) = Fin s) by (unfold s; destruct (neq_num m (Fin 0)); reflexivity).
      rewrite Es. clear - HU P. revert HU P. induction xs as [|y ys IH]; intros HU P; [reflexivity|]. simpl.
      assert (Ey : finite (np_inv (nadd y (Fin s))) = Ok (fp_score false s y)).
      { pose proof (HU y (or_introl eq_refl)) as U. destruct y as [q| | |]; simpl in *; try contradiction; [|reflexivity].
        destruct (Qeq_bool (q + s) 0) eqn:E; [|reflexivity]. apply Qeq_bool_iff in E. specialize (P q (or_introl eq_refl)). lra. }
      rewrite Ey. simpl. rewrite IH; [reflexivity| |]; intros; [apply HU|apply P]; right; assumption. }
  rewrite R. reflexivity.
Qed.

Lemma fp_accepts ex h xs :
  ((exists ps, fp_probs ex h xs = Ok ps) <-> xs <> [] /\ forall x, In x xs -> usable h x) /\
  (fp_probs ex h xs = Raise ValueError \/ exists ps, fp_probs ex h xs = Ok ps).
Proof.
  destruct xs as [|x r].
  { split; [|left; reflexivity]. split; [intros [ps H]; discriminate|intros [H _]; congruence]. }
  destruct (Exists_dec (fun y => ~ usable h y) (x :: r)) as [Hex|Hnot].
  { intros y. destruct (usable_dec h y); [right; tauto|left; assumption]. }
  - assert (R : fp_probs ex h (x :: r) = Raise ValueError).
    { apply Exists_exists in Hex. destruct Hex as (y & Hy & NU). unfold fp_probs, np_min.
      destruct (nlt (fold_left nmin2 r x) (Fin 0)) eqn:L; [reflexivity|].
      assert (Bad : forall l, (exists y, In y l /\ is_fin y = false) -> rmap finite l = Raise ValueError).
      { induction l as [|z l IH]; intros (y' & Hy' & Fy); [destruct Hy'|]. simpl. destruct Hy' as [<-|Hy'].
        - destruct z; try discriminate; reflexivity.
        - destruct z; try reflexivity. simpl. rewrite IH by eauto. reflexivity. }
      assert (NN : forall z, In z (x :: r) -> is_nan z = true -> fold_left nmin2 r x = NaN).
      { intros z Hz Nz. destruct (nmin_fold r x) as [E|E]; [exists z; auto|exact E|congruence]. }
      destruct (not_usable _ _ NU) as [N|[N|[-> ->]]].
      - rewrite (NN y Hy N). rewrite Bad; [reflexivity|].
        destruct h; [exists y; split; [exact Hy|destruct y; try discriminate; reflexivity]|].
        exists (np_inv (nadd y (if neq_num NaN (Fin 0) then Fin 1 else Fin 0))). split; [apply in_map_iff; exists y; auto|].
        destruct y; try discriminate. reflexivity.
      - destruct (nmin_fold r x) as [E|E]; [exists y; auto| |congruence]. 
        rewrite E. rewrite Bad; [reflexivity|].
        assert (Z : exists z, In z (x :: r) /\ is_nan z = true).
        { clear - E. revert x E. induction r as [|z r IH]; intros x E; simpl in E.
          - exists x. rewrite E. split; [left|]; reflexivity.
          - destruct (IH _ E) as (q & [Hq|Hq] & Nq); [|exists q; simpl; auto].
            subst q. unfold nmin2 in Nq. destruct (is_nan x) eqn:Ex; [exists x; simpl; auto|].
            destruct (is_nan z) eqn:Ez; [exists z; simpl; auto|]. destruct (nlt z x); congruence. }
        destruct Z as (z & Hz & Nz).
        destruct h; [exists z; split; [exact Hz|destruct z; try discriminate; reflexivity]|].
        exists (np_inv (nadd z (if neq_num NaN (Fin 0) then Fin 1 else Fin 0))). split; [apply in_map_iff; exists z; auto|].
        destruct z; try discriminate. reflexivity.
      - rewrite Bad; [reflexivity|]. exists PInf. auto. }
    split; [|left; exact R]. split.
    + intros [ps H]. congruence.
    + intros [_ H]. exfalso. apply Exists_exists in Hex. destruct Hex as (y & Hy & NU). apply NU, H, Hy.
  - assert (HU : forall y, In y (x :: r) -> usable h y).
    { intros y Hy. destruct (usable_dec h y) as [U|NU]; [exact U|]. exfalso. apply Hnot, Exists_exists. eauto. }
    destruct (fp_probs_ok ex h (x :: r)) as (s & _ & _ & _ & E); [discriminate|exact HU|].
    split; [|right; eauto]. split; [|eauto]. intros _. split; [discriminate|exact HU].
Qed.

Lemma fp_distribution ex h xs ps : exp_like ex -> fp_probs ex h xs = Ok ps -> distribution (length xs) ps.
Proof.
  intros EX H. destruct (proj1 (proj1 (fp_accepts ex h xs)) (ex_intro _ ps H)) as [Hne HU].
  destruct (fp_probs_ok ex h xs Hne HU) as (s & _ & F & _ & E). rewrite E in H. injection H as <-.
  destruct (Qeq_bool (Qsum (map (fp_score h s) xs)) 1) eqn:Q1.
  - split; [apply map_length|]. split; [|rewrite <- Qsum_total; apply Qeq_bool_iff; exact Q1].
    intros p Hp. apply in_map_iff in Hp. destruct Hp as (x & <- & Hx). auto.
  - destruct (softmax_spec ex EX (map (fp_score h s) xs)) as (m & T & HT & Es & Et); [destruct xs; [congruence|discriminate]|].
    split; [rewrite Es, !map_length; reflexivity|]. split; [|exact Et].
    rewrite Es. intros p Hp. apply in_map_iff in Hp. destruct Hp as (x & <- & Hx). destruct EX as (N & _).
    apply Qle_shift_div_l; [exact HT|]. rewrite Qmult_0_l. apply N.
Qed.

Lemma fp_score_order h s x y : usable h x -> usable h y -> (h = false -> forall q, x = Fin q \/ y = Fin q -> 0 < q + s) ->
  ~ better_score h y x -> fp_score h s y <= fp_score h s x.
Proof.
  unfold better_score, fp_score. intros Ux Uy P B. destruct h.
  - destruct x as [a| | |], y as [b| | |]; simpl in *; try contradiction; try discriminate.
    destruct (Qlt_le_dec a b) as [L|L]; [|exact L]. exfalso. apply B. apply Qlt_b_spec. exact L.
  - destruct x as [a| | |], y as [b| | |]; simpl in *; try contradiction; try lra.
    + assert (Pa : 0 < a + s) by (apply P; auto). assert (Pb : 0 < b + s) by (apply P; auto).
      assert (L : a <= b) by (destruct (Qlt_le_dec b a) as [L|L]; [exfalso; apply B, Qlt_b_spec; exact L|exact L]).
      destruct (Qlt_le_dec (/ (a + s)) (/ (b + s))) as [C|C]; [|exact C]. exfalso.
      assert (D : (a + s) * / (a + s) == 1) by (field; intro; lra). assert (D2 : (b + s) * / (b + s) == 1) by (field; intro; lra).
      assert (0 < / (a + s)) by (apply Qinv_lt_0_compat; exact Pa).
      assert ((a + s) * / (a + s) < (a + s) * / (b + s)) by (apply Qmult_lt_l; assumption).
      assert ((a + s) * / (b + s) <= (b + s) * / (b + s)) by (apply Qmult_le_compat_r; lra). lra.
    + apply Qlt_le_weak, Qinv_lt_0_compat. apply P; auto.
Qed.

Lemma fp_order ex h xs ps i j x y p q : exp_like ex -> fp_probs ex h xs = Ok ps ->
  nth_error xs i = Some x -> nth_error xs j = Some y -> nth_error ps i = Some p -> nth_error ps j = Some q ->
  ~ better_score h y x -> q <= p.
Proof.
  intros EX H Hx Hy Hp Hq B. destruct (proj1 (proj1 (fp_accepts ex h xs)) (ex_intro _ ps H)) as [Hne HU].
  destruct (fp_probs_ok ex h xs Hne HU) as (s & _ & F & P & E). rewrite E in H. injection H as <-.
  pose proof (nth_error_In _ _ Hx) as Ix. pose proof (nth_error_In _ _ Hy) as Iy.
  assert (O : fp_score h s y <= fp_score h s x).
  { apply fp_score_order; auto. intros Hf z [-> | ->]; apply P; auto. }
  destruct (Qeq_bool (Qsum (map (fp_score h s) xs)) 1).
  - rewrite nth_error_map, Hx in Hp. rewrite nth_error_map, Hy in Hq. simpl in *. injection Hp as <-. injection Hq as <-. exact O.
  - destruct (softmax_spec ex EX (map (fp_score h s) xs)) as (m & T & HT & Es & Et); [destruct xs; [congruence|discriminate]|].
    rewrite Es in Hp, Hq. rewrite !nth_error_map, Hx in Hp. rewrite !nth_error_map, Hy in Hq. simpl in *. injection Hp as <-. injection Hq as <-.
    apply div_le; [exact HT|]. destruct EX as (_ & M & _). apply M. lra.
Qed.

(** ** The whole selection *)

Lemma np_unit_range g : exists u g', np_unit g = (Ok u, g') /\ (0 <= u /\ u < 1).
Proof.
  unfold np_unit, next_np_draw, bind, ret. eexists _, _. split; [reflexivity|].
  set (k := N.modulo _ _). assert (L : (k < Npos two53)%N) by (apply N.mod_lt; discriminate).
  split; unfold Qle, Qlt; simpl; lia.
Qed.

Lemma fp_select_spec ex h src dest w score : exp_like ex -> src <> [] -> (length dest <= length src)%nat ->
  (forall o, In o src -> scored w o (score o) /\ usable h (score o)) ->
  exists ps us chosen cs w', fp_probs ex h (map score src) = Ok ps /\
    fp_select_exact ex h src dest w = (Ok (dest ++ cs), w') /\
    length us = (length src - length dest)%nat /\ Forall (fun u => 0 <= u /\ u < 1) us /\
    Forall2 (fun u o => exists i, nth_error src i = Some o /\ total (firstn i ps) <= u /\ u < total (firstn (S i) ps)) us chosen /\
    copies "FitnessProportionateSelection" chosen w cs w'.
Proof.
  intros EX Hne Hl Hs.
  destruct (proj2 (proj1 (fp_accepts ex h (map score src)))) as [ps Hps].
  { split; [destruct src; [congruence|discriminate]|]. intros x Hx. apply in_map_iff in Hx. destruct Hx as (o & <- & Ho). apply Hs, Ho. }
  pose proof (fp_distribution ex h _ ps EX Hps) as D. rewrite map_length in D.
  unfold fp_select_exact.
  rewrite (bind_eq_ok _ _ _ _ _ (mapM_pure augmented (fun o => VNum (score o)) w src (fun o Ho => augmented_scored _ _ _ (proj1 (Hs o Ho))))).
  assert (E1 : rmap as_num (map (fun o => VNum (score o)) src) = Ok (map score src)).
  { clear. induction src as [|o l IH]; simpl; [reflexivity|]. rewrite IH. reflexivity. }
  rewrite (bind_eq_ok (lift (rmap as_num (map (fun o => VNum (score o)) src))) _ w (map score src) w) by (unfold lift; rewrite E1; reflexivity).
  rewrite (bind_eq_ok (lift (fp_probs ex h (map score src))) _ w ps w) by (unfold lift; rewrite Hps; reflexivity).
  destruct (Nat.ltb_spec (length src) (length dest)) as [L|_]; [lia|].
  destruct (repeatM_draw (length src - length dest) np_unit _ np_unit_range w) as (us & w1 & Eu & Lu & Fu & Hh).
  rewrite (bind_eq_ok _ _ _ _ _ Eu).
  assert (C : exists chosen, rmap (fun u => match nth_error src (cdf_index ps u) with Some o => Ok o | None => Raise IndexError end) us = Ok chosen /\
     Forall2 (fun u o => exists i, nth_error src i = Some o /\ total (firstn i ps) <= u /\ u < total (firstn (S i) ps)) us chosen).
  { clear Eu Lu. induction Fu as [|u us [U0 U1] Fu IH]; simpl; [exists []; auto|].
    destruct (proj1 (pick_interval _ ps u (cdf_index ps u) D U0 U1) eq_refl) as (A & B).
    destruct (nth_error_ex src _ A) as [o Ho]. rewrite Ho. destruct IH as (ch & Er & F2). rewrite Er. simpl. eauto 8. }
  destruct C as (chosen & Er & F2).
  assert (I : incl chosen src).
  { clear - F2. intros o Ho. induction F2 as [|u q us ch (i & Hi & _) F IH]; [destruct Ho|]. destruct Ho as [<-|Ho]; [|auto]. eapply nth_error_In; eauto. }
  rewrite (bind_eq_ok (lift (rmap _ us)) _ w1 chosen w1) by (unfold lift; rewrite Er; reflexivity).
  destruct (clones_total "FitnessProportionateSelection" chosen w1) as (cs & w' & Ec & Cc).
  { intros o Ho. destruct (Hs o (I o Ho)) as ((i & Hi & _) & _). exists i. unfold at_ in *. rewrite Hh. exact Hi. }
  rewrite (bind_eq_ok _ _ _ _ _ Ec). exists ps, us, chosen, cs, w'. split; [exact Hps|]. split; [reflexivity|].
  split; [exact Lu|]. split; [exact Fu|]. split; [exact F2|]. eapply copies_heap; [exact Hh|exact Cc].
Qed.

(** ** The selection of the model of breeding over-approximates this one *)

Definition commutes (f : draw -> draw) {A} (m : M A) : Prop := forall w, m (remap f w) = (fst (m w), remap f (snd (m w))).

Lemma cm_bind f {A B} (m : M A) (k : A -> M B) : commutes f m -> (forall a, commutes f (k a)) -> commutes f (bind m k).
Proof. intros Hm Hk w. unfold bind. rewrite Hm. destruct (m w) as [[a|e] w1]; simpl; [apply Hk|reflexivity]. Qed.

Lemma cm_mapM f {A B} (m : A -> M B) l : (forall a, commutes f (m a)) -> commutes f (mapM m l).
Proof. intros H. induction l as [|a l IH]; simpl; [intros w; reflexivity|]. apply cm_bind; [apply H|]. intros b. apply cm_bind; [exact IH|]. intros bs w. reflexivity. Qed.

Lemma cm_load f o : commutes f (load o).
Proof. intros w. unfold load. simpl. destruct (nth_error (w_heap w) o); reflexivity. Qed.

Lemma cm_store f o i : commutes f (store o i).
Proof. intros w. unfold store. simpl. destruct (_ <? _)%nat; reflexivity. Qed.

Lemma cm_clone_selected f name o : commutes f (clone_selected name o).
Proof.
  apply cm_bind.
  - apply cm_bind; [apply cm_load|]. intros i. apply cm_bind; [intros w; reflexivity|]. intros z w; reflexivity.
  - intros c. apply cm_bind; [|intros u w; reflexivity]. apply cm_bind; [apply cm_load|]. intros i. apply cm_store.
Qed.

Lemma fp_guard h ex xs n : n = length xs -> exp_like ex ->
  ((n =? 0)%nat || existsb (fun x => nlt x (Fin 0)) xs || existsb (fp_bad h) xs)%bool = negb (is_ok (fp_probs ex h xs)).
Proof.
  intros -> EX. destruct (fp_accepts ex h xs) as [A B].
  destruct (fp_probs ex h xs) as [ps|e] eqn:E.
  - destruct (proj1 A (ex_intro _ ps eq_refl)) as [Hne HU]. simpl.
    destruct xs as [|x r]; [congruence|]. apply orb_false_iff. split; [apply orb_false_iff; split; [reflexivity|]|];
      apply not_true_is_false; intros X; apply existsb_exists in X; destruct X as (y & Hy & Y); specialize (HU y Hy).
    + rewrite (proj2 (usable_num _ _ HU)) in Y. discriminate.
    + destruct y; simpl in *; try contradiction; try discriminate. congruence.
  - simpl. destruct ((length xs =? 0)%nat) eqn:Z; [reflexivity|]. apply Nat.eqb_neq in Z. cbn [orb].
    destruct (existsb (fun x => nlt x (Fin 0)) xs || existsb (fp_bad h) xs)%bool eqn:G; [reflexivity|].
    exfalso. apply orb_false_iff in G. destruct G as [G1 G2].
    assert (exists ps, @Raise (list Q) e = Ok ps) as [ps X]; [|discriminate]. apply A. split; [intros Hn; rewrite Hn in Z; apply Z; reflexivity|].
    intros x Hx. destruct (usable_dec h x) as [U|NU]; [exact U|]. exfalso.
    assert (X : forall p, existsb p xs = false -> p x = false).
    { intros p Hp. apply not_true_is_false. intros T. assert (Y : existsb p xs = true) by (apply existsb_exists; eauto). congruence. }
    apply X in G1. apply X in G2. destruct (not_usable _ _ NU) as [N|[N|[-> ->]]]; [destruct x; discriminate|congruence|discriminate].
Qed.

Definition pick_draw (ps : list Q) (d : draw) : draw :=
  mkDraw (N.of_nat (cdf_index ps (Z.of_N (N.modulo (d_n d) (Npos two53)) # two53))) 0.

Lemma fp_select_approx ex h src dest w : exp_like ex ->
  exists f, fp_select h src dest (remap f w) =
            (fst (fp_select_exact ex h src dest w), remap f (snd (fp_select_exact ex h src dest w))).
Proof.
  intros EX. unfold fp_select, fp_select_exact.
  assert (A : forall f, commutes f (mapM augmented src)).
  { intros f. apply cm_mapM. intros o. apply cm_bind; [apply cm_load|]. intros i v. reflexivity. }
  destruct (mapM augmented src w) as [[ks|e] w1] eqn:E1.
  2:{ exists (fun d => d). unfold bind at 1. rewrite A, E1. unfold bind. rewrite E1. reflexivity. }
  destruct (rmap as_num ks) as [xs|e] eqn:E2.
  2:{ exists (fun d => d). unfold bind at 1. rewrite A, E1. unfold bind. rewrite E1. cbn [fst snd]. unfold lift. rewrite E2. reflexivity. }
  assert (Lx : length src = length xs).
  { apply rmap_ok in E2. apply Forall2_len in E2. apply mapM_length in E1. congruence. }
  pose proof (fp_guard h ex xs (length src) Lx EX) as G.
  destruct (fp_probs ex h xs) as [ps|e] eqn:E3.
  2:{ exists (fun d => d). rewrite (bind_eq_ok _ _ _ ks (remap (fun d => d) w1)) by (rewrite A, E1; reflexivity).
      rewrite (bind_eq_ok (mapM augmented src) _ w ks w1) by exact E1.
      rewrite !(bind_eq_ok (lift (rmap as_num ks)) _ _ xs _) by (unfold lift; rewrite E2; reflexivity).
      rewrite G. cbn [is_ok negb orb].
      assert (e = ValueError) as ->. { destruct (fp_accepts ex h xs) as [_ [B|[? B]]]; congruence. }
      unfold bind, lift. rewrite E3. reflexivity. }
  exists (pick_draw ps). set (f := pick_draw ps).
  rewrite (bind_eq_ok _ _ _ ks (remap f w1)) by (rewrite A, E1; reflexivity).
  rewrite (bind_eq_ok (mapM augmented src) _ w ks w1) by exact E1.
  rewrite !(bind_eq_ok (lift (rmap as_num ks)) _ _ xs _) by (unfold lift; rewrite E2; reflexivity).
  rewrite G. rewrite (bind_eq_ok (lift (fp_probs ex h xs)) _ w1 ps w1) by (unfold lift; rewrite E3; reflexivity).
  cbn [is_ok negb orb]. destruct (length src <? length dest)%nat; [reflexivity|].
  pose proof (fp_distribution ex h _ ps EX E3) as D. rewrite <- Lx in D.
  (* the draws *)
  assert (U : forall n v, exists us v', repeatM n (liftR np_unit) v = (Ok us, v') /\
     repeatM n (liftR (np_randbelow (length src))) (remap f v) = (Ok (map (cdf_index ps) us), remap f v') ).
  { induction n as [|n IH]; intros v; [exists [], v; split; reflexivity|].
    cbn [repeatM]. 
    set (u := Z.of_N (N.modulo (d_n (r_np (w_rng v) (r_npseed (w_rng v)) (r_nppos (w_rng v)))) (Npos two53)) # two53).
    set (v1 := mkWorld (w_heap v) (w_next_id v) (snd (next_np_draw (w_rng v)))).
    destruct (IH v1) as (us & v' & Ea & Eb).
    exists (u :: us), v'. split.
    - rewrite (bind_eq_ok (liftR np_unit) _ v u v1) by reflexivity. rewrite (bind_eq_ok _ _ _ _ _ Ea). reflexivity.
    - destruct (np_unit_range (w_rng v)) as (u' & g' & Eu & U0 & U1).
      assert (u' = u) by (unfold np_unit, next_np_draw, bind, ret in Eu; injection Eu as <- _; reflexivity). subst u'.
      destruct (proj1 (pick_interval _ ps u (cdf_index ps u) D U0 U1) eq_refl) as (Lt & _).
      rewrite (bind_eq_ok (liftR (np_randbelow (length src))) _ (remap f v) (cdf_index ps u) (remap f v1)).
      + rewrite (bind_eq_ok _ _ _ _ _ Eb). reflexivity.
      + unfold liftR, np_randbelow, next_np_draw, bind, ret. cbn. unfold f, pick_draw. cbn [d_n].
        change (Z.of_N (N.modulo (d_n (r_np (w_rng v) (r_npseed (w_rng v)) (r_nppos (w_rng v)))) (Npos two53)) # two53) with u.
        rewrite N.mod_small by lia. rewrite Nat2N.id. reflexivity. }
  destruct (U (length src - length dest)%nat w1) as (us & w2 & Ea & Eb).
  rewrite (bind_eq_ok _ _ _ _ _ Ea), (bind_eq_ok _ _ _ _ _ Eb).
  assert (Em : forall l, rmap (fun i => match nth_error src i with Some o => Ok o | None => Raise IndexError end) (map (cdf_index ps) l) =
               rmap (fun u => match nth_error src (cdf_index ps u) with Some o => Ok o | None => Raise IndexError end) l).
  { induction l as [|a l IH]; simpl; [reflexivity|]. rewrite IH. reflexivity. }
  rewrite Em. apply cm_bind; [intros v; reflexivity|]. intros ch. apply cm_bind; [apply cm_mapM; intros; apply cm_clone_selected|].
  intros cs v. reflexivity.
Qed.

(** ** Not proportional *)

Lemma fp_two ex : exp_like ex -> fp_probs ex true [Fin 0; Fin 2] = Ok [ex (0 - 2) / (ex (0 - 2) + (ex (2 - 2) + 0)); ex (2 - 2) / (ex (0 - 2) + (ex (2 - 2) + 0))].
Proof. intros EX. reflexivity. Qed.

Lemma fp_not_proportional : (forall ex, fp_probs ex true [Fin 0; Fin 1] = Ok [0; 1]) /\
  forall ex, exp_like ex -> 0 < ex (- (2)) -> exists p q, fp_probs ex true [Fin 0; Fin 2] = Ok [p; q] /\ 0 < p.
Proof.
  split; [reflexivity|]. intros ex EX P. eexists _, _. split; [apply fp_two; exact EX|].
  assert (E : ex (0 - 2) == ex (- (2))) by (apply (ex_compat ex EX); ring).
  assert (E2 : ex (2 - 2) == 1) by (transitivity (ex 0); [apply (ex_compat ex EX); ring|apply EX]).
  rewrite E, E2. apply Qlt_shift_div_l; lra.
Qed.
