(** Proofs about classification. *)
From Coq Require Import QArith Lqa Lia.
From Verif.Proofs Require Export Lib TreeP TreeExecP.
From Verif.Spec Require Export TreeSpec ClassSpec.
From Verif.Model Require Import Classifier.
Open Scope nat_scope.

Definition thr (n i : nat) : num := Fin (Z.of_nat i # Pos.of_nat n).

Lemma thresholds_eq n : thresholds n = map (thr n) (seq 1 (n - 1)).
Proof.
  unfold thresholds, linspace01. destruct n as [|n]; [reflexivity|].
  replace (S n + 1) with (S (S n)) by lia. rewrite seq_S, map_app. cbn [map app]. rewrite removelast_last.
  simpl. rewrite Nat.sub_0_r. reflexivity.
Qed.

(** In an increasing list the thresholds that are not above [x] form a prefix. *)
Lemma count_prefix (p : nat -> bool) k len : (forall i, p (S i) = true -> p i = true) ->
  forall start, length (filter p (seq start len)) = k -> (k <= len)%nat /\ (forall i, start <= i < start + k -> p i = true) /\
    (k < len -> p (start + k) = false).
Proof.
  intros Hm. revert k. induction len as [|len IH]; intros k start H; cbn [seq filter] in H.
  - simpl in H. subst. split; [lia|]. split; [intros; lia|lia].
  - destruct (p start) eqn:E.
    + simpl in H. destruct k as [|k]; [discriminate|]. injection H as H. destruct (IH k (S start) H) as (A & B & C).
      split; [lia|]. split.
      * intros i Hi. destruct (Nat.eq_dec i start) as [->|]; [exact E|]. apply B. lia.
      * intros Hk. replace (start + S k) with (S start + k) by lia. apply C. lia.
    + assert (Z : forall j, p (start + j) = false).
      { induction j as [|j IHj]; [rewrite Nat.add_0_r; exact E|]. rewrite Nat.add_succ_r.
        destruct (p (S (start + j))) eqn:F; [|reflexivity]. apply Hm in F. congruence. }
      assert (K : filter p (seq (S start) len) = []).
      { clear - Z. assert (G : forall m s, start <= s -> filter p (seq s m) = []).
        { induction m as [|m IHm]; intros s Hs; [reflexivity|]. cbn [seq filter]. replace s with (start + (s - start)) at 1 by lia. rewrite Z. apply IHm. lia. }
        apply G. lia. }
      rewrite K in H. simpl in H. subst k. split; [lia|]. split; [intros; lia|]. intros _. rewrite Nat.add_0_r. exact E.
Qed.

Lemma filter_map_length {A B} (f : A -> B) p l : length (filter p (map f l)) = length (filter (fun x => p (f x)) l).
Proof. induction l as [|x l IH]; simpl; [reflexivity|]. destruct (p (f x)); simpl; congruence. Qed.

Lemma nat_frac i n : (Z.of_nat i # Pos.of_nat n <= Z.of_nat (S i) # Pos.of_nat n)%Q.
Proof. unfold Qle. simpl Qnum. simpl Qden. nia. Qed.

Lemma digitize_spec n q : 0 < n -> (0 <= q)%Q ->
  let k := digitize (thresholds n) (Fin q) in
  k < n /\ ((Z.of_nat k # Pos.of_nat n) <= q)%Q /\ (S k < n -> (q < Z.of_nat (S k) # Pos.of_nat n)%Q).
Proof.
  intros Hn Hq. unfold digitize. rewrite thresholds_eq, filter_map_length.
  set (p := fun i => negb (nlt (Fin q) (thr n i))).
  assert (Hp : forall i, p i = true <-> (Z.of_nat i # Pos.of_nat n <= q)%Q).
  { intros i. unfold p, thr. cbn [nlt]. rewrite negb_true_iff. apply Qlt_b_false. }
  assert (Hm : forall i, p (S i) = true -> p i = true).
  { intros i Hi. apply Hp. apply Hp in Hi. pose proof (nat_frac i n). lra. }
  destruct (count_prefix p (length (filter p (seq 1 (n - 1)))) (n - 1) Hm 1 eq_refl) as (A & B & C).
  cbv zeta. set (k := length (filter p (seq 1 (n - 1)))) in *. split; [lia|]. split.
  - destruct k as [|k']; [unfold Qle; simpl; unfold Qle in Hq; simpl in Hq; lia|]. apply Hp. apply B. lia.
  - intros Hk. specialize (C ltac:(lia)). change (1 + k) with (S k) in C.
    unfold p, thr in C. cbn [nlt] in C. apply negb_false_iff in C. apply Qlt_b_spec in C. exact C.
Qed.

Lemma digitize_nan bins : digitize bins NaN = length bins.
Proof. unfold digitize. induction bins as [|b l IH]; [reflexivity|]. simpl. f_equal. exact IH. Qed.

Lemma classify_range sg n x : sigmoid_like sg -> 0 < n -> classify sg n x < n.
Proof.
  intros (R & _ & N) Hn. unfold classify. destruct (is_nan x) eqn:E.
  - destruct x; try discriminate. rewrite N, digitize_nan, thresholds_eq, map_length, seq_length. lia.
  - destruct (R x E) as (q & -> & H0 & H1). apply digitize_spec; auto.
Qed.

Lemma classify_nan sg n : sigmoid_like sg -> classify sg n NaN = n - 1.
Proof. intros (_ & _ & N). unfold classify. rewrite N, digitize_nan, thresholds_eq, map_length, seq_length. reflexivity. Qed.

Lemma classify_quantiles sg n x q k : sigmoid_like sg -> is_nan x = false -> sg x = Fin q -> 0 < n ->
  classify sg n x = k <->
  k < n /\ ((Z.of_nat k # Pos.of_nat n) <= q)%Q /\ (S k < n -> (q < Z.of_nat (S k) # Pos.of_nat n)%Q).
Proof.
  intros (R & _ & _) E Eq Hn. destruct (R x E) as (q' & E' & H0 & _). assert (q' = q) by congruence. subst q'.
  unfold classify. rewrite Eq. destruct (digitize_spec n q Hn H0) as (A & B & C). split; [intros <-; auto|].
  intros (A' & B' & C'). set (c := digitize (thresholds n) (Fin q)) in *.
  assert (Mono : forall i j, i <= j -> (Z.of_nat i # Pos.of_nat n <= Z.of_nat j # Pos.of_nat n)%Q).
  { intros i j Hij. unfold Qle. simpl Qnum. simpl Qden. nia. }
  destruct (Nat.lt_trichotomy c k) as [L|[Q|L]]; [|exact Q|].
  - specialize (C ltac:(lia)). specialize (Mono (S c) k L). lra.
  - specialize (C' ltac:(lia)). specialize (Mono (S k) c L). lra.
Qed.

Lemma filter_le {A} (p p' : A -> bool) l : (forall x, p x = true -> p' x = true) -> length (filter p l) <= length (filter p' l).
Proof.
  intros H. induction l as [|x l IH]; simpl; [lia|]. destruct (p x) eqn:E; [rewrite (H _ E); simpl; lia|]. destruct (p' x); simpl; lia.
Qed.

Lemma classify_monotone sg n x y : sigmoid_like sg -> is_nan x = false -> is_nan y = false -> nlt y x = false ->
  classify sg n x <= classify sg n y.
Proof.
  intros (R & M & _) Ex Ey L. specialize (M x y Ex Ey L). destruct (R x Ex) as (a & Ea & _), (R y Ey) as (b & Eb & _).
  unfold classify, digitize. rewrite thresholds_eq, !filter_map_length. apply filter_le.
  intros i. rewrite Ea, Eb in *. cbn [nlt thr] in *. rewrite !negb_true_iff, !Qlt_b_false. apply Qlt_b_false in M. lra.
Qed.

(** ** Prediction *)

Lemma predict_unfitted sg fsem const unsp X s : k_fitted s = false -> predict sg fsem const unsp X s = (Raise ValueError, s).
Proof. intros H. unfold predict. rewrite H. reflexivity. Qed.

Lemma predict_rows sg fsem fs const unsp s es c n t rt X : sigmoid_like sg ->
  k_fitted s = true -> k_evals s = c :: es -> c_method c = Sigmoid -> c_classes c = n -> 0 < n -> k_best s = Some t ->
  saturated rt -> flatten rt = t_nodes t -> map fst (t_tset t) = create_terminal_set X ->
  a_cols X <> [] -> a_float X = true -> (forall col, In col (a_cols X) -> length col = a_rows X) ->
  elementwise t (a_rows X) fsem fs ->
  exists l, fst (predict sg fsem (fun v => Scalar (const v)) unsp X s) = Ok (map nof_nat l) /\ length l = a_rows X /\
    forall r, r < a_rows X -> exists x k, nth_error l r = Some k /\ k < n /\ k = classify sg n x /\
      eval num (fun f xs => Ok (fs f xs)) const (row_env X r) rt = Ok x.
Proof.
  intros SG Hf He Hm Hc Hn Hb Hs Ef Ht Hne Hx Hr Hel.
  destruct (execute_array_rows fsem fs const unsp t rt X Hs Ef Ht Hne Hx Hr Hel) as (l & E & L & V).
  unfold predict. rewrite Hf, He, Hb. cbn [negb fst]. unfold classify_individual. rewrite Hm, Hc, E. cbn [rbind].
  exists (map (classify sg n) l). split; [rewrite map_map; reflexivity|]. split; [rewrite map_length; exact L|].
  intros r Hlt. destruct (V r Hlt) as (x & Hx1 & Hx2). exists x, (classify sg n x).
  rewrite nth_error_map, Hx1. split; [reflexivity|]. split; [apply classify_range; auto|]. auto.
Qed.

Lemma predict_again sg fsem const unsp X1 X2 s :
  let s1 := snd (predict sg fsem const unsp X1 s) in
  predict sg fsem const unsp X2 s1 = predict sg fsem const unsp X2 s.
Proof.
  unfold predict. destruct (k_fitted s) eqn:F; cbn [negb]; [|cbn [snd]; rewrite F; reflexivity].
  destruct (k_evals s) as [|c es] eqn:E; [cbn [snd]; rewrite F; cbn [negb]; rewrite E; reflexivity|].
  destruct (k_best s) eqn:B; cbn [snd k_fitted k_evals k_best negb]; rewrite ?F; reflexivity.
Qed.

(** After a prediction the first evaluator has lost its target values. *)
Lemma predict_forgets sg fsem const unsp X s c es t : k_fitted s = true -> k_evals s = c :: es -> k_best s = Some t ->
  exists c', k_evals (snd (predict sg fsem const unsp X s)) = c' :: es /\ c_X c' = Some X /\ c_y c' = None /\
    c_method c' = c_method c /\ c_classes c' = c_classes c /\
    forall metric, clf_evaluate sg fsem const unsp metric t c' = rbind (fst (predict sg fsem const unsp X s)) (metric None).
Proof.
  intros F E B. exists (set_context X None c). unfold predict. rewrite F, E, B. cbn [negb]. repeat split; reflexivity.
Qed.

Lemma fit_contexts evolve X y s t : evolve (map (set_context X (Some y)) (k_evals s)) = Ok t ->
  fit evolve X y s = (Ok tt, mkSk true (map (set_context X (Some y)) (k_evals s)) (Some t)).
Proof. intros H. unfold fit. rewrite H. reflexivity. Qed.

(** The root function must be named after the method. *)
Lemma root_method sg fsem const unsp n m t X r : classify_individual sg fsem const unsp (RootFunction m) n t X = Ok r ->
  exists f rest i, t_nodes t = FNode f :: rest /\ String.index 0 m (f_name f) = Some i /\
    (execute_array fsem const unsp t X = Ok (Column r) \/ exists x, execute_array fsem const unsp t X = Ok (Scalar x) /\ r = [x]).
Proof.
  unfold classify_individual. destruct (t_nodes t) as [|[f|v a] rest]; try discriminate.
  destruct (String.index 0 m (f_name f)) as [i|] eqn:E; [|discriminate].
  destruct (execute_array fsem const unsp t X) as [[x|l]|e]; intros H; try discriminate; injection H as <-;
    exists f, rest, i; (split; [reflexivity|]); (split; [exact E|]); eauto.
Qed.

Lemma method_names s :
  (s = "sigmoid"%string -> clf_method_of s = Ok Sigmoid) /\
  (In s ["argmax"; "softmax"]%string -> clf_method_of s = Ok (RootFunction s)) /\
  (~ In s ["sigmoid"; "argmax"; "softmax"]%string -> clf_method_of s = Raise ValueError).
Proof.
  split; [intros ->; reflexivity|]. split; [intros [<-|[<-|[]]]; reflexivity|]. intros H. unfold clf_method_of.
  destruct (String.eqb s "sigmoid") eqn:E1; [exfalso; apply String.eqb_eq in E1; apply H; cbn; auto|].
  destruct (String.eqb s "argmax") eqn:E2; [exfalso; apply String.eqb_eq in E2; apply H; cbn; auto|].
  destruct (String.eqb s "softmax") eqn:E3; [exfalso; apply String.eqb_eq in E3; apply H; cbn; auto|]. reflexivity.
Qed.
