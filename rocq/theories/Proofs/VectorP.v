(** Pure facts about vectors: crossover points, bounds, parts, random values. *)
From Verif.Proofs Require Export Lib.
From Verif.Model Require Export Vector.
From Verif.Spec Require Import VectorSpec.
From Coq Require Import Lqa.

(** ** Slices *)

Lemma py_clip_nat len i : py_clip len (Z.of_nat i) = Nat.min len i.
Proof. unfold py_clip. destruct (Z.ltb_spec (Z.of_nat i) 0); lia. Qed.

Lemma py_clip_last len : py_clip len (-1) = len - 1.
Proof. unfold py_clip. change (-1 <? 0)%Z with true. cbv iota. lia. Qed.

Lemma py_clip_le len z : py_clip len z <= len.
Proof. unfold py_clip. destruct (Z.ltb_spec z 0); lia. Qed.

Lemma py_slice_nat {A} (l : list A) i j :
  py_slice l (Z.of_nat i) (Z.of_nat j) = firstn (j - i) (skipn i l).
Proof.
  unfold py_slice. rewrite !py_clip_nat. apply nth_error_ext. intros k.
  rewrite !nth_error_firstn, !nth_error_skipn.
  destruct (Nat.ltb_spec k (Nat.min (length l) j - Nat.min (length l) i)), (Nat.ltb_spec k (j - i)); try lia.
  - f_equal. lia.
  - destruct (Nat.le_gt_cases (length l) (i + k)).
    + symmetry. apply nth_error_None. lia.
    + lia.
  - reflexivity.
Qed.

Lemma nth_slice_set (v1 v2 : list num) s e i : length v1 = length v2 ->
  nth_error (py_slice_set v1 s e (py_slice v2 s e)) i =
  if (py_clip (length v1) s <=? i) && (i <? py_clip (length v1) e) then nth_error v2 i else nth_error v1 i.
Proof.
  intros Hl. unfold py_slice_set, py_slice. rewrite <- Hl.
  pose proof (py_clip_le (length v1) s). pose proof (py_clip_le (length v1) e).
  set (a := py_clip (length v1) s) in *. set (b := py_clip (length v1) e) in *.
  assert (La : length (firstn a v1) = a) by (rewrite firstn_length; lia).
  assert (Lb : length (firstn (b - a) (skipn a v2)) = b - a) by (rewrite firstn_length, skipn_length; lia).
  destruct (Nat.leb_spec a i); simpl.
  - rewrite nth_error_app2 by lia. rewrite La.
    destruct (Nat.ltb_spec i b); simpl.
    + rewrite nth_error_app1 by lia. rewrite nth_error_firstn, nth_error_skipn.
      destruct (Nat.ltb_spec (i - a) (b - a)); [|lia]. f_equal. lia.
    + rewrite nth_error_app2 by lia. rewrite Lb, nth_error_skipn. f_equal. lia.
  - rewrite nth_error_app1 by lia. rewrite nth_error_firstn. destruct (Nat.ltb_spec i a); [|lia]. reflexivity.
Qed.

Lemma slice_set_length (v1 v2 : list num) s e : length v1 = length v2 ->
  length (py_slice_set v1 s e (py_slice v2 s e)) = length v1.
Proof.
  intros Hl. unfold py_slice_set, py_slice. rewrite <- Hl.
  pose proof (py_clip_le (length v1) s). pose proof (py_clip_le (length v1) e).
  rewrite !app_length, !firstn_length, !skipn_length. lia.
Qed.

(** Exchange of the positions selected by [p]. *)
Definition exch (p : nat -> bool) (a b a' b' : list num) : Prop :=
  length a' = length a /\ length b' = length b /\
  forall i, nth_error a' i = (if p i then nth_error b i else nth_error a i) /\
            nth_error b' i = (if p i then nth_error a i else nth_error b i).

Lemma exch_mix p a b a' b' : exch p a b a' b' -> position_mix a b a' b'.
Proof.
  intros (La & Lb & H). split; [exact La|split; [exact Lb|]]. intros i. destruct (H i) as [H1 H2].
  destruct (p i); [right|left]; auto.
Qed.

Lemma exch_compose p q a b a1 b1 a2 b2 :
  exch p a b a1 b1 -> exch q a1 b1 a2 b2 -> exch (fun i => xorb (p i) (q i)) a b a2 b2.
Proof.
  intros (L1 & L2 & H) (L3 & L4 & H'). split; [congruence|split; [congruence|]].
  intros i. destruct (H i) as [H1 H2], (H' i) as [H3 H4].
  destruct (p i), (q i); simpl; rewrite H3, H4, ?H1, ?H2; auto.
Qed.

Lemma exch_ext p q a b a' b' : (forall i, i < length a -> p i = q i) -> length a = length b ->
  exch p a b a' b' -> exch q a b a' b'.
Proof.
  intros Hpq Hab (L1 & L2 & H). split; [exact L1|split; [exact L2|]]. intros i.
  destruct (Nat.lt_ge_cases i (length a)) as [Hi|Hi].
  - rewrite <- Hpq by assumption. apply H.
  - assert (nth_error a i = None /\ nth_error b i = None /\ nth_error a' i = None /\ nth_error b' i = None)
      as (-> & -> & -> & ->) by (rewrite !nth_error_None; lia).
    destruct (q i); auto.
Qed.

Lemma exch_refl a b : exch (fun _ => false) a b a b.
Proof. repeat split; auto. Qed.

Definition window (n : nat) (s : Z) (e : nat) (i : nat) : bool :=
  (py_clip n s <=? i) && (i <? py_clip n (Z.of_nat e)).

Lemma swap_step v1 v2 s e : length v1 = length v2 ->
  exch (window (length v1) s e) v1 v2
       (py_slice_set v1 s (Z.of_nat e) (py_slice v2 s (Z.of_nat e)))
       (py_slice_set v2 s (Z.of_nat e) (py_slice v1 s (Z.of_nat e))).
Proof.
  intros Hl. split; [apply slice_set_length; assumption|].
  split; [apply slice_set_length; auto|]. intros i.
  rewrite !nth_slice_set by auto. rewrite <- Hl. unfold window. split; reflexivity.
Qed.

(** Which positions the loop exchanges. *)
Fixpoint loop_set (xo : list nat) (n_xo n : nat) (start : Z) (fuel i : nat) : nat -> bool :=
  match fuel with
  | O => fun _ => false
  | S fuel' =>
      match nth_error xo i with
      | None => fun _ => false
      | Some e =>
          let next := if e <? n_xo then match nth_error xo (S i) with Some s => Z.of_nat s | None => 0%Z end
                      else (-1)%Z in
          fun j => xorb (window n start e j) (loop_set xo n_xo n next fuel' (i + 2) j)
      end
  end.

Lemma swap_loop_exch xo n_xo fuel : forall start v1 v2 i a b,
  length v1 = length v2 ->
  swap_loop xo n_xo start v1 v2 fuel i = Ok (a, b) ->
  exch (loop_set xo n_xo (length v1) start fuel i) v1 v2 a b.
Proof.
  induction fuel as [|fuel IH]; intros start v1 v2 i a b Hl H; cbn [swap_loop loop_set] in *.
  - inv H. apply exch_refl.
  - destruct (nth_error xo i) as [e|] eqn:E; [|inv H; apply exch_refl].
    pose proof (swap_step v1 v2 start e Hl) as Hs.
    set (v1' := py_slice_set v1 start (Z.of_nat e) (py_slice v2 start (Z.of_nat e))) in *.
    set (v2' := py_slice_set v2 start (Z.of_nat e) (py_slice v1 start (Z.of_nat e))) in *.
    assert (L1 : length v1' = length v1) by (apply Hs).
    assert (L2 : length v2' = length v2) by (apply Hs).
    destruct (e <? n_xo).
    + destruct (nth_error xo (S i)) as [s|]; [|discriminate].
      apply IH in H; [|congruence]. rewrite L1 in H. exact (exch_compose _ _ _ _ _ _ _ _ Hs H).
    + apply IH in H; [|congruence]. rewrite L1 in H. exact (exch_compose _ _ _ _ _ _ _ _ Hs H).
Qed.

Lemma swap_loop_ok xo n_xo fuel : forall start v1 v2 i,
  (forall j e, nth_error xo j = Some e -> e < n_xo -> S j < length xo) ->
  exists a b, swap_loop xo n_xo start v1 v2 fuel i = Ok (a, b).
Proof.
  induction fuel as [|fuel IH]; intros start v1 v2 i H; cbn [swap_loop]; [eauto|].
  destruct (nth_error xo i) as [e|] eqn:E; [|eauto].
  destruct (Nat.ltb_spec e n_xo) as [He|He]; [|apply IH; assumption].
  destruct (nth_error_ex xo (S i) (H i e E He)) as (s & ->). apply IH. assumption.
Qed.

Lemma swap_parts_ok k v1 v2 pts : length v1 = length v2 -> length pts = k -> k < length v1 ->
  exists a b, swap_vector_parts k v1 v2 pts = Ok (a, b) /\ position_mix v1 v2 a b.
Proof.
  intros Hl Hk Hn. unfold swap_vector_parts. rewrite Hk, Nat.eqb_refl.
  destruct (swap_loop_ok (pts ++ [length v1]) (length (pts ++ [length v1])) (length (pts ++ [length v1]))
              0 v1 v2 0) as (a & b & E).
  - intros j e Hj He. rewrite app_length in *. simpl in *. pose proof (nth_error_lt _ _ _ Hj) as Hlt.
    rewrite app_length in Hlt. simpl in Hlt.
    destruct (Nat.lt_ge_cases j (length pts)); [lia|].
    rewrite nth_error_app2 in Hj by lia. replace (j - length pts) with 0 in Hj by lia. simpl in Hj. inv Hj. lia.
  - exists a, b. split; [exact E|]. eapply exch_mix, swap_loop_exch; eauto.
Qed.

(** ** Exact behaviour for one and two points *)

Lemma exch_unique p a b a1 b1 a2 b2 : exch p a b a1 b1 -> exch p a b a2 b2 -> a1 = a2 /\ b1 = b2.
Proof.
  intros (_ & _ & H) (_ & _ & H'). split; apply nth_error_ext; intros i; destruct (H i), (H' i); congruence.
Qed.

Lemma spec_exch pts a b : length a = length b ->
  exch (exchanged pts) a b (fst (kpoint_spec pts a b)) (snd (kpoint_spec pts a b)).
Proof.
  intros Hl.
  assert (N : forall (A B : Type) (x : list A) (y : list B) i,
            nth_error (combine x y) i = match nth_error x i, nth_error y i with
                                        | Some u, Some v => Some (u, v) | _, _ => None end).
  { clear. intros A B x. induction x as [|u x IH]; intros y i; [destruct i; reflexivity|].
    destruct y as [|v y]; destruct i; simpl; auto.
    - destruct (nth_error x i); reflexivity. }
  assert (Sq : forall i, i < length a -> nth_error (seq 0 (length a)) i = Some i).
  { intros i Hi. rewrite nth_error_nth' with (d := 0) by (rewrite seq_length; lia). rewrite seq_nth by lia. reflexivity. }
  unfold kpoint_spec, exch. simpl. rewrite !map_length, !combine_length, seq_length.
  split; [lia|split; [lia|]]. intros i. rewrite !nth_error_map, !N.
  destruct (Nat.lt_ge_cases i (length a)) as [Hi|Hi].
  - rewrite Sq by assumption.
    destruct (nth_error_ex a i Hi) as (x & ->). destruct (nth_error_ex b i) as (y & ->); [lia|]. simpl.
    destruct (exchanged pts i); auto.
  - assert (nth_error a i = None /\ nth_error b i = None) as (-> & ->) by (rewrite !nth_error_None; lia).
    destruct (nth_error (seq 0 (length a)) i), (exchanged pts i); auto.
Qed.

Lemma one_point p v1 v2 : length v1 = length v2 -> 1 <= p < length v1 ->
  swap_vector_parts 1 v1 v2 [p] =
  Ok (firstn p v2 ++ skipn p v1, firstn p v1 ++ skipn p v2).
Proof.
  intros Hl Hp. destruct (swap_parts_ok 1 v1 v2 [p]) as (a & b & E & _); auto; [lia|].
  rewrite E. unfold swap_vector_parts in E. apply swap_loop_exch in E; [|assumption].
  simpl in E. f_equal.
  assert (E' : exch (fun i => i <? p) v1 v2 a b).
  { eapply exch_ext; [|assumption|exact E]. intros i Hi. simpl.
    assert (W : window (length v1) 0 p i = (i <? p)).
    { unfold window. change 0%Z with (Z.of_nat 0). rewrite !py_clip_nat.
      destruct (Nat.leb_spec (Nat.min (length v1) 0) i), (Nat.ltb_spec i (Nat.min (length v1) p)), (Nat.ltb_spec i p); simpl; lia. }
    rewrite W. destruct (i <? p); reflexivity. }
  assert (E2 : exch (fun i => i <? p) v1 v2 (firstn p v2 ++ skipn p v1) (firstn p v1 ++ skipn p v2)).
  { split; [rewrite app_length, firstn_length, skipn_length; lia|].
    split; [rewrite app_length, firstn_length, skipn_length; lia|]. intros i.
    destruct (Nat.ltb_spec i p).
    - rewrite !nth_error_app1 by (rewrite firstn_length; lia). rewrite !nth_error_firstn.
      destruct (Nat.ltb_spec i p); [auto|lia].
    - rewrite !nth_error_app2 by (rewrite firstn_length; lia). rewrite !nth_error_skipn, !firstn_length.
      split; f_equal; lia. }
  destruct (exch_unique _ _ _ _ _ _ _ E' E2). congruence.
Qed.

(** With two points the second exchanged segment is [p2..] only if p1 < 3; otherwise it is the last gene. *)
Lemma two_point p1 p2 v1 v2 : length v1 = length v2 -> 1 <= p1 < p2 -> p2 < length v1 ->
  exists a b, swap_vector_parts 2 v1 v2 [p1; p2] = Ok (a, b) /\
    forall i, i < length v1 ->
      let swapped := (i <? p1) || (if p1 <? 3 then p2 <=? i else i =? length v1 - 1) in
      nth_error a i = (if swapped then nth_error v2 i else nth_error v1 i) /\
      nth_error b i = (if swapped then nth_error v1 i else nth_error v2 i).
Proof.
  intros Hl Hp Hn. destruct (swap_parts_ok 2 v1 v2 [p1; p2]) as (a & b & E & _); auto; [lia|].
  exists a, b. split; [exact E|]. unfold swap_vector_parts in E. apply swap_loop_exch in E; [|assumption].
  change (length [p1; p2] =? 2) with true in E. cbv iota in E. simpl app in E. simpl length in E.
  assert (E' : exch (fun i => (i <? p1) || (if p1 <? 3 then p2 <=? i else i =? length v1 - 1)) v1 v2 a b).
  { eapply exch_ext; [|assumption|exact E]. intros i Hi.
    cbn [loop_set nth_error].
    assert (W : window (length v1) 0 p1 i = (i <? p1)).
    { unfold window. change 0%Z with (Z.of_nat 0). rewrite !py_clip_nat.
      destruct (Nat.leb_spec (Nat.min (length v1) 0) i), (Nat.ltb_spec i (Nat.min (length v1) p1)), (Nat.ltb_spec i p1); simpl; lia. }
    rewrite W. change (0 + 2) with 2. cbn [loop_set nth_error].
    destruct (Nat.ltb_spec p1 3).
    - assert (W2 : window (length v1) (Z.of_nat p2) (length v1) i = (p2 <=? i)).
      { unfold window. rewrite !py_clip_nat.
        destruct (Nat.leb_spec (Nat.min (length v1) p2) i), (Nat.ltb_spec i (Nat.min (length v1) (length v1))), (Nat.leb_spec p2 i); simpl; lia. }
      rewrite W2. destruct (Nat.ltb_spec i p1), (Nat.leb_spec p2 i); simpl; try lia;
        destruct (Nat.ltb_spec (length v1) 3); simpl; destruct (2 + 2); reflexivity.
    - assert (W2 : window (length v1) (-1) (length v1) i = (i =? length v1 - 1)).
      { unfold window. rewrite py_clip_nat, py_clip_last.
        destruct (Nat.leb_spec (length v1 - 1) i), (Nat.ltb_spec i (Nat.min (length v1) (length v1))),
          (Nat.eqb_spec i (length v1 - 1)); cbn [andb]; lia. }
      rewrite W2. destruct (Nat.ltb_spec i p1), (Nat.eqb_spec i (length v1 - 1)); simpl; try lia;
        destruct (Nat.ltb_spec (length v1) 3); simpl; destruct (2 + 2); reflexivity. }
  intros i Hi. apply E'.
Qed.

(** Hence two-point crossover is as documented only for p1 < 3 or p2 = n-1. *)
Lemma two_point_documented p1 p2 v1 v2 : length v1 = length v2 -> 1 <= p1 < p2 -> p2 < length v1 ->
  p1 < 3 \/ p2 = length v1 - 1 ->
  swap_vector_parts 2 v1 v2 [p1; p2] = Ok (kpoint_spec [p1; p2] v1 v2).
Proof.
  intros Hl Hp Hn Hc. destruct (two_point p1 p2 v1 v2 Hl Hp Hn) as (a & b & E & H).
  destruct (swap_parts_ok 2 v1 v2 [p1; p2]) as (a' & b' & E' & (La & Lb & _)); auto; [lia|].
  rewrite E in E'. inv E'. rewrite E. f_equal.
  assert (X : exch (exchanged [p1; p2]) v1 v2 a' b').
  { split; [exact La|split; [exact Lb|]]. intros i. destruct (Nat.lt_ge_cases i (length v1)) as [Hi|Hi].
    - specialize (H i Hi). cbv zeta in H.
      replace (exchanged [p1; p2] i) with ((i <? p1) || (if p1 <? 3 then p2 <=? i else i =? length v1 - 1)); [exact H|].
      unfold exchanged. simpl.
      destruct (Nat.leb_spec p1 i), (Nat.leb_spec p2 i), (Nat.ltb_spec i p1), (Nat.ltb_spec p1 3),
        (Nat.eqb_spec i (length v1 - 1)); simpl; try lia; reflexivity.
    - assert (nth_error v1 i = None /\ nth_error v2 i = None /\ nth_error a' i = None /\ nth_error b' i = None)
        as (-> & -> & -> & ->) by (rewrite !nth_error_None; lia). destruct (exchanged _ i); auto. }
  destruct (exch_unique _ _ _ _ _ _ _ X (spec_exch [p1; p2] v1 v2 Hl)) as [-> ->].
  destruct (kpoint_spec [p1; p2] v1 v2); reflexivity.
Qed.

(** Starting from -1 with end points that are not below [n_xo], only the last gene can be touched. *)
Lemma loop_set_tail xo n_xo n fuel : forall i j,
  (forall e, In e xo -> n_xo <= e) -> j < n - 1 -> loop_set xo n_xo n (-1) fuel i j = false.
Proof.
  induction fuel as [|fuel IH]; intros i j Hx Hj; cbn [loop_set]; [reflexivity|].
  destruct (nth_error xo i) as [e|] eqn:E; [|reflexivity].
  pose proof (Hx e (nth_error_In _ _ E)) as He. destruct (Nat.ltb_spec e n_xo); [lia|].
  rewrite IH by assumption. rewrite xorb_false_r. unfold window. rewrite py_clip_last.
  destruct (Nat.leb_spec (n - 1) j); simpl; [lia|reflexivity].
Qed.

Lemma seq_filter_le a k i : length (filter (fun p => p <=? i) (seq a k)) = Nat.min k (i + 1 - a).
Proof.
  revert a. induction k as [|k IH]; intros a; [reflexivity|]. cbn [seq filter].
  destruct (Nat.leb_spec a i); cbn [length]; rewrite IH; lia.
Qed.

(** For every k >= 2 there are vectors and valid points where the result is not k-point crossover. *)
Lemma kpoint_wrong k : 2 <= k ->
  exists v1 v2 pts a b, length v1 = length v2 /\ length pts = k /\ StronglySorted lt pts /\
    (forall p, In p pts -> 1 <= p < length v1) /\
    swap_vector_parts k v1 v2 pts = Ok (a, b) /\ (a, b) <> kpoint_spec pts v1 v2.
Proof.
  intros Hk. set (n := 2 * k + 2).
  set (v1 := repeat (Fin 0) n). set (v2 := repeat (Fin 1) n). set (pts := seq (k + 1) k).
  assert (L1 : length v1 = n) by apply repeat_length. assert (L2 : length v2 = n) by apply repeat_length.
  assert (Lp : length pts = k) by apply seq_length.
  destruct (swap_parts_ok k v1 v2 pts) as (a & b & E & _); [congruence|assumption|unfold n in *; lia|].
  exists v1, v2, pts, a, b. repeat split; auto; try congruence.
  - unfold pts. generalize (k + 1). clear. induction k as [|k IH]; intros s; simpl; [constructor|].
    constructor; [apply IH|]. apply Forall_forall. intros x Hx. apply in_seq in Hx. lia.
  - apply in_seq in H. lia.
  - apply in_seq in H. unfold n in *. lia.
  - intros Heq. unfold swap_vector_parts in E. rewrite Lp, Nat.eqb_refl in E.
    apply swap_loop_exch in E; [|congruence].
    rewrite app_length, Lp, L1 in E. simpl length in E.
    destruct E as (_ & _ & E). specialize (E (k + 2)). destruct E as [E _].
    pose proof (spec_exch pts v1 v2) as Sp. rewrite <- Heq in Sp. simpl in Sp.
    destruct Sp as (_ & _ & Sp); [congruence|]. specialize (Sp (k + 2)). destruct Sp as [Sp _].
    assert (X1 : exchanged pts (k + 2) = true).
    { unfold exchanged, pts. rewrite seq_filter_le. replace (Nat.min k (k + 2 + 1 - (k + 1))) with 2 by lia. reflexivity. }
    rewrite X1 in Sp.
    assert (X2 : loop_set (pts ++ [n]) (k + 1) n 0 (k + 1) 0 (k + 2) = false).
    { replace (k + 1) with (S k) at 2 by lia. cbn [loop_set].
      assert (H0 : nth_error (pts ++ [n]) 0 = Some (k + 1)).
      { unfold pts. destruct k as [|k']; [lia|]. simpl. f_equal. }
      rewrite H0. destruct (Nat.ltb_spec (k + 1) (k + 1)); [lia|].
      assert (W : window n 0 (k + 1) (k + 2) = false).
      { unfold window. change 0%Z with (Z.of_nat 0). rewrite !py_clip_nat. unfold n in *. lia. }
      rewrite W, loop_set_tail; [reflexivity| |unfold n in *; lia].
      intros e He. apply in_app_or in He. destruct He as [He|He]; [apply in_seq in He; lia|].
      destruct He as [<-|[]]. unfold n in *. lia. }
    rewrite X2 in E. rewrite E in Sp.
    assert (Hi : k + 2 < n) by (unfold n; lia).
    unfold v1, v2 in Sp.
    rewrite (nth_error_nth' (repeat (Fin 0) n) (Fin 0)) in Sp by (rewrite repeat_length; lia).
    rewrite (nth_error_nth' (repeat (Fin 1) n) (Fin 1)) in Sp by (rewrite repeat_length; lia).
    rewrite !nth_repeat in Sp. discriminate.
Qed.

Lemma xo_points_spec k n g pts g' : xo_points k n g = (Ok pts, g') ->
  k <= n - 1 /\ length pts = k /\ StronglySorted lt pts /\ (forall p, In p pts -> 1 <= p < n).
Proof.
  unfold xo_points. intros H. mstep H. apply sample_spec in H0. destruct H0 as (Hk & Hl & rest & Hp).
  rewrite seq_length in Hk. mstep H1.
  assert (Hin : forall p, In p x -> 1 <= p < n).
  { intros p Hx. assert (In p (seq 1 (n - 1))).
    { eapply Permutation_in; [symmetry; exact Hp|]. apply in_or_app. auto. }
    apply in_seq in H. lia. }
  assert (Hnd : NoDup x).
  { pose proof (seq_NoDup (n - 1) 1) as Hs. eapply Permutation_NoDup in Hs; [|exact Hp].
    clear - Hs. induction x as [|y x IH]; [constructor|]. simpl in Hs. inv Hs.
    constructor; [intros ?; apply H1; apply in_or_app; auto|auto]. }
  split; [exact Hk|]. split; [rewrite sort_length; reflexivity|]. split.
  - assert (Ho : ordered Nat.ltb (sort_stable Nat.ltb x)).
    { apply sort_ordered. split; intros; lia. }
    assert (Hnd' : NoDup (sort_stable Nat.ltb x)).
    { eapply Permutation_NoDup; [symmetry; apply sort_perm|assumption]. }
    revert Ho Hnd'. generalize (sort_stable Nat.ltb x). clear. intros l Ho. induction Ho as [|y l Hl IH Hy]; intros Hnd.
    + constructor.
    + inv Hnd. constructor; [auto|]. rewrite Forall_forall in *. intros z Hz. specialize (Hy z Hz). 
      assert (y <> z) by (intros ->; auto). lia.
  - intros p Hx. apply Hin. eapply Permutation_in; [apply sort_perm|exact Hx].
Qed.

Lemma xo_points_ok k n g : k <= n - 1 -> exists pts g', xo_points k n g = (Ok pts, g').
Proof.
  intros H. unfold xo_points. destruct (sample_ok (seq 1 (n - 1)) k g) as (xs & g' & E); [rewrite seq_length; lia|].
  rewrite (bind_eq_ok _ _ _ _ _ E). unfold ret. eauto.
Qed.

(** Exchanging positions keeps both vectors inside bounds that both satisfy. *)
Lemma mix_in_box bd a b a' b' : position_mix a b a' b' -> in_box bd a -> in_box bd b ->
  in_box bd a' /\ in_box bd b'.
Proof.
  intros (_ & _ & H) Ha Hb. split; intros i x Hx.
  - destruct (H i) as [[H1 _]|[H1 _]]; rewrite H1 in Hx; eauto.
  - destruct (H i) as [[_ H2]|[_ H2]]; rewrite H2 in Hx; eauto.
Qed.

(** ** Bounds check *)

Lemma in_bounds_char b i cells : no_nan cells -> no_nan_bounds b ->
  match b with BCells l => length l <> 2 /\ i + length cells <= length l | _ => True end ->
  exists r, in_bounds_from b i cells = Ok r /\
  (r = true <-> forall j x, nth_error cells j = Some x ->
     exists lo hi, bound_at b (i + j) = Some (lo, hi) /\ nle lo x = true /\ nle x hi = true).
Proof.
  revert i. induction cells as [|c cells IH]; intros i Hc Hb Hl; simpl.
  - exists true. split; [reflexivity|]. split; [|auto]. intros _ j x Hx. destruct j; discriminate.
  - inv Hc. rename H1 into Hc, H2 into Hcs.
    assert (Hstep : forall lo hi, bound_at b i = Some (lo, hi) -> is_nan lo = false -> is_nan hi = false ->
      exists r, (if nlt c lo || nlt hi c then Ok false else in_bounds_from b (S i) cells) = Ok r /\
      (r = true <-> forall j x, nth_error (c :: cells) j = Some x ->
        exists lo hi, bound_at b (i + j) = Some (lo, hi) /\ nle lo x = true /\ nle x hi = true)).
    { intros lo hi Hbd Nlo Nhi.
      destruct (IH (S i) Hcs Hb) as (r & Hr & Hiff).
      { destruct b; auto. simpl in Hl. lia. }
      destruct (nlt c lo || nlt hi c) eqn:E.
      - exists false. split; [reflexivity|]. split; [discriminate|]. intros H.
        destruct (H 0 c eq_refl) as (lo' & hi' & Hbd' & H1 & H2). rewrite Nat.add_0_r, Hbd in Hbd'. inv Hbd'.
        rewrite nle_not_lt in H1, H2 by assumption. apply orb_true_iff in E. destruct E as [E|E]; rewrite E in *; discriminate.
      - apply orb_false_iff in E. destruct E as [E1 E2]. exists r. split; [exact Hr|]. rewrite Hiff. split.
        + intros H [|j] x Hx; simpl in Hx.
          * inv Hx. exists lo, hi. rewrite Nat.add_0_r. split; [exact Hbd|].
            rewrite !nle_not_lt by assumption. rewrite E1, E2. auto.
          * replace (i + S j) with (S i + j) by lia. apply H. assumption.
        + intros H j x Hx. replace (S i + j) with (i + S j) by lia. apply H. assumption. }
    destruct b as [lo hi|l].
    + destruct Hb. apply Hstep; auto.
    + destruct Hl as [Hl2 Hlen]. simpl in Hlen. destruct (Nat.eqb_spec (length l) 2); [contradiction|].
      destruct (nth_error_ex l i) as ((lo & hi) & E); [lia|]. rewrite E.
      assert (is_nan lo = false /\ is_nan hi = false) as [N1 N2].
      { simpl in Hb. rewrite Forall_forall in Hb. apply (Hb (lo, hi)). eapply nth_error_In; eauto. }
      apply Hstep; auto.
Qed.

Lemma check_in_box v : no_nan (v_cells v) -> no_nan_bounds (v_bounds v) ->
  match v_bounds v with BCells l => length l = length (v_cells v) /\ length l <> 2 | _ => True end ->
  exists r, check_if_in_bounds v = Ok r /\ (r = true <-> in_box (v_bounds v) (v_cells v)).
Proof.
  intros Hc Hb Hl. unfold check_if_in_bounds.
  destruct (in_bounds_char (v_bounds v) 0 (v_cells v) Hc Hb) as (r & H1 & H2).
  - destruct (v_bounds v); auto. simpl. lia.
  - exists r. split; [exact H1|]. exact H2.
Qed.

Lemma check_length_two v l : v_bounds v = BCells l -> length l = 2 -> v_cells v <> [] ->
  check_if_in_bounds v = Raise TypeError.
Proof.
  intros Hb Hl Hc. unfold check_if_in_bounds. rewrite Hb. destruct (v_cells v); [congruence|]. simpl.
  rewrite Hl. reflexivity.
Qed.

(** ** Parts *)

Lemma part_get v part start : start + length part <= vsize v ->
  let r := replace_vector_part v part start in
  length (fst r) = length part /\ vsize (snd r) = vsize v /\
  get_vector_part (snd r) start (start + length part) = part /\
  (forall i, i < start \/ start + length part <= i ->
     nth_error (v_cells (snd r)) i = nth_error (v_cells v) i) /\
  fst r = get_vector_part v start (start + length part) /\
  snd (replace_vector_part (snd r) (fst r) start) = v /\
  fst (replace_vector_part (snd r) (fst r) start) = part.
Proof.
  unfold vsize, replace_vector_part, get_vector_part. simpl. intros H.
  rewrite !py_slice_nat.
  replace (start + length part - start) with (length part) by lia.
  assert (Lf : length (firstn (length part) (skipn start (v_cells v))) = length part)
    by (rewrite firstn_length, skipn_length; lia).
  assert (Ls : length (firstn start (v_cells v)) = start) by (rewrite firstn_length; lia).
  assert (G : firstn (length part) (skipn start (firstn start (v_cells v) ++ part ++ skipn (start + length part) (v_cells v))) = part).
  { rewrite skipn_app, Ls, Nat.sub_diag, skipn_all2 by lia. simpl.
    rewrite firstn_app, Nat.sub_diag, firstn_all. simpl. apply app_nil_r. }
  split; [exact Lf|]. split; [rewrite !app_length, Ls, skipn_length; lia|]. split; [exact G|].
  split; [|split; [reflexivity|]].
  - intros i [Hi|Hi].
    + rewrite nth_error_app1 by lia. rewrite nth_error_firstn. destruct (Nat.ltb_spec i start); [reflexivity|lia].
    + rewrite nth_error_app2 by lia. rewrite nth_error_app2 by lia. rewrite nth_error_skipn. f_equal. lia.
  - rewrite Lf. replace (start + length part - start) with (length part) by lia. split; [|exact G].
    destruct v as [k b n c]. unfold with_cells. simpl in *. f_equal.
    rewrite firstn_app, Ls, Nat.sub_diag, firstn_firstn, Nat.min_id. simpl. rewrite app_nil_r.
    rewrite skipn_app, Ls. rewrite (skipn_all2 (firstn start c)) by lia. simpl.
    replace (start + length part - start) with (length part) by lia.
    rewrite skipn_app, Nat.sub_diag, skipn_all. simpl.
    rewrite <- (firstn_skipn start c) at 4. f_equal.
    rewrite <- (firstn_skipn (length part) (skipn start c)) at 2. f_equal.
    apply nth_error_ext. intros i. rewrite !nth_error_skipn. f_equal. lia.
Qed.

(** A part that sticks out makes the vector longer than its [length] attribute. *)
Lemma part_overlong v part start : v_length v = vsize v -> start <= vsize v -> vsize v < start + length part ->
  vsize (snd (replace_vector_part v part start)) = start + length part /\
  v_length (snd (replace_vector_part v part start)) < vsize (snd (replace_vector_part v part start)).
Proof.
  unfold vsize, replace_vector_part. simpl. intros Hv Hs H.
  rewrite !app_length, firstn_length, skipn_length. lia.
Qed.

Lemma part_random v part g r g' : replace_vector_part_random v part g = (Ok r, g') ->
  exists i, i + length part <= vsize v /\ r = replace_vector_part v part i.
Proof.
  unfold replace_vector_part_random. destruct (Nat.ltb_spec (vsize v) (length part)); intros Hr; [mstep Hr|].
  mstep Hr. mstep H1. apply randbelow_lt in H0; [|lia]. exists x. split; [lia|reflexivity].
Qed.

Lemma part_random_raises v part g : vsize v < length part ->
  replace_vector_part_random v part g = (Raise ValueError, g).
Proof.
  intros H. unfold replace_vector_part_random. destruct (Nat.ltb_spec (vsize v) (length part)); [reflexivity|lia].
Qed.

Lemma random_part v g p g' : random_vector_part v g = (Ok p, g') ->
  p <> [] /\ exists pre post, v_cells v = pre ++ p ++ post.
Proof.
  unfold random_vector_part, vsize. destruct (Nat.eqb_spec (length (v_cells v)) 0); intros H; [mstep H|].
  mstep H. mstep H1. mstep H2. apply randbelow_lt in H0; [|lia]. apply randbelow_lt in H; [|lia].
  replace (Z.of_nat (x + x0) + 1)%Z with (Z.of_nat (S (x + x0))) by lia. rewrite py_slice_nat.
  replace (S (x + x0) - x) with (S x0) by lia. split.
  - intros E. apply (f_equal (@length _)) in E. rewrite firstn_length, skipn_length in E. cbn [length] in E. lia.
  - exists (firstn x (v_cells v)), (skipn (S x0) (skipn x (v_cells v))).
    rewrite !firstn_skipn. reflexivity.
Qed.

(** ** Random values *)

Lemma num_to_Z_of z : num_to_Z (nof_Z z) = Some z.
Proof. unfold num_to_Z, nof_Z, inject_Z. simpl. rewrite Z.mod_1_r, Z.div_1_r. reflexivity. Qed.

Lemma nle_fin x y : nle (Fin x) (Fin y) = true <-> (x <= y)%Q.
Proof.
  rewrite nle_not_lt by reflexivity. simpl. rewrite negb_true_iff. apply Qlt_b_false.
Qed.

Lemma randint_spec a b g x g' : randint (nof_Z a) (nof_Z b) g = (Ok x, g') ->
  exists z, x = nof_Z z /\ (a <= z <= b)%Z.
Proof.
  unfold randint. rewrite !num_to_Z_of. destruct (Z.ltb_spec b a); intros H'; [mstep H'|].
  mstep H'. mstep H1. eexists. split; [reflexivity|].
  assert (d_n x0 mod Z.to_N (b - a + 1) < Z.to_N (b - a + 1))%N by (apply N.mod_lt; lia). lia.
Qed.

Lemma randint_ok a b g : (a <= b)%Z -> exists x g', randint (nof_Z a) (nof_Z b) g = (Ok x, g').
Proof.
  intros H. unfold randint. rewrite !num_to_Z_of. destruct (Z.ltb_spec b a); [lia|].
  unfold bind, next_draw, ret. eauto.
Qed.

Lemma randint_empty a b g : (b < a)%Z -> randint (nof_Z a) (nof_Z b) g = (Raise ValueError, g).
Proof.
  intros H. unfold randint. rewrite !num_to_Z_of. destruct (Z.ltb_spec b a); [reflexivity|lia].
Qed.

Lemma random_unit_spec g : exists u g', random_unit g = (Ok (Fin u), g') /\ (0 <= u)%Q /\ (u < 1)%Q.
Proof.
  unfold random_unit, bind, next_draw, ret. eexists. eexists. split; [reflexivity|].
  set (m := (d_n (r_py g (r_pyseed g) (r_pypos g)) mod N.pos two53)%N).
  assert (m < N.pos two53)%N by (apply N.mod_lt; discriminate).
  unfold Qle, Qlt. simpl. split; [lia|]. rewrite Z.mul_1_r. unfold two53 in *. lia.
Qed.

Lemma uniform_spec a b g : (a <= b)%Q -> exists x g', uniform (Fin a) (Fin b) g = (Ok (Fin x), g') /\ (a <= x <= b)%Q.
Proof.
  intros H. unfold uniform. destruct (random_unit_spec g) as (u & g' & E & H0 & H1).
  rewrite (bind_eq_ok _ _ _ _ _ E). simpl. unfold ret. eexists. eexists. split; [reflexivity|]. nra.
Qed.

(** A value drawn for cell [i] lies in the bounds of this cell. *)
Lemma random_in_bounds v n i g x g' : proper_bounds (v_bounds v) n ->
  (v_kind v <> KFloat -> integral_bounds (v_bounds v)) ->
  get_random_number_in_bounds v i g = (Ok x, g') ->
  exists lo hi, bound_at (v_bounds v) i = Some (lo, hi) /\ nle lo x = true /\ nle x hi = true /\ is_fin x = true.
Proof.
  intros Hp Hi H. unfold get_random_number_in_bounds in H.
  assert (U : forall lo hi, proper_interval (lo, hi) -> uniform lo hi g = (Ok x, g') ->
              nle lo x = true /\ nle x hi = true /\ is_fin x = true).
  { intros lo hi (a & b & E & Hab) Hu. inv E. destruct (uniform_spec a b g Hab) as (y & g2 & E & Hy).
    rewrite E in Hu. inv Hu. rewrite !nle_fin. simpl. intuition lra. }
  assert (I : forall lo hi, integral lo /\ integral hi -> randint lo hi g = (Ok x, g') ->
              nle lo x = true /\ nle x hi = true /\ is_fin x = true).
  { intros lo hi ((a & ->) & (b & ->)) Hr. apply randint_spec in Hr. destruct Hr as (z & -> & Hz).
    unfold nof_Z. rewrite !nle_fin. rewrite <- !Zle_Qle. simpl. intuition lia. }
  destruct (v_kind v) eqn:K, (v_bounds v) as [lo hi|l] eqn:B; simpl in *.
  - exists lo, hi. split; [reflexivity|]. apply I; [apply Hi; discriminate|assumption].
  - destruct (nth_error l i) as [[lo hi]|] eqn:E; [|mstep H]. exists lo, hi. split; [reflexivity|]. apply I; [|assumption].
    assert (Hl : Forall (fun p => integral (fst p) /\ integral (snd p)) l) by (apply Hi; discriminate).
    rewrite Forall_forall in Hl. apply (Hl (lo, hi)). eapply nth_error_In; eauto.
  - exists lo, hi. split; [reflexivity|]. apply U; assumption.
  - destruct (nth_error l i) as [[lo hi]|] eqn:E; [|mstep H]. exists lo, hi. split; [reflexivity|]. apply U; [|assumption].
    destruct Hp as [_ Hp]. rewrite Forall_forall in Hp. apply Hp. eapply nth_error_In; eauto.
  - exists lo, hi. split; [reflexivity|]. apply I; [apply Hi; discriminate|assumption].
  - destruct (length l <? 2); mstep H.
Qed.

(** Float cells can always be drawn. *)
Lemma random_float_ok v n i g : v_kind v = KFloat -> proper_bounds (v_bounds v) n -> i < n ->
  exists x g', get_random_number_in_bounds v i g = (Ok x, g').
Proof.
  intros K Hp Hi. unfold get_random_number_in_bounds. rewrite K.
  destruct (v_bounds v) as [lo hi|l]; simpl in Hp.
  - destruct Hp as (a & b & E & Hab). inv E. destruct (uniform_spec a b g Hab) as (x & g' & -> & _). eauto.
  - destruct Hp as [Hl Hp]. destruct (nth_error_ex l i) as ((lo & hi) & E); [lia|]. rewrite E.
    rewrite Forall_forall in Hp. destruct (Hp (lo, hi)) as (a & b & E' & Hab); [eapply nth_error_In; eauto|]. inv E'.
    destruct (uniform_spec a b g Hab) as (x & g' & -> & _). eauto.
Qed.

(** ** Setting cells *)

Lemma set_cells_length c pts vals : length (set_cells c pts vals) = length c.
Proof.
  revert c vals. induction pts as [|p pts IH]; intros c [|x vals]; simpl; auto.
  rewrite IH, list_set_length. reflexivity.
Qed.

Lemma set_cells_other c pts vals i : ~ In i pts -> nth_error (set_cells c pts vals) i = nth_error c i.
Proof.
  revert c vals. induction pts as [|p pts IH]; intros c [|x vals] H; simpl in *; auto.
  rewrite IH by tauto. apply nth_list_set_other. tauto.
Qed.

(** Every cell afterwards is an old one or the value drawn for its position. *)
Lemma set_cells_In c pts vals i x : length pts = length vals ->
  nth_error (set_cells c pts vals) i = Some x ->
  nth_error c i = Some x \/ exists j, nth_error pts j = Some i /\ nth_error vals j = Some x.
Proof.
  revert c vals. induction pts as [|p pts IH]; intros c [|y vals] Hl H; simpl in *; try discriminate; auto.
  destruct (IH _ vals ltac:(lia) H) as [H'|(j & H1 & H2)].
  - destruct (Nat.eq_dec p i) as [->|Hne].
    + right. exists 0. simpl. split; [reflexivity|].
      rewrite nth_list_set_same in H'; [assumption|]. apply nth_error_lt in H'. rewrite list_set_length in H'. exact H'.
    + rewrite nth_list_set_other in H' by assumption. auto.
  - right. exists (S j). auto.
Qed.

Lemma set_cells_at c pts vals j i x : NoDup pts -> length pts = length vals -> i < length c ->
  nth_error pts j = Some i -> nth_error vals j = Some x -> nth_error (set_cells c pts vals) i = Some x.
Proof.
  revert c vals j. induction pts as [|p pts IH]; intros c [|y vals] j Hnd Hl Hi Hp Hv; simpl in *; try discriminate;
    destruct j as [|j]; simpl in *; try discriminate.
  - inv Hp. inv Hv. inv Hnd. rewrite set_cells_other by assumption. apply nth_list_set_same. assumption.
  - inv Hnd. eapply IH; eauto. rewrite list_set_length. assumption.
Qed.

Lemma set_cells_differ c pts vals : differ_at_most (length pts) c (set_cells c pts vals).
Proof.
  split; [symmetry; apply set_cells_length|]. exists pts. split; [lia|].
  intros i Hi. symmetry. apply set_cells_other. assumption.
Qed.

Lemma differ_weaken n m c c' : n <= m -> differ_at_most n c c' -> differ_at_most m c c'.
Proof. intros H (L & ps & Hp & H'). split; [exact L|]. exists ps. split; [lia|exact H']. Qed.

Lemma in_box_no_nan b c : in_box b c -> no_nan c.
Proof.
  intros H. apply Forall_forall. intros x Hx. apply In_nth_error in Hx. destruct Hx as (i & Hi).
  destruct (H i x Hi) as (lo & hi & _ & H1 & _). destruct x; auto.
  unfold nle in H1. destruct lo; discriminate.
Qed.

Lemma proper_no_nan b n : proper_bounds b n -> no_nan_bounds b.
Proof.
  destruct b as [lo hi|l]; simpl.
  - intros (x & y & E & _). inv E. auto.
  - intros [_ H]. eapply Forall_impl; [|exact H]. intros p (x & y & -> & _). auto.
Qed.

(** ** The other methods of vectors *)

Lemma set_cell v i x : i < vsize v ->
  exists v', set_cell_value v i x = Ok v' /\ cell_value v' i = Ok x /\ (forall j, j <> i -> cell_value v' j = cell_value v j) /\
    vsize v' = vsize v /\ v_kind v' = v_kind v /\ v_bounds v' = v_bounds v /\ v_length v' = v_length v.
Proof.
  intros H. unfold vsize in H. exists (with_cells v (list_set (v_cells v) i x)). unfold set_cell_value, py_set, cell_value, vsize.
  rewrite (proj2 (Nat.ltb_lt _ _) H). cbn [rbind with_cells v_cells v_kind v_bounds v_length].
  split; [reflexivity|]. split; [rewrite nth_list_set_same by exact H; reflexivity|].
  split; [intros j Hj; rewrite nth_list_set_other by auto; reflexivity|]. split; [apply list_set_length|]. auto.
Qed.

Lemma set_cell_beyond v i x : vsize v <= i -> set_cell_value v i x = Raise IndexError /\ cell_value v i = Raise IndexError.
Proof.
  unfold vsize, set_cell_value, py_set, cell_value. intros H. rewrite (proj2 (Nat.ltb_ge _ _) H), (proj2 (nth_error_None _ _) H). auto.
Qed.

Lemma constructed k b len c :
  (length c = len /\ (forall l, b = BCells l -> length l = len) -> exists v, vector_init k b len (Some c) = Ok v /\
     v_kind v = k /\ v_bounds v = b /\ v_length v = len /\ v_cells v = c) /\
  (length c <> len \/ (exists l, b = BCells l /\ length l <> len) -> vector_init k b len (Some c) = Raise ValueError).
Proof.
  split.
  - intros [<- Hb]. exists (mkVec k b (length c) c). split; [|auto]. unfold vector_init. rewrite Nat.eqb_refl.
    destruct b as [|l]; [reflexivity|]. rewrite (proj2 (Nat.eqb_eq _ _) (Hb l eq_refl)). reflexivity.
  - unfold vector_init. intros [H|(l & -> & H)].
    + rewrite (proj2 (Nat.eqb_neq _ _) H). destruct b; [reflexivity|]. destruct (negb _); reflexivity.
    + rewrite (proj2 (Nat.eqb_neq _ _) H). reflexivity.
Qed.

Lemma refilled v c : fold_left add_cell c (empty_vector v) = set_vector v c /\
  v_length (set_vector v c) = vsize (set_vector v c) /\ v_cells (set_vector v c) = c.
Proof.
  split; [|split; reflexivity].
  assert (G : forall c d, fold_left add_cell c (set_vector v d) = set_vector v (d ++ c)).
  { clear c. induction c as [|x c IH]; intros d; [rewrite app_nil_r; reflexivity|]. cbn [fold_left].
    replace (add_cell (set_vector v d) x) with (set_vector v (d ++ [x])); [rewrite IH, <- app_assoc; reflexivity|].
    unfold add_cell, set_vector. cbn. rewrite app_length. cbn. rewrite Nat.add_1_r. reflexivity. }
  exact (G c []).
Qed.

Lemma other_defaults len : float_default_bounds = BPair (Fin 0) (Fin 1) /\ bit_default_bounds = BPair (Fin 0) (Fin 1) /\
  creatable len float_default_bounds KFloat /\ creatable len bit_default_bounds KBit.
Proof.
  do 2 (split; [reflexivity|]). split; (split; [|split]); try congruence; try (intros _); try (exists (Fin 0), (Fin 1); reflexivity).
  - exists 0%Q, 1%Q. split; [reflexivity|discriminate].
  - exists 0%Q, 1%Q. split; [reflexivity|discriminate].
  - split; [exists 0%Z|exists 1%Z]; reflexivity.
Qed.
