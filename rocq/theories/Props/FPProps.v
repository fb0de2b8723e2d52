(** Properties of fitness proportionate selection: C08. *)
From Coq Require Import QArith Lqa.
From Verif.Model Require Import FP.
From Verif.Spec Require Import WorldSpec FitnessSpec SelSpec FPSpec.
From Verif.Proofs Require Import FPP.
From Verif.Model Require Import FP.
Open Scope Q_scope.

(** ** C08 *)

(** Which scores are accepted: at least one, all non-negative numbers, and finite if higher is better. *)
Theorem C08_accepted : forall ex h xs,
  ((exists ps, fp_probs ex h xs = Ok ps) <-> xs <> [] /\ forall x, In x xs -> usable h x) /\
  (fp_probs ex h xs = Raise ValueError \/ exists ps, fp_probs ex h xs = Ok ps).
Proof. exact fp_accepts. Qed.
Print Assumptions C08_accepted.

(** The probabilities are non-negative and sum to one. *)
Theorem C08_distribution : forall ex h xs ps, exp_like ex -> fp_probs ex h xs = Ok ps -> distribution (length xs) ps.
Proof. exact fp_distribution. Qed.
Print Assumptions C08_distribution.

(** A worse individual never has a larger probability, and equal scores have equal ones. *)
Theorem C08_order : forall ex h xs ps i j x y p q, exp_like ex -> fp_probs ex h xs = Ok ps ->
  nth_error xs i = Some x -> nth_error xs j = Some y -> nth_error ps i = Some p -> nth_error ps j = Some q ->
  ~ better_score h y x -> q <= p.
Proof. exact fp_order. Qed.
Print Assumptions C08_order.

(** A uniform draw [u] from [0,1) picks [i] exactly if it falls into the [i]-th interval, which has the length of
    the [i]-th probability. *)
Theorem C08_interval : forall n ps u i, distribution n ps -> 0 <= u -> u < 1 ->
  cdf_index ps u = i <-> (i < n)%nat /\ total (firstn i ps) <= u /\ u < total (firstn (S i) ps).
Proof. exact pick_interval. Qed.
Print Assumptions C08_interval.

(** The selection appends marked clones of the individuals picked in this way, one per draw. *)
Theorem C08_selection : forall ex h src dest w score, exp_like ex -> src <> [] -> (length dest <= length src)%nat ->
  (forall o, In o src -> scored w o (score o) /\ usable h (score o)) ->
  exists ps us chosen cs w', fp_probs ex h (map score src) = Ok ps /\
    fp_select_exact ex h src dest w = (Ok (dest ++ cs), w') /\
    length us = (length src - length dest)%nat /\ Forall (fun u => 0 <= u /\ u < 1) us /\
    Forall2 (fun u o => exists i, nth_error src i = Some o /\ total (firstn i ps) <= u /\ u < total (firstn (S i) ps)) us chosen /\
    copies "FitnessProportionateSelection" chosen w cs w'.
Proof. exact fp_select_spec. Qed.
Print Assumptions C08_selection.

(** The theorems about breeding use a selection that may pick anyone: whatever this one does, it can do too. *)
Theorem C08_over_approximated : forall ex h src dest w, exp_like ex ->
  exists f, fp_select h src dest (remap f w) =
            (fst (fp_select_exact ex h src dest w), remap f (snd (fp_select_exact ex h src dest w))).
Proof. exact fp_select_approx. Qed.
Print Assumptions C08_over_approximated.

(** The probabilities are not proportional to fitness, nor independent of its scale: of scores 0 and 1 the first is
    never picked, of scores 0 and 2 it is. *)
Theorem C08_proportional_refuted : exists a b : list num,
  (forall ex, fp_probs ex true a = Ok [0; 1]) /\ a = [Fin 0; Fin 1] /\ b = [Fin 0; Fin 2] /\
  forall ex, exp_like ex -> 0 < ex (- (2)) -> exists p q, fp_probs ex true b = Ok [p; q] /\ 0 < p.
Proof.
  exists [Fin 0; Fin 1], [Fin 0; Fin 2]. destruct fp_not_proportional as [A B]. auto.
Qed.
Print Assumptions C08_proportional_refuted.

(** A function with the properties used of the exponential one. *)
Definition ex0 (x : Q) : Q := if Qle_bool 0 x then 1 + x else / (1 - x).

Lemma ex0_exp : exp_like ex0.
Proof.
  unfold exp_like, ex0. split; [|split].
  - intros x. destruct (Qle_bool 0 x) eqn:E; [apply Qle_bool_iff in E; lra|].
    apply Qlt_le_weak, Qinv_lt_0_compat. assert (~ 0 <= x) by (rewrite <- Qle_bool_iff; congruence). lra.
  - intros x y H. destruct (Qle_bool 0 x) eqn:E, (Qle_bool 0 y) eqn:F.
    + lra.
    + apply Qle_bool_iff in E. assert (~ 0 <= y) by (rewrite <- Qle_bool_iff; congruence). lra.
    + apply Qle_bool_iff in F. assert (~ 0 <= x) by (rewrite <- Qle_bool_iff; congruence).
      apply Qle_trans with 1; [|lra]. setoid_replace (/ (1 - x)) with (1 / (1 - x)) by (unfold Qdiv; ring). apply Qle_shift_div_r; lra.
    + assert (~ 0 <= y) by (rewrite <- Qle_bool_iff; congruence). assert (~ 0 <= x) by (rewrite <- Qle_bool_iff; congruence).
      setoid_replace (/ (1 - x)) with (1 / (1 - x)) by (unfold Qdiv; ring). setoid_replace (/ (1 - y)) with (1 / (1 - y)) by (unfold Qdiv; ring).
      apply Qle_shift_div_l; [lra|]. setoid_replace (1 / (1 - x) * (1 - y)) with ((1 - y) / (1 - x)) by (unfold Qdiv; ring).
      apply Qle_shift_div_r; lra.
  - reflexivity.
Qed.

Definition scores3 : list num := [Fin 3; Fin 1; Fin 2].
Definition fp_ind (id : Z) (x : num) : ind :=
  mkInd id 0 (mkFit KSimple (VNum x) true (HB true) true false (Fin 0) PInf) (-1) [] [] false []
        (GVec (mkVec KBit (BPair (Fin 0) (Fin 1)) 1 [Fin 0])).
Definition three (g : rng) : world := mkWorld (map (fun x => fp_ind 1 x) scores3) 5 g.

Example C08_example :
  exp_like ex0 /\ 0 < ex0 (- (2)) /\
  match fp_probs ex0 true scores3 with Ok ps => map Qred ps = [6 # 11; 2 # 11; 3 # 11] | _ => False end /\
  match fp_probs ex0 false [Fin 0; Fin 3; PInf] with Ok ps => map Qred ps = [14 # 29; 8 # 29; 7 # 29] | _ => False end /\
  (forall o, In o [0; 1; 2]%nat -> scored (three (tape [])) o (nth o scores3 NaN) /\ usable true (nth o scores3 NaN)) /\
  let d n := mkDraw n 0 in
  let r := fp_select_exact ex0 true [0; 1; 2]%nat [7]%nat (three (mkRng (fun _ _ => d 0%N) (fun _ k => if Nat.eqb k 0 then d 0%N else d 9007199254740991%N) 0 0 0 0)) in
  fst r = Ok [7; 3; 4]%nat /\ map (fun i => ft_value (i_fit i)) (skipn 3 (w_heap (snd r))) = [VNum (Fin 3); VNum (Fin 2)].
Proof.
  split; [exact ex0_exp|]. split; [reflexivity|]. split; [vm_compute; reflexivity|]. split; [vm_compute; reflexivity|]. split.
  - intros o [<-|[<-|[<-|[]]]]; (split; [eexists; split; [reflexivity|repeat split]|vm_compute; discriminate]).
  - vm_compute. split; reflexivity.
Qed.
