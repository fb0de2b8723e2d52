(** What a run depends on: C64 and C65. *)
From Coq Require Import Permutation QArith.
From Verif.Model Require Import Evolution Nsga2.
From Verif.Spec Require Import WorldSpec FitnessSpec EvoSpec OrderSpec.
From Verif.Proofs Require Import SchedP OrderP.
From Verif.Model Require Import Evolution Nsga2.
Open Scope string_scope.
Open Scope nat_scope.
Open Scope list_scope.

(** ** C64 *)

(** Two runs of the same algorithm from the same individuals, with fitness functions that agree on all genomes, end in the
    same state after the same events with the same outcome: neither the order in which the tasks complete nor what the
    generators held before the run matters, since the run seeds them. *)
Theorem C64_determined : forall ev1 ev2 s1 s2 n a hp id g1 g2,
  (forall g, ev1 g = ev2 g) -> fair s1 -> fair s2 -> a_method a = ByMap -> r_py g1 = r_py g2 -> r_np g1 = r_np g2 ->
  evolve ev1 s1 n (a, mkWorld hp id g1) = evolve ev2 s2 n (a, mkWorld hp id g2).
Proof. exact run_determined. Qed.
Print Assumptions C64_determined.

Theorem C64_nsga2 : forall ev1 ev2 s1 s2 so b n a w,
  (forall g, ev1 g = ev2 g) -> fair s1 -> fair s2 -> a_method a = ByMap ->
  nsga2_evolve ev1 s1 so b n (a, w) = nsga2_evolve ev2 s2 so b n (a, w).
Proof. exact nsga2_determined. Qed.
Print Assumptions C64_nsga2.

(** ** C65 *)

(** The run uses fitness values only by comparing them: with another fitness function that orders the genomes in the same way,
    or in the opposite way and with the opposite direction of optimisation, everything but the values is the same. *)
Theorem C65_order_only : forall flip ev1 ev2 sched n a w,
  same_ranking flip ev1 ev2 -> by_comparison a -> Forall no_value (w_heap w) ->
  run_alike (evolve ev1 sched n (a, w)) (evolve ev2 sched n (turn_algo flip a, turn_world flip w)).
Proof. exact order_only. Qed.
Print Assumptions C65_order_only.

(** To maximise is to minimise the negated values. *)
Theorem C65_negated : forall ev sched n a w,
  gives_numbers ev -> by_comparison a -> Forall no_value (w_heap w) ->
  run_alike (evolve ev sched n (a, w)) (evolve (negated ev) sched n (turn_algo true a, turn_world true w)).
Proof. exact negated_run. Qed.
Print Assumptions C65_negated.

(** ** A concrete run *)

Definition cell0 (g : genome) : res fval :=
  match g with
  | GVec v => match v_cells v with Fin x :: _ => Ok (VNum (Fin x)) | _ => Ok (VNum (Fin 0)) end
  | GTree t => Ok (VNum (Fin (inject_Z (Z.of_nat (length (t_nodes t))))))
  end.
Definition doubled (g : genome) : res fval :=
  match cell0 g with Ok (VNum x) => Ok (VNum (nadd (nmul (Fin 2) x) (Fin 3))) | r => r end.
Definition backwards (n : nat) : list nat := rev (seq 0 n).
Definition forwards (n : nat) : list nat := seq 0 n.
Definition three : subpop :=
  mkSub [CVector 3 (BPair (Fin (-1)) (Fin 1)) KFloat KSimple false] [Fin 1]
    [mkOper (OKPoint 1) (Fin (1 # 2)) 2 5; mkOper (OVecMut (MGaussOne (Fin 0) (Fin 1)) 1) (Fin 1) 1 5]
    [SelTournament 2 false 1] 4 (HB true) 1 None.
Definition setup (c : list checker) : algo := mkAlgo [three] 2 c 7 7 ByMap true None None None 0 None 0 [].
Definition stop_at_two : list checker := [CkUser (fun calls pop hp best _ => Ok (andb (Nat.eqb calls 2) (Nat.eqb (length (flat_map inds_of pop)) 4), S calls)) 0].
Definition draws : list draw := [mkDraw 0 (1 # 2); mkDraw 1 (1 # 4); mkDraw 3 (3 # 4); mkDraw 2 (1 # 8)].
Definition start : world := mkWorld [] 1 (tape draws).

Example C64_example :
  fair forwards /\ fair backwards /\
  evolve cell0 forwards 1 (setup [], start) = evolve cell0 backwards 1 (setup [], start) /\
  fst (evolve cell0 forwards 1 (setup [], start)) = Ok tt.
Proof.
  split; [intros n; apply Permutation_refl|]. split; [intros n; apply Permutation_sym, Permutation_rev|]. split; vm_compute; reflexivity.
Qed.

Lemma affine x y : nlt (nadd (nmul (Fin 2) (Fin x)) (Fin 3)) (nadd (nmul (Fin 2) (Fin y)) (Fin 3)) = nlt (Fin x) (Fin y).
Proof.
  cbn [nmul nadd nlt]. unfold Qlt_b. f_equal. apply Bool.eq_iff_eq_true. rewrite !Qle_bool_iff.
  rewrite Qplus_le_l, Qmult_le_l by reflexivity. reflexivity.
Qed.

Lemma cell0_fin g v : cell0 g = Ok v -> exists x, v = VNum (Fin x).
Proof. destruct g as [u|t]; cbn; [destruct (v_cells u) as [|[q| | |] c]|]; intros [= <-]; eexists; reflexivity. Qed.

Example C65_hypotheses : gives_numbers cell0 /\ same_ranking false cell0 doubled /\ by_comparison (setup stop_at_two) /\ Forall no_value (w_heap start).
Proof.
  assert (D : forall g, exists x, cell0 g = Ok (VNum (Fin x)) /\ doubled g = Ok (VNum (nadd (nmul (Fin 2) (Fin x)) (Fin 3)))).
  { intros g. destruct (cell0 g) as [v|e] eqn:E.
    - destruct (cell0_fin _ _ E) as [x ->]. exists x. split; [reflexivity|]. unfold doubled. rewrite E. reflexivity.
    - destruct g as [u|t]; cbn in E; [destruct (v_cells u) as [|[q| | |] c]|]; discriminate. }
  split; [|split; [|split]].
  - intros g v H. destruct (cell0_fin _ _ H) as [x ->]. exists (Fin x). split; reflexivity.
  - split.
    + intros g. left. destruct (D g) as (x & -> & ->). do 2 eexists. repeat split; discriminate.
    + intros g h x x' y y' H1 H2 H3 H4. destruct (D g) as (p & E1 & E2), (D h) as (q & E3 & E4).
      rewrite E1 in H1. rewrite E3 in H2. rewrite E2 in H3. rewrite E4 in H4. injection H1 as <-. injection H2 as <-.
      injection H3 as <-. injection H4 as <-. apply affine.
  - split; [reflexivity|]. split.
    2: { constructor; [|constructor]. intros m p q hp hp' best gen F _. f_equal. f_equal. f_equal.
         assert (E : flat_map inds_of p = flat_map inds_of q) by (induction F as [|s t p q Hs F IH]; [reflexivity|]; cbn [flat_map]; rewrite IH, Hs; reflexivity).
         rewrite E. reflexivity. }
    intros s [<-|[]]. split; [exists true; reflexivity|]. split; [repeat constructor|exact I].
  - constructor.
Qed.

(** The values differ, the individuals and the choices do not. *)
Example C65_example :
  let r1 := evolve cell0 forwards 1 (setup stop_at_two, start) in
  let r2 := evolve (negated cell0) forwards 1 (turn_algo true (setup stop_at_two), turn_world true start) in
  fst r1 = Ok tt /\ fst r2 = Ok tt /\ a_best_run (fst (snd r1)) = a_best_run (fst (snd r2)) /\
  map i_genome (w_heap (snd (snd r1))) = map i_genome (w_heap (snd (snd r2))) /\
  map (fun i => ft_value (i_fit i)) (w_heap (snd (snd r1))) <> map (fun i => ft_value (i_fit i)) (w_heap (snd (snd r2))).
Proof. vm_compute. repeat split; intros H; discriminate H. Qed.
