(** When a run stops: C73. *)
From Coq Require Import Permutation QArith.
From Verif.Model Require Import Evolution Nsga2.
From Verif.Spec Require Import WorldSpec FitnessSpec SelSpec EvoSpec LimitSpec.
From Verif.Proofs Require Import LimitP.
From Verif.Model Require Import Evolution Nsga2.
Open Scope string_scope.
Open Scope nat_scope.
Open Scope list_scope.

(** ** C73 *)

(** max_generation and the termination checkers decide when a run stops, and nothing else: of two runs that differ in these only,
    the one that does not do more is where the other one starts with. *)
Theorem C73_limits : forall ev sched n a w m1 c1 m2 c2 r1 r2, a_trace a = [] ->
  evolve ev sched n (limited m1 c1 a, w) = (Ok tt, r1) -> evolve ev sched n (limited m2 c2 a, w) = (Ok tt, r2) ->
  length (doings (a_trace (fst r1))) <= length (doings (a_trace (fst r2))) -> continues r1 r2.
Proof. exact limits_only. Qed.
Print Assumptions C73_limits.

Theorem C73_limits_moo : forall ev sched so d n a w m1 c1 m2 c2 r1 r2, a_trace a = [] ->
  nsga2_evolve ev sched so d n (limited m1 c1 a, w) = (Ok tt, r1) -> nsga2_evolve ev sched so d n (limited m2 c2 a, w) = (Ok tt, r2) ->
  length (doings (a_trace (fst r1))) <= length (doings (a_trace (fst r2))) -> continues r1 r2.
Proof. exact limits_only_moo. Qed.
Print Assumptions C73_limits_moo.

(** So a longer run still has all individuals of the shorter one, and its result is not worse. *)
Theorem C73_longer : forall ev sched n a w m1 c1 m2 c2 a1 w1 a2 w2 h, gives_numbers ev -> fair sched ->
  a_trace a = [] -> a_method a = ByMap -> scalar_population w h (a_pop a) ->
  evolve ev sched n (limited m1 c1 a, w) = (Ok tt, (a1, w1)) -> evolve ev sched n (limited m2 c2 a, w) = (Ok tt, (a2, w2)) ->
  length (doings (a_trace a1)) <= length (doings (a_trace a2)) ->
  (forall o i, at_ w1 o = Some i -> exists g, at_ w2 o = Some (set_gen g i)) /\
  exists b1 b2 x y, a_best_run a1 = Some b1 /\ a_best_run a2 = Some b2 /\ scored w2 b1 x /\ scored w2 b2 y /\ ~ better_score h x y.
Proof. exact longer_better. Qed.
Print Assumptions C73_longer.

(** ** A concrete run, stopped by a checker after one generation or running for three *)

Definition cell0 (g : genome) : res fval :=
  match g with
  | GVec v => match v_cells v with Fin x :: _ => Ok (VNum (Fin x)) | _ => Ok (VNum (Fin 0)) end
  | GTree t => Ok (VNum (Fin (inject_Z (Z.of_nat (length (t_nodes t))))))
  end.
Definition forwards (n : nat) : list nat := seq 0 n.
Definition four : subpop :=
  mkSub [CVector 3 (BPair (Fin (-1)) (Fin 1)) KFloat KSimple false] [Fin 1]
    [mkOper (OKPoint 1) (Fin (1 # 2)) 2 5; mkOper (OVecMut (MGaussOne (Fin 0) (Fin 1)) 1) (Fin 1) 1 5]
    [SelTournament 2 false 1] 4 (HB true) 1 None.
Definition setup : algo := mkAlgo [four] 0 [] 7 7 ByMap true None None None 0 None 0 [].
Definition draws : list draw := [mkDraw 0 (1 # 2); mkDraw 1 (1 # 4); mkDraw 3 (3 # 4); mkDraw 2 (1 # 8)].
Definition start : world := mkWorld [] 1 (tape draws).
Definition after_one : list checker := [CkUser (fun m _ _ _ g => Ok (Nat.eqb g 1, m)) 0].
Definition run (m : nat) (c : list checker) := evolve cell0 forwards 1 (limited m c setup, start).

Example C73_hypotheses : gives_numbers cell0 /\ fair forwards /\ scalar_population start true (a_pop setup).
Proof.
  split; [|split].
  - intros g v H. destruct g as [u|t]; cbn in H; [destruct (v_cells u) as [|[q| | |] c]|]; injection H as <-; eexists; (split; [reflexivity|reflexivity]).
  - intros n. apply Permutation_refl.
  - exists four. split; [reflexivity|]. split; [reflexivity|]. intros c [<-|[]]. split; [reflexivity|exact I].
Qed.

Example C73_example :
  fst (run 5 after_one) = Ok tt /\ fst (run 3 []) = Ok tt /\
  length (doings (a_trace (fst (snd (run 5 after_one))))) = 5 /\ length (doings (a_trace (fst (snd (run 3 []))))) = 11 /\
  In TBreed (a_trace (fst (snd (run 5 after_one)))) /\
  length (after_generations (a_trace (fst (snd (run 5 after_one))))) = 1 /\ length (after_generations (a_trace (fst (snd (run 3 []))))) = 3.
Proof. vm_compute. repeat split. do 5 right. left. reflexivity. Qed.

(** A multi-objective run, of one or two generations. *)
Definition trade (g : genome) : res fval :=
  match g with
  | GVec v => match v_cells v with Fin x :: Fin y :: _ => Ok (VList [Fin x; Fin y]) | _ => Raise ValueError end
  | GTree _ => Raise TypeError
  end.
Definition any_set (_ : nat) (l : list nat) : list nat := rev l.
Definition moo_sub : subpop :=
  mkSub [CVector 2 (BPair (Fin 0) (Fin 1)) KBit KNSGA2 false] [Fin 1] [mkOper (OKPoint 1) (Fin (1 # 2)) 2 5; mkOper (OVecMut MBitFlip 1) (Fin 1) 1 5]
    [SelTournament 2 false 1] 4 (HL [true; false]) 0 None.
Definition moo_setup : algo := mkAlgo [moo_sub] 0 [] 7 7 ByMap true None None None 0 None 0 [].
Definition moo_run (m : nat) (c : list checker) := nsga2_evolve trade forwards any_set true 1 (limited m c moo_setup, start).

Example C73_moo_example :
  fst (moo_run 5 after_one) = Ok tt /\ fst (moo_run 2 []) = Ok tt /\
  length (doings (a_trace (fst (snd (moo_run 5 after_one))))) = 5 /\ length (doings (a_trace (fst (snd (moo_run 2 []))))) = 8.
Proof. vm_compute. repeat split. Qed.
