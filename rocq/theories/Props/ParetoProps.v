(** * The Pareto front a multi-objective run reports (C69). *)
From Coq Require Import Permutation QArith Lia.
From Verif.Spec Require Import WorldSpec FitnessSpec Nsga2Spec EvoSpec.
From Verif.Proofs Require Import ParetoRunP.
From Verif.Model Require Import Num Fitness Tree World Operators Selection Creators Evolution Nsga2.
Open Scope nat_scope.
Open Scope list_scope.

(** ** C69 *)

(** Of the survivors, those of the Pareto front are the ones that nobody in the pool dominates; equivalently, that no
    survivor dominates. *)
Theorem C69_selection : forall setorder w h v l n,
  measured w h v l -> NoDup l -> any_order setorder -> (if n =? 0 then length l / 2 else n) <= length l ->
  exists d w', nsga2_select setorder l n w = (Ok d, w') /\ forall x,
    (In x (pareto_front (w_heap w') d) <-> In x d /\ forall y, In y l -> ~ beats h v y x) /\
    (In x (pareto_front (w_heap w') d) <-> In x d /\ forall y, In y d -> ~ beats h v y x).
Proof. exact select_pareto. Qed.
Print Assumptions C69_selection.

(** The Pareto front after a generation: not empty, exactly the members of the population that no member dominates by
    the values of the fitness function, and none of them dominated by a member of the population before. *)
Theorem C69_generation : forall ev h, gives_objectives ev (length h) -> forall sched, fair sched -> forall so, any_order so ->
  forall a w u a' w' s,
  a_pop a = [s] -> a_method a = ByMap -> (forall o, In o (inds_of s) -> moo_at w h o) ->
  nsga2_generation ev sched so true (a, w) = (Ok u, (a', w')) ->
  exists s', a_pop a' = [s'] /\
    (forall x, In x (pareto_front (w_heap w') (inds_of s')) <-> In x (inds_of s') /\ forall y, In y (inds_of s') -> ~ outdoes ev h w' y w' x) /\
    (forall x y, In x (pareto_front (w_heap w') (inds_of s')) -> In y (inds_of s) -> ~ outdoes ev h w y w' x) /\
    (inds_of s <> [] -> pareto_front (w_heap w') (inds_of s') <> []).
Proof. exact generation_pareto. Qed.
Print Assumptions C69_generation.

(** ** Two generations *)

Definition code (l : list num) : nat := fold_left (fun s x => match x with Fin q => 2 * s + (if Qeq_bool q 0 then 0 else 1) | _ => s end) l 0.
Definition by_table (t : list (Q * Q)) (g : genome) : res fval :=
  match g with GVec v => let p := nth (code (v_cells v)) t (0, 0)%Q in Ok (VList [Fin (fst p); Fin (snd p)]) | GTree _ => Raise TypeError end.
Definition scores : genome -> res fval := by_table [(4, 5); (6, 4); (0, 9); (7, 1); (1, 7); (5, 4); (6, 2); (2, 6)]%Q.
Definition both_low : list bool := [false; false].
Definition bits3 (l : list Q) : genome := GVec (mkVec KBit (BPair (Fin 0) (Fin 1)) 3 (map Fin l)).
Definition fresh3 (l : list Q) : ind :=
  mkInd 1 0 (mkFit KNSGA2 VNone false (HL both_low) false false (Fin 0) PInf) (-1)%Z [] [] false [] (bits3 l).
Definition in_order (n : nat) : list nat := seq 0 n.
Definition as_is (_ : nat) (l : list nat) : list nat := l.
Definition flip3 : oper := mkOper (OVecMut MBitFlip 1) (Fin 1) 1 5.
Definition setup (m : nat) : algo :=
  mkAlgo [mkSub [] [] [flip3] [SelTournament 2 true 1] 4 (HL both_low) 0 (Some [0; 1; 2; 3])] m [] 7 7 ByMap true None None None 0 None 0 [].
Definition draws : list N := [2; 0; 2; 2; 1; 2; 1; 0; 2; 1; 0; 0; 1; 0; 1; 0; 2; 2; 2; 1; 0; 1; 2; 0; 2; 1; 2; 1; 2; 1; 2; 2; 1; 0; 0; 2; 1; 1; 0; 0]%N.
Definition early : world :=
  mkWorld (map fresh3 [[0; 1; 1]; [1; 1; 0]; [0; 0; 1]; [0; 1; 0]]%Q) 3 (tape (map (fun n => mkDraw n 0) draws ++ repeat (mkDraw 0 0) 100)).
Definition front_values (r : res unit * (algo * world)) : res (list (option (res fval))) :=
  match r with
  | (Ok _, (a, w)) => Ok (map (fun o => option_map (fun i => scores (i_genome i)) (at_ w o)) (pareto_front (w_heap w) (flat_map inds_of (a_pop a))))
  | (Raise e, _) => Raise e
  end.

(** The fronts after one and two generations, of four individuals with values (7,1), (6,2), (6,4), (0,9). *)
Example C69_example :
  moo_population early both_low (a_pop (setup 1)) /\ gives_objectives scores (length both_low) /\
  front_values (nsga2_evolve scores in_order as_is true 0 (setup 1, early)) =
    Ok [Some (Ok (VList [Fin 7; Fin 1])); Some (Ok (VList [Fin 0; Fin 9])); Some (Ok (VList [Fin 4; Fin 5])); Some (Ok (VList [Fin 2; Fin 6]))] /\
  front_values (nsga2_evolve scores in_order as_is true 0 (setup 2, early)) =
    Ok [Some (Ok (VList [Fin 7; Fin 1])); Some (Ok (VList [Fin 7; Fin 1])); Some (Ok (VList [Fin 0; Fin 9])); Some (Ok (VList [Fin 6; Fin 4]))].
Proof.
  split; [|split; [|vm_compute; repeat split]].
  - eexists. split; [reflexivity|]. cbn. intros o Ho.
    destruct Ho as [<-|[<-|[<-|[<-|[]]]]]; (eexists; split; [reflexivity|split; [reflexivity|left; reflexivity]]).
  - intros [v|t] x H; [|discriminate]. injection H as <-. eexists [_; _]. split; reflexivity.
Qed.

(** Over two generations this can fail: an individual of the Pareto front at the end is dominated by one of the initial
    individuals, which was dropped for lack of room in between. *)
Theorem C69_two_generations_refuted : exists ev h sched so n a w a1 w1 s a' w' s' x y,
  gives_objectives ev (length h) /\ fair sched /\ any_order so /\ a_method a = ByMap /\ moo_population w h (a_pop a) /\
  nsga2_evolve ev sched so true n (a, w) = (Ok tt, (a', w')) /\ initialize ev sched n (a, w) = (Ok tt, (a1, w1)) /\
  a_pop a1 = [s] /\ a_pop a' = [s'] /\ 2 * length h <= length (inds_of s) /\
  In x (pareto_front (w_heap w') (inds_of s')) /\ In y (inds_of s) /\ outdoes ev h w1 y w' x.
Proof.
  exists scores, both_low, in_order, as_is, 0, (setup 2), early.
  eexists. eexists. eexists. eexists. eexists. eexists. eexists. exists 1.
  split; [intros [v|t] x H; [|discriminate]; injection H as <-; eexists [_; _]; split; reflexivity|].
  split; [intros n; apply Permutation_refl|]. split; [intros r l; reflexivity|]. split; [reflexivity|].
  split; [eexists; split; [reflexivity|]; cbn; intros o [<-|[<-|[<-|[<-|[]]]]]; (eexists; split; [reflexivity|split; [reflexivity|left; reflexivity]])|].
  split; [vm_compute; reflexivity|]. split; [vm_compute; reflexivity|]. split; [reflexivity|]. split; [reflexivity|]. split; [cbn; lia|].
  split; [vm_compute; do 3 right; left; reflexivity|]. split; [vm_compute; auto|].
  eexists. eexists. eexists. eexists. split; [reflexivity|]. split; [vm_compute; reflexivity|]. split; [vm_compute; reflexivity|]. split; [vm_compute; reflexivity|].
  split.
  - intros [|[|k]] d x y Hd Hx Hy; simpl in *; try discriminate; try (destruct k; discriminate);
      injection Hd as <-; injection Hx as <-; injection Hy as <-; compute; discriminate.
  - exists 1, false. eexists. eexists. repeat split.
Qed.
Print Assumptions C69_two_generations_refuted.
