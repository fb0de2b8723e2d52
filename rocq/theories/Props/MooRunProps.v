(** * Properties of whole multi-objective runs (C68). *)
From Coq Require Import Permutation QArith Lia.
From Verif.Spec Require Import WorldSpec FitnessSpec Nsga2Spec EvoSpec.
From Verif.Proofs Require Import MooRunP.
From Verif.Model Require Import Num Fitness Tree World Operators Selection Creators Evolution Nsga2.
Open Scope nat_scope.
Open Scope list_scope.

(** ** C68 *)

(** Survivor selection keeps, for each objective, an individual that is as good in it as any of the pool, if at least
    two individuals per objective are kept. *)
Theorem C68_selection : forall setorder w h v l n,
  measured w h v l -> NoDup l -> any_order setorder ->
  (if n =? 0 then length l / 2 else n) <= length l -> 2 * length h <= (if n =? 0 then length l / 2 else n) ->
  exists d w', nsga2_select setorder l n w = (Ok d, w') /\
    forall o k b, In o l -> nth_error h k = Some b -> exists z, In z d /\ ~ better_score b (Fin (v k o)) (Fin (v k z)).
Proof. exact select_extremes. Qed.
Print Assumptions C68_selection.

(** One generation with the NSGA2Breeder. *)
Theorem C68_generation : forall ev h, gives_objectives ev (length h) -> forall sched, fair sched -> forall so, any_order so ->
  forall a w u a' w' s,
  a_pop a = [s] -> a_method a = ByMap -> (forall o, In o (inds_of s) -> moo_at w h o) ->
  nsga2_generation ev sched so true (a, w) = (Ok u, (a', w')) ->
  a_method a' = ByMap /\ exists s', a_pop a' = [s'] /\ length (inds_of s') = length (inds_of s) /\ NoDup (inds_of s') /\
    (forall o, In o (inds_of s') -> moo_at w' h o) /\
    (2 * length h <= length (inds_of s) -> reached_again ev h w (inds_of s) w' (inds_of s')).
Proof. exact generation_moo. Qed.
Print Assumptions C68_generation.

(** A whole run: the last population against the first one. *)
Theorem C68_run : forall ev h, gives_objectives ev (length h) -> forall sched, fair sched -> forall so, any_order so ->
  forall n a w u a' w', a_method a = ByMap -> moo_population w h (a_pop a) ->
  nsga2_evolve ev sched so true n (a, w) = (Ok u, (a', w')) ->
  exists a1 w1 s s', initialize ev sched n (a, w) = (Ok tt, (a1, w1)) /\ a_pop a1 = [s] /\ a_pop a' = [s'] /\
    length (inds_of s') = length (inds_of s) /\
    (2 * length h <= length (inds_of s) -> reached_again ev h w1 (inds_of s) w' (inds_of s')).
Proof. exact run_moo. Qed.
Print Assumptions C68_run.

(** ** A run *)

(** Minimise the number of ones and the number of zeros. *)
Definition directions : list bool := [false; false].
Definition sum_cells (l : list num) : Q := fold_right (fun x s => match x with Fin q => q + s | _ => s end)%Q 0%Q l.
Definition both (g : genome) : res fval :=
  match g with GVec v => Ok (VList [Fin (sum_cells (v_cells v)); Fin (inject_Z (Z.of_nat (length (v_cells v))) - sum_cells (v_cells v))%Q]) | GTree _ => Raise TypeError end.
Definition bits (l : list Q) : genome := GVec (mkVec KBit (BPair (Fin 0) (Fin 1)) (length l) (map Fin l)).
Definition fresh (l : list Q) (id : Z) : ind :=
  mkInd id 0 (mkFit KNSGA2 VNone false (HL directions) false false (Fin 0) PInf) (-1)%Z [] [] false [] (bits l).
Definition flips : oper := mkOper (OVecMut MBitFlip 1) (Fin 1) 1 5.
Definition in_order (n : nat) : list nat := seq 0 n.
Definition as_is (_ : nat) (l : list nat) : list nat := l.
Definition start (ls : list (list Q)) : world :=
  mkWorld (map (fun l => fresh l 1) ls) 3 (tape (repeat (mkDraw 0 0) 400)).
Definition setup (size m : nat) : algo :=
  mkAlgo [mkSub [] [] [flips] [SelTournament 2 true 1] size (HL directions) 0 (Some (seq 0 size))] m [] 7 7 ByMap true None None None 0 None 0 [].
Definition values_at_end (r : res unit * (algo * world)) : res (list (option (list num))) :=
  match r with
  | (Ok _, (a, w)) => Ok (map (fun o => option_map (fun i => match both (i_genome i) with Ok (VList v) => v | _ => [] end) (at_ w o)) (flat_map inds_of (a_pop a)))
  | (Raise e, _) => Raise e
  end.

(** Four individuals, two objectives: the best values 0 and 1 stay. *)
Definition four : world := start [[0; 0; 0]; [1; 1; 0]; [1; 0; 0]; [0; 1; 0]]%Q.
Example C68_example :
  moo_population four directions (a_pop (setup 4 3)) /\ gives_objectives both (length directions) /\
  fst (nsga2_evolve both in_order as_is true 0 (setup 4 3, four)) = Ok tt /\
  values_at_end (initialize both in_order 0 (setup 4 3, four)) =
    Ok [Some [Fin 0; Fin 3]; Some [Fin 2; Fin 1]; Some [Fin 1; Fin 2]; Some [Fin 1; Fin 2]] /\
  values_at_end (nsga2_evolve both in_order as_is true 0 (setup 4 3, four)) =
    Ok [Some [Fin 2; Fin 1]; Some [Fin 2; Fin 1]; Some [Fin 0; Fin 3]; Some [Fin 0; Fin 3]].
Proof.
  split; [|split; [|vm_compute; repeat split]].
  - eexists. split; [reflexivity|]. cbn. intros o Ho.
    destruct Ho as [<-|[<-|[<-|[<-|[]]]]]; (eexists; split; [reflexivity|split; [reflexivity|left; reflexivity]]).
  - intros [v|t] x H; [|discriminate]. injection H as <-. eexists [_; _]. split; reflexivity.
Qed.

(** Two individuals are too few: the individual without ones is lost. *)
Definition two : world := start [[0]; [1]]%Q.
Theorem C68_small_population_refuted : exists ev h sched so n a w a1 w1 s a' w' s',
  gives_objectives ev (length h) /\ fair sched /\ any_order so /\ a_method a = ByMap /\ moo_population w h (a_pop a) /\
  nsga2_evolve ev sched so true n (a, w) = (Ok tt, (a', w')) /\ initialize ev sched n (a, w) = (Ok tt, (a1, w1)) /\
  a_pop a1 = [s] /\ a_pop a' = [s'] /\ length h <= length (inds_of s) /\ ~ reached_again ev h w1 (inds_of s) w' (inds_of s').
Proof.
  exists both, directions, in_order, as_is, 0, (setup 2 1), two.
  eexists. eexists. eexists. eexists. eexists. eexists.
  split; [intros [v|t] x H; [|discriminate]; injection H as <-; eexists [_; _]; split; reflexivity|].
  split; [intros n; apply Permutation_refl|]. split; [intros r l; reflexivity|]. split; [reflexivity|].
  split; [eexists; split; [reflexivity|]; cbn; intros o [<-|[<-|[]]]; (eexists; split; [reflexivity|split; [reflexivity|left; reflexivity]])|].
  split; [vm_compute; reflexivity|]. split; [vm_compute; reflexivity|]. split; [reflexivity|]. split; [reflexivity|]. split; [cbn; lia|].
  intros R. destruct (R 0 0 false (Fin 0)) as (o & y & Ho & (i & v & Hi & Ev & Hy) & B);
    [cbn; auto|reflexivity|eexists; eexists; split; [reflexivity|split; [reflexivity|reflexivity]]|].
  cbn in Ho. destruct Ho as [<-|[<-|[]]]; injection Hi as <-; vm_compute in Ev; injection Ev as <-; injection Hy as <-; apply B; reflexivity.
Qed.
Print Assumptions C68_small_population_refuted.
