(** Properties of multi-objective evolution (NSGA-II): C32, C33, C47-C53, C60, C61. *)
From Coq Require Import Permutation QArith.
From Verif.Model Require Import Nsga2.
From Verif.Spec Require Import WorldSpec FitnessSpec EvoSpec Nsga2Spec.
From Verif.Proofs Require Import TraceP MooCheckP ShrinkP.
From Verif.Model Require Import Num Fitness Tree World Nsga2.
Open Scope nat_scope.

(** Six individuals for the examples; the first objective is maximised, the second one minimised.  Fronts: 0 1 2 4, then 3, then 5. *)
Definition table : list (Q * Q) := [(1, -5); (3, -3); (5, -1); (1, -1); (2, -4); (0, 0)]%Q.
Definition score (k : nat) (o : oid) : Q := match k with 0 => fst (nth o table (0, 0)%Q) | _ => snd (nth o table (0, 0)%Q) end.
Definition dirs : list bool := [true; false].
Definition moo_fit (h : list bool) (v : list num) : fitness := mkFit KNSGA2 (VList v) true (HL h) false false (Fin 0) PInf.
Definition one_bit (x : num) : genome := GVec (mkVec KBit (BPair (Fin 0) (Fin 1)) 1 [x]).
Definition moo_ind (h : list bool) (v : list num) (id : Z) : ind := mkInd id 0 (moo_fit h v) (-1)%Z [] [] false [] (one_bit (Fin 1)).
Definition six : list oid := [0; 1; 2; 3; 4; 5].
Definition moo_world : world := mkWorld (map (fun o => moo_ind dirs (values dirs score o) (Z.of_nat o)) six) 6 (tape []).
Definition reversed (r : nat) (l : list nat) : list nat := rev l.
Definition ranks_in (w : world) (l : list oid) : list (option Num.num) := map (fun o => option_map (fun i => ft_rank (i_fit i)) (at_ w o)) l.
Definition crowds_in (w : world) (l : list oid) : list (option Num.num) :=
  map (fun o => option_map (fun i => match ft_crowding (i_fit i) with Fin q => Fin (Qred q) | x => x end) (at_ w o)) l.

Example is_measured : measured moo_world dirs score six.
Proof.
  intros o H. repeat (destruct H as [<-|H]; [eexists; split; [reflexivity|]; split; try reflexivity; repeat constructor|]). destruct H.
Qed.
Example is_distinct : NoDup six.
Proof. repeat constructor; simpl; intuition discriminate. Qed.
Example is_any_order : any_order reversed.
Proof. intros r l. apply Permutation_sym, Permutation_rev. Qed.

(** ** C47 *)

(** dominate computes Pareto dominance: nowhere worse, somewhere better. *)
Theorem C47_meaning : forall f n g m h a b,
  objectives f h a -> objectives g h b -> exists r, dominate f n g m = Ok r /\ (r = true <-> pareto h a b).
Proof. exact dominate_meaning. Qed.
Print Assumptions C47_meaning.

Theorem C47_irreflexive : forall f n h a, objectives f h a -> dominate f n f n = Ok false.
Proof. exact dominate_irrefl. Qed.
Print Assumptions C47_irreflexive.

Theorem C47_asymmetric : forall f n g m h a b,
  objectives f h a -> objectives g h b -> dominate f n g m = Ok true -> dominate g m f n = Ok false.
Proof. exact dominate_asym. Qed.
Print Assumptions C47_asymmetric.

Theorem C47_transitive : forall f n g m k p h a b c,
  objectives f h a -> objectives g h b -> objectives k h c ->
  dominate f n g m = Ok true -> dominate g m k p = Ok true -> dominate f n k p = Ok true.
Proof. exact dominate_trans. Qed.
Print Assumptions C47_transitive.

(** Other fitness classes, unevaluated fitness, different numbers of objectives, and values that are no lists of objectives
    are errors. *)
Theorem C47_errors : forall f nf g ng, ft_class f = KNSGA2 ->
  (is_simple_class (ft_class g) = true -> dominate f nf g ng = Raise TypeError) /\
  (ft_class g = KNSGA2 -> ft_evaluated f = false \/ ft_evaluated g = false -> dominate f nf g ng = Raise ValueError) /\
  (forall h k a b, objectives f h a -> objectives g k b -> length a <> length b -> dominate f nf g ng = Raise ValueError) /\
  (ft_class g = KNSGA2 -> ft_evaluated f = true -> ft_evaluated g = true ->
     (forall l, ft_value f <> VList l) \/ (forall l, ft_value g <> VList l) -> dominate f nf g ng = Raise TypeError).
Proof. exact dominate_errors. Qed.
Print Assumptions C47_errors.

Example C47_errors_example :
  let f := moo_fit dirs [Fin 3; NInf] in
  dominate f 1 (mkFit KSimple (VNum (Fin 1)) true (HB true) false false (Fin 0) PInf) 1 = Raise TypeError /\
  dominate f 1 (mkFit KNSGA2 (VNum (Fin 1)) true (HB true) false false (Fin 0) PInf) 1 = Raise TypeError /\
  dominate f 1 (set_not_evaluated f) 1 = Raise ValueError /\ dominate f 1 (moo_fit [true] [Fin 3]) 1 = Raise ValueError /\
  objectives (moo_fit [true] [Fin 3]) [true] [Fin 3].
Proof. repeat split; try reflexivity; repeat constructor. Qed.

Example C47_example :
  let f := moo_fit dirs [Fin 3; NInf] in let g := moo_fit dirs [Fin 3; Fin 0] in let k := moo_fit dirs [Fin 2; Fin 0] in
  objectives f dirs [Fin 3; NInf] /\ objectives g dirs [Fin 3; Fin 0] /\ objectives k dirs [Fin 2; Fin 0] /\
  dominate f 1 g 1 = Ok true /\ dominate g 1 k 1 = Ok true /\ dominate f 1 k 1 = Ok true /\ dominate k 1 f 1 = Ok false.
Proof. repeat split; try reflexivity; repeat constructor. Qed.

(** ** C48 *)

(** Each individual is in exactly one front. *)
Theorem C48_partition : forall h v l x, In x l -> exists k, front h v l k x /\ forall j, front h v l j x -> j = k.
Proof.
  exact (fun h v l x H => match every_front h v l x H with
    ex_intro _ k Hk => ex_intro _ k (conj Hk (fun j Hj => front_unique h v l j k x Hj Hk)) end).
Qed.
Print Assumptions C48_partition.

(** The first [m] fronts are processed; front number [k] (from 0) gets rank [k+1]; nothing else changes. *)
Theorem C48_ranks : forall setorder w h v l n,
  measured w h v l -> NoDup l -> any_order setorder -> (if n =? 0 then length l / 2 else n) <= length l ->
  exists d w' m, nsga2_select setorder l n w = (Ok d, w') /\ only_ranked l w w' /\
    (forall k x, k < m -> front h v l k x -> rank_of w' x (rank_number (S k))) /\
    (forall x, left_after h v l m x -> at_ w' x = at_ w x) /\
    (forall k, k < m -> exists x, front h v l k x) /\
    (forall x, In x d -> exists k, k < m /\ front h v l k x) /\
    (forall k, S k = m -> exists x, front h v l k x /\ In x d).
Proof. exact fronts_ranked. Qed.
Print Assumptions C48_ranks.

Example C48_example :
  fst (nsga2_select reversed six 5 moo_world) = Ok [0; 4; 1; 2; 3] /\
  ranks_in (snd (nsga2_select reversed six 5 moo_world)) six =
    [Some (Fin 1); Some (Fin 1); Some (Fin 1); Some (Fin 2); Some (Fin 1); Some PInf].
Proof. vm_compute. repeat split. Qed.

(** ** C49 *)

Theorem C49_survivors : forall setorder w h v l n,
  measured w h v l -> NoDup l -> any_order setorder -> (if n =? 0 then length l / 2 else n) <= length l ->
  exists d w', nsga2_select setorder l n w = (Ok d, w') /\
    length d = (if n =? 0 then length l / 2 else n) /\ NoDup d /\ incl d l /\
    (forall x y, In x l -> ~ In x d -> In y d -> ~ beats h v x y) /\
    (forall j k x y, front h v l j x -> front h v l k y -> In x d -> In y l -> ~ In y d -> j <= k) /\
    (forall k x y, front h v l k x -> front h v l k y -> In x d -> ~ In y d ->
       exists cx cy, crowding_of w' x cx /\ crowding_of w' y cy /\ nlt cx cy = false).
Proof. exact survivors_right. Qed.
Print Assumptions C49_survivors.

(** Asking for more individuals than there are fails. *)
Theorem C49_too_many : forall setorder w h v l n,
  measured w h v l -> NoDup l -> any_order setorder -> length l < n ->
  fst (nsga2_select setorder l n w) = Raise IndexError.
Proof. exact nsga2_select_too_many. Qed.
Print Assumptions C49_too_many.

(** Half of six, and one too many. *)
Example C49_example :
  fst (nsga2_select reversed six 0 moo_world) = Ok [0; 2; 1] /\
  crowds_in (snd (nsga2_select reversed six 0 moo_world)) [2; 0; 1; 4] =
    [Some PInf; Some PInf; Some (Fin (3 # 2)); Some (Fin 1)] /\
  fst (nsga2_select reversed six 7 moo_world) = Raise IndexError.
Proof. vm_compute. repeat split. Qed.

(** ** C50 *)

Theorem C50_crowding : forall setorder w h v l n,
  measured w h v l -> NoDup l -> any_order setorder -> (if n =? 0 then length l / 2 else n) <= length l ->
  exists d w', nsga2_select setorder l n w = (Ok d, w') /\
    forall j y, In y d -> front h v l j y ->
      exists F c, NoDup F /\ (forall x, In x F <-> front h v l j x) /\ (forall x, In x F -> crowding_of w' x (c x)) /\
        crowded (length h) v F c /\
        (forall x, In x F -> c x = PInf \/ exists s, c x = Fin s /\ (0 <= s <= inject_Z (Z.of_nat (length h)))%Q) /\
        (forall k, k < length h ->
           (exists x, In x F /\ c x = PInf /\ forall z, In z F -> (v k x <= v k z)%Q) /\
           (exists x, In x F /\ c x = PInf /\ forall z, In z F -> (v k z <= v k x)%Q)).
Proof. exact crowding_right. Qed.
Print Assumptions C50_crowding.

Example C50_example :
  crowds_in (snd (nsga2_select reversed six 5 moo_world)) six =
    [Some PInf; Some (Fin (3 # 2)); Some PInf; Some PInf; Some (Fin 1); Some (Fin 0)].
Proof. vm_compute. reflexivity. Qed.

(** Infinite objectives spoil the distances: the neighbour of an infinite value gets NaN (infinity divided by infinity),
    even if it has the best value of another objective. *)
Definition far_values (o : oid) : list Num.num :=
  match o with 0 => [Fin 1; Fin 0; Fin 5] | 1 => [Fin 0; Fin 1; Fin 3] | _ => [Fin 2; PInf; Fin 0] end.
Definition far_world : world := mkWorld (map (fun o => moo_ind [false; false; false] (far_values o) (Z.of_nat o)) [0; 1; 2]) 3 (tape []).
Theorem C50_infinite_refuted : exists w d w' a b c,
  nsga2_select reversed [0; 1; 2] 3 w = (Ok d, w') /\ List.In 1 d /\ (exists r, rank_of w' 1 r) /\ crowding_of w' 1 NaN /\
  (exists i, at_ w 0 = Some i /\ objectives (i_fit i) [false; false; false] a) /\
  (exists i, at_ w 1 = Some i /\ objectives (i_fit i) [false; false; false] b) /\
  (exists i, at_ w 2 = Some i /\ objectives (i_fit i) [false; false; false] c) /\
  nlt (nth 0 b NaN) (nth 0 a NaN) = true /\ nlt (nth 0 b NaN) (nth 0 c NaN) = true.
Proof.
  exists far_world. do 2 eexists. exists (far_values 0), (far_values 1), (far_values 2). split; [vm_compute; reflexivity|].
  split; [cbn; auto|]. split; [do 2 eexists; split; reflexivity|]. split; [eexists; split; reflexivity|].
  do 3 (split; [eexists; split; [reflexivity|split; try reflexivity; repeat constructor]|]). split; reflexivity.
Qed.
Print Assumptions C50_infinite_refuted.

(** ** C51 *)

(** The documented order is reversed: of two survivors, the dominated one is "better". *)
Theorem C51_inverted : forall setorder w h v l n,
  measured w h v l -> NoDup l -> any_order setorder -> (if n =? 0 then length l / 2 else n) <= length l ->
  exists d w', nsga2_select setorder l n w = (Ok d, w') /\
    forall x y, In x d -> In y d -> beats h v x y ->
      exists i j, at_ w' x = Some i /\ at_ w' y = Some j /\
        forall r, better_than (i_fit j) (isize j) (i_fit i) (isize i) r = (Ok true, r) /\
                  better_than (i_fit i) (isize i) (i_fit j) (isize j) r = (Ok false, r).
Proof. exact better_inverted. Qed.
Print Assumptions C51_inverted.

(** Higher rank wins; for equal ranks the larger crowding distance. *)
Theorem C51_ranked : forall f nf g ng h a b r,
  objectives f h a -> objectives g h b -> neq_num (ft_rank f) PInf = false ->
  nsga2_better_than f nf g ng r =
    (Ok (if neq_num (ft_rank f) (ft_rank g) then nlt (ft_crowding g) (ft_crowding f) else nlt (ft_rank g) (ft_rank f)), r).
Proof. exact better_ranked. Qed.
Print Assumptions C51_ranked.

(** Without a rank the answer is a coin flip, whatever the objectives. *)
Theorem C51_unranked : forall f nf g ng r,
  ft_class f = KNSGA2 -> ft_rank f = PInf -> better_than f nf g ng r = random_bool r.
Proof. exact better_unranked. Qed.
Print Assumptions C51_unranked.

(** With a rank the same errors as for dominance. *)
Theorem C51_errors : forall f nf g ng r, ft_class f = KNSGA2 -> neq_num (ft_rank f) PInf = false ->
  (is_simple_class (ft_class g) = true -> better_than f nf g ng r = (Raise TypeError, r)) /\
  (ft_class g = KNSGA2 -> ft_evaluated f = false \/ ft_evaluated g = false -> better_than f nf g ng r = (Raise ValueError, r)) /\
  (forall h k a b, objectives f h a -> objectives g k b -> length a <> length b -> better_than f nf g ng r = (Raise ValueError, r)).
Proof. exact better_errors. Qed.
Print Assumptions C51_errors.

(** equal_to holds if neither is better, for ranked fitness ... *)
Theorem C51_equal : forall f nf g ng h a b r, objectives f h a -> objectives g h b ->
  neq_num (ft_rank f) PInf = false -> neq_num (ft_rank g) PInf = false ->
  is_nan (ft_rank f) = false -> is_nan (ft_rank g) = false -> is_nan (ft_crowding f) = false -> is_nan (ft_crowding g) = false ->
  nsga2_equal_to f g = true <->
  (nsga2_better_than f nf g ng r = (Ok false, r) /\ nsga2_better_than g ng f nf r = (Ok false, r)).
Proof. exact equal_ranked. Qed.
Print Assumptions C51_equal.

(** ... and new fitness objects are equal whatever their objectives, even without any. *)
Theorem C51_equal_unranked : forall f g, ft_rank f = PInf -> ft_rank g = PInf -> ft_crowding f = Fin 0 -> ft_crowding g = Fin 0 ->
  nsga2_equal_to f g = true.
Proof. exact equal_unranked. Qed.
Print Assumptions C51_equal_unranked.

Example C51_equal_example :
  let f := with_moo (moo_fit dirs [Fin 3; Fin 0]) (Fin 2) (Fin 1) in let g := with_moo (moo_fit dirs [Fin 4; Fin 1]) (Fin 2) (Fin 1) in
  let k := with_moo (moo_fit dirs [Fin 4; Fin 1]) PInf (Fin 1) in
  objectives f dirs [Fin 3; Fin 0] /\ objectives g dirs [Fin 4; Fin 1] /\ neq_num (ft_rank f) PInf = false /\
  nsga2_equal_to f g = true /\ nsga2_equal_to f k = false /\
  nsga2_equal_to (moo_fit dirs [Fin 3; Fin 0]) (set_not_evaluated (moo_fit dirs [Fin 4; Fin 1])) = true.
Proof. repeat split; try reflexivity; repeat constructor. Qed.

(** Individual 1 dominates individual 3; both survive; 3 is better. *)
Example C51_example :
  let w' := snd (nsga2_select reversed six 5 moo_world) in
  beats dirs score 1 3 /\
  match at_ w' 1, at_ w' 3 with
  | Some i, Some j => fst (better_than (i_fit j) (isize j) (i_fit i) (isize i) (tape [])) = Ok true
  | _, _ => False
  end.
Proof.
  split; [|vm_compute; reflexivity]. split.
  - intros [|[|k]] d x y Hd Hx Hy; simpl in *; try discriminate; try (destruct k; discriminate);
      injection Hd as <-; injection Hx as <-; injection Hy as <-; compute; discriminate.
  - exists 0, true, (Fin 3), (Fin 1). repeat split.
Qed.

(** ** C52 *)

(** Clones of the old individuals, then the old objects, all unevaluated; elites play no role. *)
Theorem C52_doubling : forall s w s' w' size replace a sels,
  present (inds_of s) w -> sp_sels s = SelTournament size replace a :: sels ->
  nsga2_breed_subpop s w = (Ok s', w') ->
  exists cs, s' = with_inds s (cs ++ inds_of s) /\ length cs = length (inds_of s) /\ NoDup cs /\
    (forall c, In c cs -> length (w_heap w) <= c) /\
    Forall2 (fun o c => exists i j, at_ w o = Some i /\ at_ w' c = Some j /\ i_genome j = i_genome i /\ i_cloned_from j = i_id i)
            (inds_of s) cs /\
    (forall o, In o (cs ++ inds_of s) -> unevaluated w' o).
Proof. exact doubling_breed. Qed.
Print Assumptions C52_doubling.

(** With fitness-proportionate selection the breeder never succeeds. *)
Theorem C52_proportionate_fails : forall s w hi a sels,
  sp_sels s = SelFP hi a :: sels -> forall s', fst (nsga2_breed_subpop s w) <> Ok s'.
Proof. exact doubling_fp. Qed.
Print Assumptions C52_proportionate_fails.

(** With an elite count the breeder fails, if the subpopulation has a list of directions. *)
Theorem C52_elitism_fails : forall s w h,
  sp_hib s = HL h -> 0 < sp_n_elite s -> fst (nsga2_breed_subpop s w) = Raise TypeError.
Proof. exact doubling_elites. Qed.
Print Assumptions C52_elitism_fails.

(** One generation keeps the sizes with the NSGA2Breeder, and halves them with the default breeder. *)
Theorem C52_sizes : forall ev sched so doubling a w u a' w',
  (doubling = false -> forall s, In s (a_pop a) -> exists sel sels, sp_sels s = sel :: sels /\ sel_arity sel = 1) ->
  nsga2_generation ev sched so doubling (a, w) = (Ok u, (a', w')) ->
  sizes (a_pop a') = map (fun n => if doubling then n else n / 2) (sizes (a_pop a)).
Proof. exact generation_sizes. Qed.
Print Assumptions C52_sizes.

(** Whole runs with the default breeder: each generation halves the population, rounding down, and no evaluated population is
    empty; so unless a checker stops it first the run fails, if the population is too small for the number of generations. *)
Theorem C52_default_run : forall ev sched so n a w a' w', a_trace a = [] ->
  (forall s, In s (a_pop a) -> exists sel sels, sp_sels s = sel :: sels /\ sel_arity sel = 1) ->
  nsga2_evolve ev sched so false n (a, w) = (Ok tt, (a', w')) ->
  exists size k, map (@length oid) (evals (a_trace a')) = size :: map (fun j => size / 2 ^ j) (seq 0 k) /\ ~ In [] (evals (a_trace a')) /\
    sizes (a_pop a') = [size / 2 ^ k] /\ exists s, a_pop a = [s] /\ size = match sp_inds s with Some l => length l | None => sp_size s end.
Proof. exact default_run. Qed.
Print Assumptions C52_default_run.

Theorem C52_default_fails : forall ev sched so n a w s, a_trace a = [] -> a_checkers a = [] -> a_pop a = [s] ->
  (exists sel sels, sp_sels s = sel :: sels /\ sel_arity sel = 1) ->
  match sp_inds s with Some l => length l | None => sp_size s end < 2 ^ (a_max_gen a - 1) -> 0 < a_max_gen a ->
  fst (nsga2_evolve ev sched so false n (a, w)) <> Ok tt.
Proof. exact default_fails. Qed.
Print Assumptions C52_default_fails.

Definition two_objectives (g : genome) : res fval :=
  match g with GVec v => match v_cells v with [Fin x] => Ok (VList [Fin x; Fin (x + 1)]) | _ => Raise ValueError end | GTree _ => Raise TypeError end.
Definition flip : oper := mkOper (OVecMut MBitFlip 1) (Fin 1) 1 5.
Definition new_ind (x : Num.num) (id : Z) : ind :=
  mkInd id 0 (mkFit KNSGA2 VNone false (HL dirs) false false (Fin 0) PInf) (-1)%Z [] [] false [] (one_bit x).
Definition moo_start : world := mkWorld [new_ind (Fin 0) 1; new_ind (Fin 1) 2] 3 (tape (repeat (mkDraw 0 0) 40)).
Definition moo_pop (n_elite : nat) : subpop := mkSub [] [] [flip] [SelTournament 2 true 1] 2 (HL dirs) n_elite (Some [0; 1]).
Definition moo_algo (m : nat) : algo := mkAlgo [moo_pop 0] m [] 7 7 ByMap true None None None 0 None 0 [].
Definition forwards (n : nat) : list nat := seq 0 n.
Definition moo_run (doubling : bool) (m : nat) := nsga2_evolve two_objectives forwards reversed doubling 0 (moo_algo m, moo_start).

(** Two individuals: kept with one breeder; 2, 1, 0 with the other, and then an error. *)
Example C52_example :
  fst (moo_run true 3) = Ok tt /\ sizes (a_pop (fst (snd (moo_run true 3)))) = [2] /\
  fst (moo_run false 1) = Ok tt /\ sizes (a_pop (fst (snd (moo_run false 1)))) = [1] /\
  fst (moo_run false 2) = Ok tt /\ sizes (a_pop (fst (snd (moo_run false 2)))) = [0] /\
  map (@length oid) (evals (a_trace (fst (snd (moo_run false 2))))) = [2; 2; 1] /\
  fst (moo_run false 3) = Raise IndexError /\
  match nsga2_breed_subpop (moo_pop 0) moo_start with (Ok s, _) => inds_of s = [2; 3; 0; 1] | _ => False end /\
  fst (nsga2_breed_subpop (moo_pop 1) moo_start) = Raise TypeError.
Proof. vm_compute. repeat split. Qed.

(** best_of_run_ of a multi-objective run is the individual object drawn at the start, with later genes: at the last event
    it is not what it was at the first one. *)
Theorem C32_multi_objective_refuted : exists ev sched so n a w a' w' o i j,
  any_order so /\ fair sched /\ a_trace a = [] /\ a_method a = ByMap /\
  nsga2_evolve ev sched so true n (a, w) = (Ok tt, (a', w')) /\ In (o, i) (recorded (a_trace a')) /\
  at_ w' o = Some j /\ i_genome i <> i_genome j /\ ft_value (i_fit i) <> ft_value (i_fit j).
Proof.
  exists two_objectives, forwards, reversed, 0, (moo_algo 1), moo_start. eexists _, _, 0, _, _.
  split; [exact is_any_order|]. split; [intros n; apply Permutation_refl|]. split; [reflexivity|]. split; [reflexivity|].
  split; [vm_compute; reflexivity|]. split; [left; reflexivity|]. split; [reflexivity|]. split; discriminate.
Qed.
Print Assumptions C32_multi_objective_refuted.

(** The generations, checks and events of a multi-objective run are those of a simple one. *)
Theorem C33_multi_objective : forall ev sched so d n a w a' w', a_trace a = [] ->
  nsga2_evolve ev sched so d n (a, w) = (Ok tt, (a', w')) -> well_run a (a_trace a') (a_final a').
Proof. exact nsga2_well_run. Qed.
Print Assumptions C33_multi_objective.

(** ** C53 *)

(** For two objectives the statistics of the survivors succeed and show extreme members of the first and the last front. *)
Theorem C53_two_objectives : forall setorder w h0 h1 v l n,
  measured w [h0; h1] v l -> NoDup l -> any_order setorder -> (if n =? 0 then length l / 2 else n) <= length l ->
  exists d w', nsga2_select setorder l n w = (Ok d, w') /\
    forall ms, reports w' d ms -> d <> [] ->
      exists first k lst count first_front,
        moe_statistics ms = Ok (first, rank_number (S k), lst, count) /\
        (exists y, In y d /\ front [h0; h1] v l k y) /\
        (forall x j, In x d -> front [h0; h1] v l j x -> j <= k) /\
        (forall p, In p first -> exists o, In o d /\ front [h0; h1] v l 0 o /\ crowding_of w' o PInf /\ p = values [h0; h1] v o) /\
        (forall p, In p lst -> exists o, In o d /\ front [h0; h1] v l k o /\ crowding_of w' o PInf /\ p = values [h0; h1] v o) /\
        first <> [] /\ lst <> [] /\
        NoDup first_front /\ (forall x, In x first_front <-> In x d /\ front [h0; h1] v l 0 x) /\ count = length first_front.
Proof. exact report_ok. Qed.
Print Assumptions C53_two_objectives.

(** With three objectives there can be three corners, which the assertion does not allow. *)
Definition three_dirs : list bool := [true; true; true].
Definition cycle (k : nat) (o : oid) : Q := inject_Z (Z.of_nat ((k + o) mod 3)).
Definition three_world : world :=
  mkWorld (map (fun o => moo_ind three_dirs (values three_dirs cycle o) (Z.of_nat o)) [0; 1; 2]) 3 (tape []).

Theorem C53_three_objectives_refuted : exists setorder w h v l n d w' ms,
  length h = 3 /\ measured w h v l /\ NoDup l /\ any_order setorder /\ n = length l /\
  nsga2_select setorder l n w = (Ok d, w') /\ reports w' d ms /\ d <> [] /\ moe_statistics ms = Raise AssertionError.
Proof.
  exists reversed, three_world, three_dirs, cycle, [0; 1; 2], 3. eexists _, _, _.
  split; [reflexivity|]. split.
  { intros o H. repeat (destruct H as [<-|H]; [eexists; split; [reflexivity|]; split; try reflexivity; repeat constructor|]). destruct H. }
  split; [repeat constructor; simpl; intuition discriminate|]. split; [exact is_any_order|]. split; [reflexivity|].
  split; [vm_compute; reflexivity|]. split; [repeat constructor; eexists _, _; repeat split|]. split; [discriminate|]. vm_compute. reflexivity.
Qed.
Print Assumptions C53_three_objectives_refuted.

(** Before the first sorting there are no ranks, and the statistics fail; so they do if a run stops at its first check, where
    after_generation is published for the initial population. *)
Theorem C53_unranked : forall w l ms,
  reports w l ms -> (forall o, In o l -> rank_of w o PInf) -> moe_statistics ms = Raise AssertionError.
Proof. exact report_unranked. Qed.
Print Assumptions C53_unranked.

Example C53_example :
  let w' := snd (nsga2_select reversed six 5 moo_world) in
  match map (fun o => option_map (fun i => (ft_rank (i_fit i), ft_crowding (i_fit i), values dirs score o)) (at_ w' o)) [0; 4; 1; 2; 3] with
  | [Some a; Some b; Some c; Some d; Some e] =>
      moe_statistics [a; b; c; d; e] = Ok ([[Fin 1; Fin (-5)]; [Fin 5; Fin (-1)]], Fin 2, [[Fin 1; Fin (-1)]], 4)
  | _ => False
  end.
Proof. vm_compute. reflexivity. Qed.

(** ** C60 *)

(** The default termination checker of NSGA2Evolution cannot read a list of objectives. *)
Theorem C60_default_checker : forall opt th cs a w b i l,
  a_checkers a = CkThreshold opt th :: cs -> a_best_run a = Some b -> at_ w b = Some i ->
  ft_class (i_fit i) = KNSGA2 -> ft_evaluated (i_fit i) = true -> ft_value (i_fit i) = VList l ->
  fst (should_terminate (a, w)) = Raise TypeError.
Proof. exact threshold_on_lists. Qed.
Print Assumptions C60_default_checker.

(** So a run with it fails. *)
Example C60_example :
  fst (nsga2_evolve two_objectives forwards reversed true 0
    (mkAlgo [moo_pop 0] 3 [CkThreshold (Fin 0) (Fin 0)] 7 7 ByMap true None None None 0 None 0 [], moo_start)) = Raise TypeError.
Proof. vm_compute. reflexivity. Qed.

(** ** C61 *)

(** Stop iff each subpopulation has a finite distance, all of them are below the threshold, and one is positive. *)
Theorem C61_crowding_checker : forall t pops,
  pops <> [] -> (forall cs c, In cs pops -> In c cs -> distance c) ->
  exists b, crowding_terminate t pops = Ok b /\
    (b = true <->
       (forall cs, In cs pops -> exists c, In c cs /\ c <> PInf) /\
       (forall cs c, In cs pops -> In c cs -> c <> PInf -> nlt c t = true) /\
       (exists cs c, In cs pops /\ In c cs /\ c <> PInf /\ neq_num c (Fin 0) = false)).
Proof. exact crowding_check. Qed.
Print Assumptions C61_crowding_checker.

Example C61_example :
  crowding_terminate (Fin (1 # 2)) [[PInf; Fin (1 # 3)]; [Fin 0; Fin (1 # 4)]] = Ok true /\
  crowding_terminate (Fin (1 # 2)) [[PInf; Fin (1 # 3)]; [PInf]] = Ok false /\
  crowding_terminate (Fin (1 # 2)) [[PInf; Fin 0]] = Ok false.
Proof. repeat split. Qed.

(** The checker in a run: it never changes what it has stored. *)
Theorem C61_stops : forall t m a w best,
  a_checkers a = [CkUser (crowding_checker t) m] -> a_best_run a = Some best -> a_pop a <> [] ->
  (forall s o, In s (a_pop a) -> In o (inds_of s) -> exists c, crowded_by w o c /\ distance c) ->
  exists st a', should_terminate (a, w) = (Ok st, (a', w)) /\ a_checkers a' = a_checkers a /\
    (st = true <->
       (forall s, In s (a_pop a) -> exists o c, In o (inds_of s) /\ crowded_by w o c /\ c <> PInf) /\
       (forall s o c, In s (a_pop a) -> In o (inds_of s) -> crowded_by w o c -> c <> PInf -> nlt c t = true) /\
       (exists s o c, In s (a_pop a) /\ In o (inds_of s) /\ crowded_by w o c /\ c <> PInf /\ neq_num c (Fin 0) = false)).
Proof. exact crowding_stops. Qed.
Print Assumptions C61_stops.

Definition apart (c : num) (id : Z) : ind := mkInd id 0 (with_moo (moo_fit dirs [Fin 1; Fin 1]) c (Fin 1)) (-1)%Z [] [] false [] (one_bit (Fin 1)).
Definition packed : world := mkWorld [apart PInf 1; apart (Fin (1 # 4)) 2] 3 (tape []).
Definition watched (t : num) : algo := mkAlgo [moo_pop 0] 3 [CkUser (crowding_checker t) 0] 7 7 ByMap true (Some 0) None None 1 None 0 [].

Example C61_stops_example :
  (forall s o, In s (a_pop (watched (Fin (1 # 2)))) -> In o (inds_of s) -> exists c, crowded_by packed o c /\ distance c) /\
  fst (should_terminate (watched (Fin (1 # 2)), packed)) = Ok true /\ fst (should_terminate (watched (Fin (1 # 4)), packed)) = Ok false.
Proof.
  split; [|split; reflexivity]. intros s o [<-|[]] [<-|[<-|[]]]; eexists; (split; [eexists; repeat split|]); [left; reflexivity|right].
  exists (1 # 4)%Q. split; [reflexivity|discriminate].
Qed.

