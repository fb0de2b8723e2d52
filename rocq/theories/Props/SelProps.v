(** Properties of selection and breeding: C06, C07, C09, C29, C30, C35. *)
From Coq Require Import Permutation Sorted.
From Verif.Model Require Import Evolution.
From Verif.Spec Require Import WorldSpec FitnessSpec SelSpec.
From Verif.Proofs Require Import BreedP.
Open Scope nat_scope.

(** ** C06 *)

(** Elitism appends clones of the [n] best (or all) source individuals, best first; equal scores keep the source
    order, also with respect to those that were left out. *)
Theorem C06_elitism : forall n rev src dest w score, (forall o, In o src -> scored w o (score o)) ->
  exists chosen rest cs w', elitism_select n rev src dest w = (Ok (dest ++ cs), w') /\
    copies "ElitismSelection" chosen w cs w' /\
    Permutation src (chosen ++ rest) /\ length chosen = Nat.min n (length src) /\
    StronglySorted (fun a b => ~ better_score rev (score b) (score a)) chosen /\
    (forall a b, In a chosen -> In b rest -> ~ better_score rev (score b) (score a)) /\
    (forall o, In o src -> filter (fun p => neq_num (score o) (score p)) (chosen ++ rest) =
                           filter (fun p => neq_num (score o) (score p)) src).
Proof. exact elitism_best. Qed.
Print Assumptions C06_elitism.

Definition with_score (id : Z) (x : num) : ind :=
  mkInd id 0 (mkFit KSimple (VNum x) true (HB true) true false (Fin 0) PInf) (-1) [] [] false []
        (GVec (mkVec KBit (BPair (Fin 0) (Fin 1)) 1 [Fin 0])).
Definition four (g : rng) : world :=
  mkWorld [with_score 1 (Fin 2); with_score 2 (Fin 5); with_score 3 (Fin 5); with_score 4 (Fin 1)] 5 g.
Definition score4 (o : oid) : num := nth o [Fin 2; Fin 5; Fin 5; Fin 1] NaN.

Example C06_example :
  (forall o, In o [0; 1; 2; 3] -> scored (four (tape [])) o (score4 o)) /\
  let r := elitism_select 3 true [0; 1; 2; 3] [] (four (tape [])) in
  fst r = Ok [4; 5; 6] /\ map i_cloned_from (skipn 4 (w_heap (snd r))) = [2; 3; 1]%Z.
Proof.
  split; [|vm_compute; split; reflexivity].
  intros o [<-|[<-|[<-|[<-|[]]]]]; eexists; split; try reflexivity; repeat split.
Qed.

(** ** C07 *)

(** For all draws: one winner per tournament, the first best of its participants. *)
Theorem C07_tournaments : forall size replace a src dest w h score,
  1 <= size -> 1 <= a -> src <> [] -> (replace = false -> size <= length src) ->
  (forall o, In o src -> scored w o (score o) /\ oriented w h o) ->
  exists tours winners cs w', tournament_select size replace a src dest w = (Ok (dest ++ cs), w') /\
    length tours = (length src - length dest) / a /\ Forall (drawn_from replace size src) tours /\
    Forall2 (first_best h score) tours winners /\ copies "TournamentSelection" winners w cs w'.
Proof. exact tournament_spec. Qed.
Print Assumptions C07_tournaments.

(** Without replacement a source smaller than the tournament is rejected before any draw or change. *)
Theorem C07_too_small : forall size a src dest w, length src < size ->
  tournament_select size false a src dest w = (Raise ValueError, w).
Proof. exact tournament_too_small. Qed.
Print Assumptions C07_too_small.

Example C07_example :
  (forall o, In o [0; 1; 2; 3] -> scored (four (tape [])) o (score4 o) /\ oriented (four (tape [])) true o) /\
  let r := tournament_select 3 true 1 [0; 1; 2; 3] [7] (four (tape [mkDraw 0 0; mkDraw 2 0; mkDraw 1 0; mkDraw 3 0; mkDraw 3 0; mkDraw 0 0])) in
  fst r = Ok [7; 4; 5; 6] /\ map i_cloned_from (skipn 4 (w_heap (snd r))) = [3; 1; 1]%Z.
Proof.
  split; [|vm_compute; split; reflexivity].
  intros o [<-|[<-|[<-|[<-|[]]]]]; split; eexists; split; try reflexivity; repeat split.
Qed.

(** ** C09 *)

(** A successful breeding step replaces the individuals by new objects; how many depends on the selection. *)
Theorem C09_size_kept : forall s w s' w', present (inds_of s) w -> breed_subpop s w = (Ok s', w') ->
  exists sel sels, sp_sels s = sel :: sels /\
    let n := length (inds_of s) in let e := Nat.min (sp_n_elite s) n in
    let m := match sel with SelTournament _ _ a => e + (n - e) / a | SelFP _ _ => n end in
    s' = with_inds s (seq (length (w_heap w)) m) /\
    (Nat.divide (sel_arity sel) (n - e) -> match sel with SelTournament _ _ a => e + a * (m - e) = n | SelFP _ _ => True end) /\
    (sel_arity sel = 1 -> m = n) /\
    (forall op, In op (sp_ops s) -> Nat.divide (op_arity op) (sp_size s)).
Proof. exact breed_size. Qed.
Print Assumptions C09_size_kept.

Definition flip1 : oper := mkOper (OVecMut MBitFlip 1) (Fin 1) 1 5.
Definition four_sub (sz e : nat) (a : nat) (ops : list oper) : subpop :=
  mkSub [] [] ops [SelTournament 2 true a] sz (HB true) e (Some [0; 1; 2; 3]).

Example C09_example :
  present (inds_of (four_sub 4 1 1 [flip1])) (four (tape [])) /\
  (exists s', fst (breed_subpop (four_sub 4 1 1 [flip1]) (four (tape []))) = Ok s' /\ inds_of s' = [4; 5; 6; 7]) /\
  (exists s', fst (breed_subpop (four_sub 4 0 2 [flip1]) (four (tape []))) = Ok s' /\ inds_of s' = [4; 5]).
Proof.
  split; [intros o [<-|[<-|[<-|[<-|[]]]]]; eexists; reflexivity|].
  split; eexists; (split; [vm_compute; reflexivity|reflexivity]).
Qed.

(** ** C29 *)

(** An arity that does not divide [population_size] stops the subpopulation's breeding before anything is done. *)
Theorem C29_bad_arity : forall s w,
  (forall a, In a (map sel_arity (sp_sels s) ++ map op_arity (sp_ops s)) -> a <> 0) ->
  (exists a, In a (map sel_arity (sp_sels s) ++ map op_arity (sp_ops s)) /\ ~ Nat.divide a (sp_size s)) ->
  breed_subpop s w = (Raise ValueError, w).
Proof. exact breed_bad_arity. Qed.
Print Assumptions C29_bad_arity.

Theorem C29_zero_arity : forall s w pre post,
  map sel_arity (sp_sels s) ++ map op_arity (sp_ops s) = pre ++ 0 :: post ->
  (forall a, In a pre -> a <> 0 /\ Nat.divide a (sp_size s)) ->
  breed_subpop s w = (Raise ZeroDivisionError, w).
Proof. exact breed_zero_arity. Qed.
Print Assumptions C29_zero_arity.

Definition pair_xo : oper := mkOper (OKPoint 1) (Fin 1) 2 1.
Definition no_arity : oper := mkOper OIdentity (Fin 1) 0 1.
Example C29_example :
  (exists a, In a (map sel_arity (sp_sels (four_sub 5 0 1 [flip1; pair_xo])) ++ map op_arity [flip1; pair_xo]) /\ ~ Nat.divide a 5) /\
  fst (breed_subpop (four_sub 5 0 1 [flip1; pair_xo]) (four (tape []))) = Raise ValueError /\
  map sel_arity (sp_sels (four_sub 4 0 1 [no_arity])) ++ map op_arity [no_arity] = [1] ++ 0 :: [] /\
  fst (breed_subpop (four_sub 4 0 1 [no_arity]) (four (tape []))) = Raise ZeroDivisionError.
Proof.
  split; [|repeat split; vm_compute; reflexivity].
  exists 2. split; [simpl; auto|]. intros [q Hq]. lia.
Qed.

(** ** C30 *)

(** Whatever happens during breeding, including exceptions, no existing individual changes. *)
Theorem C30_old_individuals_untouched : forall pop w, present (flat_map inds_of pop) w ->
  frame (fun _ => False) w (snd (breed pop w)).
Proof. exact breed_all_frame. Qed.
Print Assumptions C30_old_individuals_untouched.

Example C30_example :
  present (flat_map inds_of [four_sub 4 1 1 [flip1; pair_xo]]) (four (tape [])) /\
  firstn 4 (w_heap (snd (breed [four_sub 4 1 1 [flip1; pair_xo]] (four (tape []))))) = w_heap (four (tape [])) /\
  (* here the crossover of one-cell vectors raises, after the mutation was applied *)
  fst (breed [four_sub 4 1 1 [flip1; pair_xo]] (four (tape []))) = Raise ValueError.
Proof.
  split; [intros o [<-|[<-|[<-|[<-|[]]]]]; eexists; reflexivity|]. split; vm_compute; reflexivity.
Qed.

(** ** C35 *)

(** If all operators are the identity, the first individuals of the new generation have the genomes of the best. *)
Theorem C35_kept_without_variation : forall s w s' w' h score,
  (forall op, In op (sp_ops s) -> op_kind op = OIdentity) -> sp_hib s = HB h ->
  (forall o, In o (inds_of s) -> scored w o (score o)) ->
  breed_subpop s w = (Ok s', w') ->
  exists best rest, Permutation (inds_of s) (best ++ rest) /\ length best = Nat.min (sp_n_elite s) (length (inds_of s)) /\
    (forall a b, In a best -> In b rest -> ~ better_score h (score b) (score a)) /\
    Forall2 (fun o c => exists i j, at_ w o = Some i /\ at_ w' c = Some j /\ i_genome j = i_genome i)
            best (firstn (length best) (inds_of s')).
Proof. exact elites_kept. Qed.
Print Assumptions C35_kept_without_variation.

(** In general they are not kept. *)
Definition bits (id : Z) (x : num) (l : list num) : ind :=
  mkInd id 0 (mkFit KSimple (VNum x) true (HB true) false false (Fin 0) PInf) (-1) [] [] false []
        (GVec (mkVec KBit (BPair (Fin 0) (Fin 1)) 3 l)).
Definition ones : world :=
  mkWorld [bits 1 (Fin 3) [Fin 1; Fin 1; Fin 1]; bits 2 (Fin 0) [Fin 0; Fin 0; Fin 0]] 3 (tape []).
Definition ones_sub : subpop := mkSub [] [] [flip1] [SelTournament 2 true 1] 2 (HB true) 1 (Some [0; 1]).

Theorem C35_elites_protected_refuted : exists s w s' w' best,
  sp_n_elite s = 1 /\ breed_subpop s w = (Ok s', w') /\ In best (inds_of s) /\
  (forall o, In o (inds_of s) -> exists a b, scored w best a /\ scored w o b /\ ~ better_score true b a) /\
  (forall c, In c (inds_of s') -> cells_at w' c <> cells_at w best).
Proof.
  exists ones_sub, ones, (with_inds ones_sub [2; 3]), (snd (breed_subpop ones_sub ones)), 0.
  split; [reflexivity|]. split; [vm_compute; reflexivity|]. split; [left; reflexivity|]. split.
  - intros o [<-|[<-|[]]]; exists (Fin 3); [exists (Fin 3)|exists (Fin 0)];
      (split; [eexists; split; [reflexivity|repeat split]|]); (split; [eexists; split; [reflexivity|repeat split]|]); vm_compute; discriminate.
  - intros c [<-|[<-|[]]]; vm_compute; discriminate.
Qed.
Print Assumptions C35_elites_protected_refuted.

Example C35_example :
  (exists s', fst (breed_subpop (four_sub 4 2 1 [mkOper OIdentity (Fin 1) 1 1]) (four (tape []))) = Ok s') /\
  sp_hib (four_sub 4 2 1 [mkOper OIdentity (Fin 1) 1 1]) = HB true /\
  (forall o, In o [0; 1; 2; 3] -> scored (four (tape [])) o (score4 o)).
Proof.
  split; [eexists; vm_compute; reflexivity|]. split; [reflexivity|].
  intros o [<-|[<-|[<-|[<-|[]]]]]; eexists; split; try reflexivity; repeat split.
Qed.
