(** * C81: set-ups that cannot work end in a definite exception. *)
From Coq Require Import QArith String.
From Verif.Proofs Require Import ErrorP.
From Verif.Model Require Import Base Num Rng Vector Tree Fitness World Operators Selection Creators Evolution Nsga2 BaseFns.
From Verif.Spec Require Import WorldSpec EvoSpec TreeSpec ErrorSpec.
From Verif.Props Require Import CompleteProps.
Open Scope string_scope.
Open Scope nat_scope.
Open Scope list_scope.

(** Whatever the algorithm does per generation and at the end: a population of several subpopulations (or of none) never
    gets as far as the evaluation of a single individual; with given individuals the exception is ValueError. *)
Theorem C81_one_subpopulation : forall ev sched it fin n a w, length (a_pop a) <> 1 ->
  exists e a' w', evolve_with ev sched it fin n (a, w) = (Raise e, (a', w')) /\ evals (a_trace a') = evals (a_trace a) /\
    published "init" (a_trace a') = published "init" (a_trace a) /\ (Forall (fun s => sp_inds s <> None) (a_pop a) -> e = ValueError).
Proof. exact one_subpopulation. Qed.
Print Assumptions C81_one_subpopulation.

(** The converse of C63: a run that ends normally had one subpopulation, with individuals; if it got beyond the first
    generation, there was a selection method and the size is a multiple of all arities. *)
Theorem C81_needs : forall ev sched n a w a' w', a_trace a = [] -> evolve ev sched n (a, w) = (Ok tt, (a', w')) ->
  exists s l0 ls, a_pop a = [s] /\ evals (a_trace a') = l0 :: ls /\ l0 <> [] /\ (ls <> [] -> ready s).
Proof. exact needs. Qed.
Print Assumptions C81_needs.

(** Without a selection method breeding stops with IndexError and changes nothing. *)
Theorem C81_no_selection : forall s w, sp_sels s = [] -> sp_n_elite s = 0 ->
  (forall op, In op (sp_ops s) -> op_arity op <> 0 /\ Nat.divide (op_arity op) (sp_size s)) ->
  breed [s] w = (Raise IndexError, w).
Proof. exact breed_no_selection. Qed.
Print Assumptions C81_no_selection.

(** The multi-objective breeder needs one too, but finds out after cloning and operating. *)
Theorem C81_no_selection_moo : forall s w r w', sp_sels s = [] -> nsga2_breed_subpop s w = (r, w') ->
  exists e, r = Raise e /\ (sp_ops s = [] -> sp_n_elite s = 0 -> present (inds_of s) w -> e = IndexError).
Proof. exact moo_no_selection. Qed.
Print Assumptions C81_no_selection_moo.

(** Before a run there is no best individual, so nothing can be checked or finished. *)
Theorem C81_too_early : forall a w, a_best_run a = None ->
  should_terminate (a, w) = (Raise AttributeError, (a, w)) /\ finish (a, w) = (Raise AttributeError, (set_alive false a, w)) /\
  nsga2_finish (a, w) = (Raise AttributeError, (a, w)).
Proof. exact too_early. Qed.
Print Assumptions C81_too_early.

(** Individuals with a numeric fitness cannot be compared with individuals that have a list of objectives: elites are
    not taken from such a population, and nothing is cloned. *)
Theorem C81_mixed_keys : forall n rev src dest w o p x l, In o src -> In p src -> keyed w o (VNum x) -> keyed w p (VList l) ->
  (forall q, In q src -> exists v, keyed w q v) -> elitism_select n rev src dest w = (Raise TypeError, w).
Proof. exact mixed_keys. Qed.
Print Assumptions C81_mixed_keys.

(** The only exception of the tree creators is ValueError, whatever the functions, the terminals, the depths and the types
    are (for ramped half-and-half: unless max_depth + 1 = min_depth, where it divides by zero). *)
Theorem C81_tree_creators : forall c n h w e w',
  match c with CVector _ _ _ _ _ => False | CGP _ _ => True | CHalf mn mx _ _ => mx + 1 <> mn end ->
  create_individuals c n h w = (Raise e, w') -> e = ValueError.
Proof. exact tree_creators. Qed.
Print Assumptions C81_tree_creators.

(** A crossover of at least as many points as the vector has cells raises ValueError and changes no genome. *)
Theorem C81_too_many_points : forall op k a rest w va, op_kind op = OKPoint k -> nle (Fin 1) (op_prob op) = true -> present rest w ->
  vec_at w a va -> 1 <= k -> vsize va <= k ->
  exists w', apply_operator op (a :: rest) w = (Raise ValueError, w') /\ same_genomes w w'.
Proof. exact too_many_points. Qed.
Print Assumptions C81_too_many_points.

(** A crossover of one vector alone raises IndexError and changes no genome. *)
Theorem C81_crossover_alone : forall op k a w va, op_kind op = OKPoint k -> nle (Fin 1) (op_prob op) = true -> vec_at w a va -> k < vsize va ->
  exists w', apply_operator op [a] w = (Raise IndexError, w') /\ same_genomes w w'.
Proof. exact crossover_alone. Qed.
Print Assumptions C81_crossover_alone.

(** A mutation of more cells than the vector has raises ValueError and changes no genome (the integer one-point mutation
    always visits all cells). *)
Theorem C81_too_many_cells : forall op m n o rest w v, op_kind op = OVecMut m n -> 1 <= op_attempts op -> nle (Fin 1) (op_prob op) = true ->
  present rest w -> vec_at w o v -> match m with MIntOne _ => False | _ => True end -> vsize v < n ->
  exists w', apply_operator op (o :: rest) w = (Raise ValueError, w') /\ same_genomes w w'.
Proof. exact too_many_cells. Qed.
Print Assumptions C81_too_many_cells.

(** An operator on trees that is given a vector raises AttributeError and changes no genome. *)
Theorem C81_trees_only : forall op o rest w v, for_trees op (S (length rest)) -> 1 <= op_attempts op -> nle (Fin 1) (op_prob op) = true ->
  present rest w -> vec_at w o v -> exists w', apply_operator op (o :: rest) w = (Raise AttributeError, w') /\ same_genomes w w'.
Proof. exact trees_only. Qed.
Print Assumptions C81_trees_only.

Example C81_trees_only_example : exists w v op, for_trees op 1 /\ 1 <= op_attempts op /\ nle (Fin 1) (op_prob op) = true /\ vec_at w 0 v /\
  fst (apply_operator op [0] w) = Raise AttributeError.
Proof.
  exists (mkWorld [mkInd 1 0 (mkFit KSimple (VNum (Fin 1)) true (HB true) false false (Fin 0) PInf) 0 [] [] false [] (GVec (mkVec KFloat (BPair (Fin 0) (Fin 1)) 1 [Fin 0]))] 2 (tape [mkDraw 0 0])).
  exists (mkVec KFloat (BPair (Fin 0) (Fin 1)) 1 [Fin 0]), (mkOper (OSubtreeMut 2 4) (Fin 1) 1 5).
  split; [exact I|]. split; [cbn; repeat constructor|]. split; [reflexivity|]. split; [eexists; split; reflexivity|]. vm_compute. reflexivity.
Qed.

(** The arities are checked before anything else, those of the selection methods first: the first one that does not fit decides. *)
Theorem C81_arities : forall s w good x rest, map sel_arity (sp_sels s) ++ map op_arity (sp_ops s) = good ++ x :: rest ->
  (forall a, In a good -> a <> 0 /\ Nat.divide a (sp_size s)) ->
  (x = 0 -> breed [s] w = (Raise ZeroDivisionError, w)) /\ (x <> 0 -> ~ Nat.divide x (sp_size s) -> breed [s] w = (Raise ValueError, w)).
Proof. exact breed_arities. Qed.
Print Assumptions C81_arities.

(** SimpleBreeder cannot take elites where higher_is_better is a list. *)
Theorem C81_elites_of_objectives : forall s w l, sp_hib s = HL l -> 0 < sp_n_elite s ->
  (forall a, In a (map sel_arity (sp_sels s) ++ map op_arity (sp_ops s)) -> a <> 0 /\ Nat.divide a (sp_size s)) -> breed [s] w = (Raise TypeError, w).
Proof. exact elites_of_objectives. Qed.
Print Assumptions C81_elites_of_objectives.

(** A tournament without replacement of more individuals than there are: ValueError, and nothing is drawn or cloned. *)
Theorem C81_tournament_too_large : forall k sar src dest w, length src < k -> select (SelTournament k false sar) src dest w = (Raise ValueError, w).
Proof. exact tournament_too_large. Qed.
Print Assumptions C81_tournament_too_large.

(** Each of the 53 given functions raises TypeError unless it is given as many arguments as it has parameters. *)
Theorem C81_wrong_arguments : forall us ul usin ucos utan k names f args, In (k, names) parameter_counts -> In (f_name f) names -> length args <> k ->
  base_sem us ul usin ucos utan f args = Raise TypeError.
Proof. exact wrong_arguments. Qed.
Print Assumptions C81_wrong_arguments.

(** ** Examples *)

Definition two_cells (x y : Q) : vec := mkVec KFloat (BPair (Fin 0) (Fin 1)) 2 [Fin x; Fin y].
Definition a_fit (v : fval) : fitness := mkFit KSimple v true (HB true) true false (Fin 0) (Fin 0).
Definition an_ind (id : Z) (v : fval) (x y : Q) : ind := mkInd id 0 (a_fit v) (-1)%Z [] [] false [] (GVec (two_cells x y)).
Definition numbers_and_lists : world :=
  mkWorld [an_ind 1 (VNum (Fin 1)) 0 1; an_ind 2 (VList [Fin 1; Fin 2]) 1 0; an_ind 3 (VNum (Fin 0)) 0 0] 4 (tape [mkDraw 0 (1 # 2)]).

(** Two subpopulations, of which the first could run alone. *)
Example C81_one_subpopulation_example :
  let a := mkAlgo [vec_sub; vec_sub] 2 [] 7 7 ByMap true None None None 0 None 0 [] in
  fst (evolve first_cell in_turn 1 (a, empty_world [mkDraw 0 (1 # 2)])) = Raise ValueError /\
  fst (evolve first_cell in_turn 1 (whole_run vec_sub, empty_world [mkDraw 0 (1 # 2)])) = Ok tt.
Proof. vm_compute. auto. Qed.

(** A run with all three generations evaluated, and its subpopulation. *)
Example C81_needs_example : fst vec_run = Ok tt /\ length (evals (a_trace (fst (snd vec_run)))) = 3 /\ ready vec_sub.
Proof.
  split; [vm_compute; reflexivity|]. split; [vm_compute; reflexivity|]. split; [discriminate|].
  cbn. intros n [<-|[<-|[<-|[]]]]; (split; [discriminate|]); [exists 4|exists 2|exists 4]; reflexivity.
Qed.

Example C81_no_selection_example :
  breed [mkSub [] [] [mkOper (OKPoint 1) (Fin 1) 2 5] [] 2 (HB true) 0 (Some [0; 2])] numbers_and_lists = (Raise IndexError, numbers_and_lists).
Proof.
  apply C81_no_selection; try reflexivity. intros op [<-|[]]. split; [discriminate|]. exists 1. reflexivity.
Qed.

Example C81_moo_example :
  let s := mkSub [] [] [] [] 2 (HB true) 0 (Some [0; 2]) in
  fst (nsga2_breed_subpop s numbers_and_lists) = Raise IndexError /\ length (w_heap (snd (nsga2_breed_subpop s numbers_and_lists))) = 5 /\
  a_best_run (whole_run vec_sub) = None.
Proof. vm_compute. auto. Qed.

Example C81_mixed_keys_example :
  elitism_select 1 true [0; 2; 1] [] numbers_and_lists = (Raise TypeError, numbers_and_lists) /\
  fst (elitism_select 1 true [0; 2] [] numbers_and_lists) = Ok [3].
Proof.
  split; [|vm_compute; reflexivity]. eapply (C81_mixed_keys 1 true [0; 2; 1] [] numbers_and_lists 2 1); cbn; auto.
  - eexists. split; reflexivity.
  - eexists. split; reflexivity.
  - intros q [<-|[<-|[<-|[]]]]; do 2 eexists; split; reflexivity.
Qed.

(** No terminal of type str: a function that needs one cannot be given its argument. *)
Definition no_strings : gp_params := mkGP 1 2 [look] [(TVar "x", flt)] true None (Fin 0) flt false (Fin (1 # 2)).
Example C81_tree_creators_example :
  fst (create_individuals (CGP Full no_strings) 2 (HB true) (empty_world [mkDraw 0 (1 # 2)])) = Raise ValueError /\
  fst (create_individuals (CHalf 1 2 gp_typed gp_typed) 1 (HB true) (empty_world [mkDraw 0 (1 # 2)])) = Raise ValueError.
Proof. vm_compute. auto. Qed.

Example C81_operators_example :
  fst (apply_operator (mkOper (OKPoint 2) (Fin 1) 2 5) [0; 1] numbers_and_lists) = Raise ValueError /\
  fst (apply_operator (mkOper (OKPoint 1) (Fin 1) 1 5) [0] numbers_and_lists) = Raise IndexError /\
  fst (apply_operator (mkOper (OVecMut MUniformN 3) (Fin 1) 1 5) [0] numbers_and_lists) = Raise ValueError /\
  vec_at numbers_and_lists 0 (two_cells 0 1) /\ vsize (two_cells 0 1) = 2.
Proof.
  split; [vm_compute; reflexivity|]. split; [vm_compute; reflexivity|]. split; [vm_compute; reflexivity|]. split; [|reflexivity].
  eexists. split; reflexivity.
Qed.

(** An arity of 3 for two individuals; no arity; elites by a list of flags; a tournament of 3 from 2. *)
Example C81_breeding_example :
  let s ops sel h e := mkSub [] [] ops [sel] 2 h e (Some [0; 2]) in
  let one := SelTournament 2 false 1 in
  breed [s [mkOper (OKPoint 1) (Fin 1) 2 5; mkOper (OKPoint 1) (Fin 1) 3 5] one (HB true) 0] numbers_and_lists = (Raise ValueError, numbers_and_lists) /\
  breed [s [] (SelTournament 2 false 0) (HB true) 0] numbers_and_lists = (Raise ZeroDivisionError, numbers_and_lists) /\
  breed [s [] one (HL [true]) 1] numbers_and_lists = (Raise TypeError, numbers_and_lists) /\
  select (SelTournament 3 false 1) [0; 2] [] numbers_and_lists = (Raise ValueError, numbers_and_lists) /\
  fst (breed [s [mkOper (OKPoint 1) (Fin 1) 2 5] one (HB true) 1] numbers_and_lists) <> Raise ValueError.
Proof.
  cbv zeta. split; [|split; [|split; [|split]]].
  - match goal with |- breed [?s] ?w = _ => apply (proj2 (C81_arities s w [1; 2] 3 [] eq_refl ltac:(intros a [<-|[<-|[]]]; (split; [discriminate|]); [exists 2|exists 1]; reflexivity))) end.
    + discriminate.
    + intros [[|q] Hq]; cbn in Hq; discriminate.
  - match goal with |- breed [?s] ?w = _ => apply (proj1 (C81_arities s w [] 0 [] eq_refl ltac:(intros a []))) end. reflexivity.
  - eapply C81_elites_of_objectives; [reflexivity|cbn; auto|]. cbn. intros a [<-|[]]. split; [discriminate|]. exists 2. reflexivity.
  - apply C81_tournament_too_large. cbn. auto.
  - vm_compute. discriminate.
Qed.

Example C81_wrong_arguments_example :
  In (2, nth 1 (map snd parameter_counts) []) parameter_counts /\ length (flat_map snd parameter_counts) = 53 /\
  base_sem (fun x => x) (fun x => x) (fun x => x) (fun x => x) (fun x => x) (mkFunc 1 "f_add" [None; None] None) [EInt 1] = Raise TypeError /\
  base_sem (fun x => x) (fun x => x) (fun x => x) (fun x => x) (fun x => x) (mkFunc 1 "f_add" [None; None] None) [EInt 1; EInt 2] = Ok (EInt 3).
Proof. split; [right; left; reflexivity|]. vm_compute. auto. Qed.
