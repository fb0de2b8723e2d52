(** What later generations contain when nothing is mutated: C96. *)
From Coq Require Import Permutation QArith Lia.
From Verif.Model Require Import Num Rng Vector Tree World Creators Evolution.
From Verif.Spec Require Import WorldSpec FitnessSpec VectorSpec TreeSpec EvoSpec CompleteSpec ShowSpec MoveSpec InheritSpec.
From Verif.Proofs Require Import CompleteVecP ProgramP InheritP.
From Verif.Props Require Import CompleteProps ChanceProps.
From Verif.Model Require Import Num Rng Vector Tree World Creators Evolution.
Open Scope string_scope.
Open Scope nat_scope.
Open Scope list_scope.

(** ** C96 *)

(** Whatever set of genomes the operators cannot leave: each generation lies in the closure of every earlier one. *)
Theorem C96_closure : forall B D ev sched h s n a w a' w',
  gives_numbers ev -> total_on B ev -> fair sched -> a_trace a = [] -> configured h a w s -> closed_under B w s -> closure B D ->
  (forall S : genome -> Prop, (forall g, S g -> B g) -> Forall (closed_operator (D S)) (sp_ops s)) ->
  evolve ev sched n (a, w) = (Ok tt, (a', w')) -> descends D w' (evals (a_trace a')).
Proof. exact run_descends. Qed.
Print Assumptions C96_closure.

(** With k-point crossover only, a value stands at a place in a generation only if it stands there in every earlier one. *)
Theorem C96_genes : forall k b len ev sched h s n a w,
  gives_numbers ev -> total_on (vectors k b len) ev -> fair sched -> a_trace a = [] -> configured h a w s ->
  Forall (vector_operator k b len) (sp_ops s) -> Forall recombines (sp_ops s) ->
  match sp_inds s with Some l => genomes_in (vectors k b len) l w | None => Forall (vector_creator k b len) (sp_creators s) end ->
  exists a' w', evolve ev sched n (a, w) = (Ok tt, (a', w')) /\
    forall before l after l' j x, evals (a_trace a') = before ++ l :: after -> In l' after -> carried w' l' j x -> carried w' l j x.
Proof. exact genes_inherited. Qed.
Print Assumptions C96_genes.

(** The best individual of the run is put together from the first generation. *)
Theorem C96_best : forall k b len ev sched h s n a w,
  gives_numbers ev -> total_on (vectors k b len) ev -> fair sched -> a_trace a = [] -> configured h a w s ->
  Forall (vector_operator k b len) (sp_ops s) -> Forall recombines (sp_ops s) ->
  match sp_inds s with Some l => genomes_in (vectors k b len) l w | None => Forall (vector_creator k b len) (sp_creators s) end ->
  exists a' w' first rest o v, evolve ev sched n (a, w) = (Ok tt, (a', w')) /\ evals (a_trace a') = first :: rest /\ a_best_run a' = Some o /\ vec_at w' o v /\
    forall j x, nth_error (v_cells v) j = Some x -> carried w' first j x.
Proof. exact best_inherits. Qed.
Print Assumptions C96_best.

(** A generation of equal vectors is followed by the same vectors. *)
Theorem C96_converged : forall k b len ev sched h s n a w c,
  gives_numbers ev -> total_on (vectors k b len) ev -> fair sched -> a_trace a = [] -> configured h a w s ->
  Forall (vector_operator k b len) (sp_ops s) -> Forall recombines (sp_ops s) ->
  match sp_inds s with Some l => genomes_in (vectors k b len) l w | None => Forall (vector_creator k b len) (sp_creators s) end ->
  exists a' w', evolve ev sched n (a, w) = (Ok tt, (a', w')) /\
    forall before l after l', evals (a_trace a') = before ++ l :: after -> In l' after ->
      (forall o, In o l -> vec_at w' o (mkVec k b len c)) -> forall o, In o l' -> exists v, vec_at w' o v /\ v_cells v = c.
Proof. exact converged_stays. Qed.
Print Assumptions C96_converged.

(** With subtree crossover only, a node (a variable, a function or a constant) occurs in a generation only if it occurs in every earlier one. *)
Theorem C96_nodes : forall t0 Q ev sched h s n a w,
  gives_numbers ev -> total_on (trees_of t0 Q) ev -> fair sched -> a_trace a = [] -> configured h a w s ->
  supplied t0 (t_root_type t0) -> typed_terminals t0 (t_root_type t0) -> Forall tree_operator (sp_ops s) -> Forall recombines (sp_ops s) ->
  node_kind t0 (sp_ops s) Q ->
  match sp_inds s with Some l => genomes_in (trees_of t0 Q) l w | None => Forall (tree_creator t0 (sp_size s)) (sp_creators s) end ->
  printable_terminals t0 ->
  exists a' w', evolve ev sched n (a, w) = (Ok tt, (a', w')) /\
    forall before l after l' x, evals (a_trace a') = before ++ l :: after -> In l' after -> occurs w' l' x -> occurs w' l x.
Proof. exact nodes_inherited. Qed.
Print Assumptions C96_nodes.

(** With no operator at all, or operators that change nothing, each generation consists of copies from every earlier one. *)
Theorem C96_copies : forall B ev sched h s n a w,
  gives_numbers ev -> total_on B ev -> fair sched -> a_trace a = [] -> configured h a w s -> closed_under B w s -> (forall g, B g -> printable g) ->
  Forall (fun op => op_kind op = OIdentity) (sp_ops s) ->
  exists a' w', evolve ev sched n (a, w) = (Ok tt, (a', w')) /\
    forall before l after l' o, evals (a_trace a') = before ++ l :: after -> In l' after -> In o l' ->
      exists p i j, In p l /\ at_ w' p = Some i /\ at_ w' o = Some j /\ i_genome j = i_genome i.
Proof. exact copies_only. Qed.
Print Assumptions C96_copies.

(** *** Examples *)

(** The bit vectors of the C95 example, with one-point crossover. *)
Example C96_genes_example :
  gives_numbers first_bit /\ total_on (vectors KBit bits 3) first_bit /\ fair in_turn /\ configured true (two_generations bit_sub) nothing bit_sub /\
  Forall (vector_operator KBit bits 3) (sp_ops bit_sub) /\ Forall recombines (sp_ops bit_sub) /\ Forall (vector_creator KBit bits 3) (sp_creators bit_sub).
Proof.
  destruct (first_bit_total (vectors KBit bits 3)) as [H1 H2]. destruct C95_vectors_example as (H3 & H4 & H5 & H6 & _).
  split; [exact H1|]. split; [exact H2|]. split; [exact H3|]. split; [exact H4|]. split; [exact H5|]. split; [repeat constructor|exact H6].
Qed.

(** From 100 and 010 crossover makes 110, but the third bit stays 0; a mutation sets it. *)
Definition bit_op (op : oper) : subpop :=
  mkSub [CVector 3 bits KBit KSimple false] [Fin 1] [op] [SelTournament 1 false 1] 2 (HB true) 0 None.
Definition bit_run (op : oper) (l : list N) := evolve first_bit in_turn 1 (two_generations (bit_op op), with_rng nothing (tape (map (fun n => mkDraw n 0) l))).
Definition rows (r : res unit * (algo * world)) : list (list (list num)) :=
  map (map (fun o => match at_ (snd (snd r)) o with Some i => match i_genome i with GVec v => v_cells v | _ => [] end | None => [] end)) (evals (a_trace (fst (snd r)))).
Example C96_genes_run :
  map (map (map (nlt (Fin 0)))) (rows (bit_run (mkOper (OKPoint 1) (Fin 1) 2 5) [0; 1; 0; 0; 0; 1; 0; 0; 1; 1; 0; 0; 1; 0; 1; 0; 1; 0; 0; 1; 1; 0; 1; 0]%N)) =
    [[[true; false; false]; [false; true; false]]; [[false; false; false]; [true; true; false]]; [[true; false; false]; [false; true; false]]].
Proof. vm_compute. reflexivity. Qed.
Example C96_mutation_run :
  hd [] (tl (map (map (map (nlt (Fin 0)))) (rows (bit_run (mkOper (OVecMut MBitFlip 1) (Fin 1) 1 5) [0; 1; 0; 2; 0; 1; 0]%N)))) =
    [[true; false; true]; [false; false; false]].
Proof. vm_compute. reflexivity. Qed.

(** The typed trees of the C63 example, with subtree crossover only. *)
Definition xo_sub : subpop :=
  mkSub [CHalf 1 2 gp_typed gp_typed] [Fin 1] [mkOper OSubtreeXO (Fin 1) 2 5] [SelTournament 2 true 1] 4 (HB false) 0 None.
Example C96_nodes_example :
  configured false (two_generations xo_sub) nothing xo_sub /\ supplied primitives (t_root_type primitives) /\ typed_terminals primitives (t_root_type primitives) /\
  Forall tree_operator (sp_ops xo_sub) /\ Forall recombines (sp_ops xo_sub) /\ node_kind primitives (sp_ops xo_sub) (program_node primitives) /\
  Forall (tree_creator primitives (sp_size xo_sub)) (sp_creators xo_sub) /\ printable_terminals primitives.
Proof.
  destruct (C63_tree_hypotheses []) as (_ & H1 & H2 & _ & H3 & H4 & H5).
  split; [|split; [exact H1|split; [exact H2|split; [|split; [|split; [|split; [exact H3|exact H4]]]]]]].
  - constructor; try reflexivity; try (cbn; auto with arith; fail).
    + cbn. intros n [<-|[<-|[]]]; (split; [discriminate|]); [exists 4|exists 2]; reflexivity.
    + exists (SelTournament 2 true 1), []. split; [reflexivity|]. cbn. auto with arith.
    + cbn. split; [reflexivity|]. split; [exists 1%Q; split; reflexivity|]. intros c [<-|[]]. repeat split.
  - repeat constructor.
  - repeat constructor.
  - apply program_kind; [exact H1| | |].
    + intros v a [[= <- _]|[[= <- _]|[]]] b x tag [=].
    + intros lo hi [= <- <-]. exists (-1)%Q, 1%Q. split; [reflexivity|]. split; [reflexivity|discriminate].
    + intros op mu sigma [<-|[]] [=].
Qed.
Example C96_nodes_run :
  let r := evolve first_cell in_turn 1 (two_generations xo_sub, empty_world [mkDraw 0 (1 # 2); mkDraw 1 (1 # 4); mkDraw 3 (3 # 4)]) in
  fst r = Ok tt /\ map (@length oid) (evals (a_trace (fst (snd r)))) = [4; 4; 4].
Proof. split; vm_compute; reflexivity. Qed.

(** No operator. *)
Definition idle_sub : subpop := mkSub [CVector 3 bits KBit KSimple false] [Fin 1] [] [SelTournament 2 false 1] 2 (HB true) 1 None.
Example C96_copies_example :
  configured true (two_generations idle_sub) nothing idle_sub /\ Forall (vector_operator KBit bits 3) (sp_ops idle_sub) /\
  closed_under (vectors KBit bits 3) nothing idle_sub /\ Forall (fun op => op_kind op = OIdentity) (sp_ops idle_sub).
Proof.
  destruct C95_vectors_example as (_ & _ & _ & H6 & _). split; [|split; [constructor|split; [|constructor]]].
  - constructor; try reflexivity; try (cbn; auto with arith; fail).
    + cbn. intros n [<-|[]]; (split; [discriminate|]); exists 2; reflexivity.
    + exists (SelTournament 2 false 1), []. split; [reflexivity|]. cbn. auto with arith.
    + cbn. split; [reflexivity|]. split; [exists 1%Q; split; reflexivity|]. intros c [<-|[]]. split; [reflexivity|exact I].
  - split; [constructor|]. cbn [sp_inds idle_sub]. intros c Hc. apply vector_creator_closed. rewrite Forall_forall in H6. auto.
Qed.
