(** * C79: in typed genetic programming the root of a tree never changes. *)
From Coq Require Import QArith String.
From Verif.Proofs Require Import RootP.
From Verif.Model Require Import Base Num Rng Tree Fitness World Operators Selection Creators Evolution.
From Verif.Spec Require Import WorldSpec TreeSpec ShowSpec EvoSpec CompleteSpec RootSpec.
From Verif.Props Require Import CompleteProps.
Open Scope string_scope.
Open Scope nat_scope.
Open Scope list_scope.

(** Whatever is drawn, and even if the operator raises: a root with a type stays the same symbol. *)
Theorem C79_operator : forall op inds w r w' o n, tree_operator op -> apply_operator op inds w = (r, w') -> rooted w o n -> has_type n ->
  exists n', rooted w' o n' /\ same_symbol n n'.
Proof. exact root_stays. Qed.
Print Assumptions C79_operator.

(** In a run every individual of every generation has the root of some individual of the first one. *)
Theorem C79_run : forall ev sched n a w a' w' l0 ls, a_trace a = [] ->
  (forall s op, In s (a_pop a) -> In op (sp_ops s) -> tree_operator op) ->
  evolve ev sched n (a, w) = (Ok tt, (a', w')) -> evals (a_trace a') = l0 :: ls ->
  (forall o, In o l0 -> exists n, rooted w' o n /\ has_type n) ->
  forall l o, In l ls -> In o l -> exists n o0 n0, rooted w' o n /\ In o0 l0 /\ rooted w' o0 n0 /\ same_symbol n0 n.
Proof. exact run_roots. Qed.
Print Assumptions C79_run.

(** So a function that is no root at the beginning is never a root. *)
Theorem C79_functions : forall ev sched n a w a' w' l0 ls f, a_trace a = [] ->
  (forall s op, In s (a_pop a) -> In op (sp_ops s) -> tree_operator op) ->
  evolve ev sched n (a, w) = (Ok tt, (a', w')) -> evals (a_trace a') = l0 :: ls ->
  (forall o, In o l0 -> exists n, rooted w' o n /\ has_type n) -> (forall o, In o l0 -> ~ rooted w' o (FNode f)) ->
  forall l o, In l ls -> In o l -> ~ rooted w' o (FNode f).
Proof. exact run_root_functions. Qed.
Print Assumptions C79_functions.

(** With a root type and the conditions of C63 the run completes, and the roots of its programs are those of the first
    generation. *)
Theorem C79_typed_run : forall t0 Q ev sched h s n a w,
  gives_numbers ev -> total_on (trees_of t0 Q) ev -> fair sched -> a_trace a = [] -> configured h a w s ->
  supplied t0 (t_root_type t0) -> typed_terminals t0 (t_root_type t0) -> Forall tree_operator (sp_ops s) -> node_kind t0 (sp_ops s) Q ->
  match sp_inds s with
  | Some l => genomes_in (trees_of t0 Q) l w
  | None => Forall (tree_creator t0 (sp_size s)) (sp_creators s)
  end ->
  printable_terminals t0 -> t_root_type t0 <> None ->
  exists a' w' l0 ls, evolve ev sched n (a, w) = (Ok tt, (a', w')) /\ evals (a_trace a') = l0 :: ls /\ length l0 = sp_size s /\
    forall l o, In l ls -> In o l -> exists n o0 n0, rooted w' o n /\ In o0 l0 /\ rooted w' o0 n0 /\ same_symbol n0 n.
Proof. exact typed_run_roots. Qed.
Print Assumptions C79_typed_run.

(** The typed run of C63 meets the hypotheses; the roots of its three generations: *)
Definition root_names (w : world) (l : list oid) : list string :=
  map (fun o => match nth_error (w_heap w) o with
                | Some i => match i_genome i with GTree t => match t_nodes t with FNode f :: _ => f_name f | _ => "terminal" end | _ => "" end
                | None => "" end) l.
Example C79_run_example :
  t_root_type primitives <> None /\
  map (root_names (snd (snd tree_run))) (evals (a_trace (fst (snd tree_run)))) =
    [["look"; "plus"; "plus"; "plus"]; ["look"; "look"; "look"; "look"]; ["look"; "look"; "look"; "look"]].
Proof. split; [discriminate|vm_compute; reflexivity]. Qed.

Example C79_run_hypotheses l : gives_numbers first_cell /\ total_on (trees_of primitives (program_node primitives)) first_cell /\ fair in_turn /\
  configured false (whole_run tree_sub) (empty_world l) tree_sub /\
  supplied primitives (t_root_type primitives) /\ typed_terminals primitives (t_root_type primitives) /\
  Forall tree_operator (sp_ops tree_sub) /\ Forall (tree_creator primitives (sp_size tree_sub)) (sp_creators tree_sub) /\
  printable_terminals primitives /\ node_kind primitives (sp_ops tree_sub) (program_node primitives).
Proof.
  destruct (first_cell_total (trees_of primitives (program_node primitives))) as [N T]. destruct (C63_tree_hypotheses l) as (A & B & C & D & E & F & G).
  repeat (split; [assumption|]). split; [exact (proj1 (C63_vector_hypotheses l))|]. repeat (split; [assumption|]). assumption.
Qed.

(** Without types the root can be replaced, so the property is one of typed trees only. *)
Definition leaf_x : node := TNode (TVar "x") None.
Definition lone : world := mkWorld [mkInd 1 0 (new_fitness KSimple (HB true)) (-1) [] [] false [] (GTree (mkTree [f_plus] [(TVar "x", None)] None None [leaf_x]))] 2
  (tape [mkDraw 0 0; mkDraw 0 0; mkDraw 0 0; mkDraw 0 0; mkDraw 0 0; mkDraw 0 0; mkDraw 0 0; mkDraw 0 0; mkDraw 0 0]).
Example C79_untyped : exists op w l w' o n, tree_operator op /\ apply_operator op l w = (Ok l, w') /\ rooted w o n /\
  forall n', rooted w' o n' -> ~ same_symbol n n'.
Proof.
  exists (mkOper (OSubtreeMut 1 2) (Fin 1) 1 5), lone, [0]. eexists. exists 0, leaf_x. split; [exact I|]. split; [vm_compute; reflexivity|].
  split; [eexists _, _, _; repeat split; reflexivity|].
  intros n' (i & t & l & A & E & N) [->|(b & x & tg & b' & x' & tg' & ty & [=] & _)]. vm_compute in A. injection A as <-. cbn in E. injection E as <-. discriminate.
Qed.
