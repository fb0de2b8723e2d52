(** Properties of whole runs, from the configuration to the end: C63. *)
From Coq Require Import Permutation QArith.
From Verif.Model Require Import Evolution.
From Verif.Spec Require Import WorldSpec FitnessSpec VectorSpec TreeSpec EvoSpec CompleteSpec ShowSpec.
From Verif.Proofs Require Import ProgramP LeadP.
From Verif.Model Require Import Tree Creators Evolution.
Open Scope string_scope.
Open Scope nat_scope.
Open Scope list_scope.

(** ** C63 *)

(** If the configuration is consistent and creators and operators stay within a class of genomes which the fitness function
    covers, and all of whose members have a textual form, then the run ends without an exception, whatever is drawn and in
    whatever order the tasks complete; each evaluated generation is a full population of that class. *)
Theorem C63_run_completes : forall G ev sched h s n a w,
  gives_numbers ev -> total_on G ev -> fair sched -> a_trace a = [] -> configured h a w s -> closed_under G w s ->
  (forall g, G g -> printable g) ->
  exists a' w', evolve ev sched n (a, w) = (Ok tt, (a', w')) /\
    forall l, In l (evals (a_trace a')) -> length l = sp_size s /\ genomes_in G l w'.
Proof. exact run_completes. Qed.
Print Assumptions C63_run_completes.

(** What the fitness function does on other genomes does not matter. *)
Theorem C63_numbers_where_needed : forall (G : genome -> Prop) ev sched h s n a w,
  (forall g, G g -> exists x, ev g = Ok (VNum x) /\ is_nan x = false) -> fair sched -> a_trace a = [] -> configured h a w s -> closed_under G w s ->
  (forall g, G g -> printable g) ->
  exists a' w', evolve ev sched n (a, w) = (Ok tt, (a', w')) /\
    forall l, In l (evals (a_trace a')) -> length l = sp_size s /\ genomes_in G l w'.
Proof. exact numbers_completes. Qed.
Print Assumptions C63_numbers_where_needed.

(** Vectors of one kind, length and bounds, with the operators for them. *)
Theorem C63_vectors : forall k b len ev sched h s n a w,
  gives_numbers ev -> total_on (vectors k b len) ev -> fair sched -> a_trace a = [] -> configured h a w s ->
  Forall (vector_operator k b len) (sp_ops s) ->
  match sp_inds s with
  | Some l => genomes_in (vectors k b len) l w
  | None => Forall (vector_creator k b len) (sp_creators s)
  end ->
  exists a' w', evolve ev sched n (a, w) = (Ok tt, (a', w')) /\
    forall l, In l (evals (a_trace a')) -> length l = sp_size s /\ genomes_in (vectors k b len) l w'.
Proof. exact vector_run_completes. Qed.
Print Assumptions C63_vectors.

(** Trees over one set of primitives, typed or not, with the tree operators.  The fitness function only has to cover trees
    whose nodes are of a kind [Q] to which the primitives belong, as functions, variables and finite numbers. *)
Theorem C63_trees : forall t0 Q ev sched h s n a w,
  gives_numbers ev -> total_on (trees_of t0 Q) ev -> fair sched -> a_trace a = [] -> configured h a w s ->
  supplied t0 (t_root_type t0) -> typed_terminals t0 (t_root_type t0) -> Forall tree_operator (sp_ops s) -> node_kind t0 (sp_ops s) Q ->
  match sp_inds s with
  | Some l => genomes_in (trees_of t0 Q) l w
  | None => Forall (tree_creator t0 (sp_size s)) (sp_creators s)
  end ->
  printable_terminals t0 ->
  exists a' w', evolve ev sched n (a, w) = (Ok tt, (a', w')) /\
    forall l, In l (evals (a_trace a')) -> length l = sp_size s /\ genomes_in (trees_of t0 Q) l w'.
Proof. exact program_run_completes. Qed.
Print Assumptions C63_trees.

(** With a number among untyped terminals, as the documentation suggests it, every such run does all its generations and
    then raises TypeError. *)
Theorem C63_number_terminals_raise : forall t0 Q ev sched h s n a w k ty,
  gives_numbers ev -> total_on (trees_of t0 Q) ev -> fair sched -> a_trace a = [] -> configured h a w s ->
  supplied t0 (t_root_type t0) -> typed_terminals t0 (t_root_type t0) -> Forall tree_operator (sp_ops s) -> node_kind t0 (sp_ops s) Q ->
  match sp_inds s with
  | Some l => genomes_in (trees_of t0 Q) l w
  | None => Forall (tree_creator t0 (sp_size s)) (sp_creators s)
  end ->
  untyped_terminal (t_tset t0) -> In (k, ty) (t_tset t0) -> (forall x, k <> TVar x) ->
  exists a' w', evolve ev sched n (a, w) = (Raise TypeError, (a', w')) /\
    forall l, In l (evals (a_trace a')) -> length l = sp_size s /\ genomes_in (trees_of t0 Q) l w'.
Proof. exact program_run_numbers. Qed.
Print Assumptions C63_number_terminals_raise.

(** Float vectors of three cells, one-point crossover, Gaussian mutation of one cell, elitism, two generations. *)
Definition unit3 : bounds := BPair (Fin (-1)) (Fin 1).
Definition first_cell (g : genome) : res fval :=
  match g with
  | GVec v => match v_cells v with Fin x :: _ => Ok (VNum (Fin x)) | _ => Ok (VNum (Fin 0)) end
  | GTree t => Ok (VNum (Fin (inject_Z (Z.of_nat (length (t_nodes t))))))
  end.
Definition in_turn (n : nat) : list nat := rev (seq 0 n).
Definition vec_sub : subpop :=
  mkSub [CVector 3 unit3 KFloat KSimple false] [Fin 1] [mkOper (OKPoint 1) (Fin (1 # 2)) 2 5; mkOper (OVecMut (MGaussOne (Fin 0) (Fin 1)) 1) (Fin 1) 1 5]
    [SelTournament 2 false 1] 4 (HB true) 1 None.
Definition whole_run (s : subpop) : algo := mkAlgo [s] 2 [CkThreshold (Fin 9) (Fin 0)] 7 7 ByMap true None None None 0 None 0 [].
Definition empty_world (l : list draw) : world := mkWorld [] 1 (tape l).

Example first_cell_total G : gives_numbers first_cell /\ total_on G first_cell.
Proof.
  split.
  - intros [v|t] x H; cbn in H; [destruct (v_cells v) as [|[q| | |] c]|]; injection H as <-; eexists; split; reflexivity.
  - intros [v|t] _; cbn; [destruct (v_cells v) as [|[q| | |] c]|]; eexists; reflexivity.
Qed.

Example C63_vector_hypotheses l :
  fair in_turn /\ configured true (whole_run vec_sub) (empty_world l) vec_sub /\
  Forall (vector_operator KFloat unit3 3) (sp_ops vec_sub) /\ Forall (vector_creator KFloat unit3 3) (sp_creators vec_sub).
Proof.
  split; [intros n; apply Permutation_sym, Permutation_rev|]. split.
  - constructor; try reflexivity; try (cbn; auto with arith; fail).
    + cbn. intros n [<-|[<-|[<-|[]]]]; (split; [discriminate|]); [exists 4|exists 2|exists 4]; reflexivity.
    + exists (SelTournament 2 false 1), []. split; [reflexivity|]. cbn. auto with arith.
    + cbn. split; [reflexivity|]. split; [exists 1%Q; split; reflexivity|]. intros c [<-|[]]. split; [reflexivity|exact I].
    + repeat constructor.
  - split; [constructor|constructor; [|constructor]].
    + cbn. auto with arith.
    + constructor; [|constructor]. cbn. right. repeat split; auto with arith.
    + cbn. split; [reflexivity|]. split; [reflexivity|]. split; [reflexivity|]. split; [|exact I].
      split; [|split; [congruence|discriminate]]. exists (-1)%Q, 1%Q. split; [reflexivity|discriminate].
Qed.

Definition vec_run := evolve first_cell in_turn 1 (whole_run vec_sub, empty_world [mkDraw 0 (1 # 2); mkDraw 1 (1 # 4); mkDraw 3 (3 # 4)]).
Example C63_vector_example : fst vec_run = Ok tt /\ map (@length oid) (evals (a_trace (fst (snd vec_run)))) = [4; 4; 4].
Proof. split; vm_compute; reflexivity. Qed.

(** Typed trees, made by ramped half-and-half, with crossover, mutation and noise on the constants. *)
Definition flt : option ty := Some TyFloat.
Definition strt : option ty := Some TyStr.
Definition plus2 : func := mkFunc 1 "plus" [flt; flt] flt.
Definition look : func := mkFunc 2 "look" [strt; flt] flt.
Definition tail : func := mkFunc 3 "tail" [strt] strt.
Definition gp_typed : gp_params :=
  mkGP 1 2 [plus2; look; tail] [(TVar "x", flt); (TVar "s", strt)] true (Some (ErcFloat (Fin (-1)) (Fin 1))) (Fin 0) flt false (Fin (1 # 2)).
Definition tree_sub : subpop :=
  mkSub [CHalf 1 2 gp_typed gp_typed] [Fin 1]
    [mkOper OSubtreeXO (Fin 1) 2 5; mkOper (OSubtreeMut 1 2) (Fin 1) 1 5; mkOper (OErc (Fin 0) (Fin 1)) (Fin 1) 1 5]
    [SelTournament 2 true 1] 4 (HB false) 0 None.
Definition primitives : tree := blank_tree gp_typed (g_terms gp_typed).

Example C63_tree_hypotheses l :
  configured false (whole_run tree_sub) (empty_world l) tree_sub /\
  supplied primitives (t_root_type primitives) /\ typed_terminals primitives (t_root_type primitives) /\
  Forall tree_operator (sp_ops tree_sub) /\ Forall (tree_creator primitives (sp_size tree_sub)) (sp_creators tree_sub) /\
  printable_terminals primitives /\ node_kind primitives (sp_ops tree_sub) (program_node primitives).
Proof.
  assert (Hr : forall a, requested primitives flt a -> a = flt \/ a = strt).
  { intros a [->|(f & [<-|[<-|[<-|[]]]] & Ha)]; auto; cbn in Ha; intuition. }
  assert (Su : supplied primitives (t_root_type primitives)).
  { split; [|split; [intros e [= <-]; exact I|]].
    + intros f [<-|[<-|[<-|[]]]]; left; cbn; intros a Ha; destruct Ha as [<-|[<-|Ha]]; try discriminate; try destruct Ha as [<-|[]]; try discriminate; destruct Ha.
    + intros a Ha. destruct (Hr a Ha) as [->| ->].
      * split; [exists plus2; cbn; auto|]. left. exists (TVar "x"). cbn. auto.
      * split; [exists tail; cbn; auto|]. left. exists (TVar "s"). cbn. auto. }
  split; [|split; [exact Su|split; [|split; [|split; [|split]]]]].
  - constructor; try reflexivity; try (cbn; auto with arith; fail).
    + cbn. intros n [<-|[<-|[<-|[<-|[]]]]]; (split; [discriminate|]); [exists 4|exists 2|exists 4|exists 4]; reflexivity.
    + exists (SelTournament 2 true 1), []. split; [reflexivity|]. cbn. auto with arith.
    + cbn. split; [reflexivity|]. split; [exists 1%Q; split; reflexivity|]. intros c [<-|[]]. repeat split.
    + repeat constructor.
  - right. split.
    + intros k a [E|[E|[]]]; injection E as <- <-; (split; [reflexivity|]); intros k b [E|[E|[]]]; injection E as <- <-; cbn; intros H; congruence.
    + intros e [= <-]. split; [intros k a [E|[E|[]]]; injection E as <- <-; reflexivity|].
      intros a Ha Hn. destruct (Hr _ Ha) as [E|E]; injection E as ->; [reflexivity|discriminate].
  - repeat constructor.
  - repeat constructor; cbn; auto with arith.
  - split; [intros [k [[=]|[[=]|[]]]]|discriminate].
  - apply program_kind; [exact Su| | |].
    + intros v a [[= <- _]|[[= <- _]|[]]] b x tag [=].
    + intros lo hi [= <- <-]. exists (-1)%Q, 1%Q. split; [reflexivity|]. split; [reflexivity|discriminate].
    + intros op mu sigma [<-|[<-|[<-|[]]]] [= <- <-]. split; reflexivity.
Qed.

Definition tree_run := evolve first_cell in_turn 1 (whole_run tree_sub, empty_world [mkDraw 0 (1 # 2); mkDraw 1 (1 # 4); mkDraw 3 (3 # 4)]).
Example C63_tree_example : fst tree_run = Ok tt /\ map (@length oid) (evals (a_trace (fst (snd tree_run)))) = [4; 4; 4].
Proof. split; vm_compute; reflexivity. Qed.

(** The terminal set ['x', 'y', 1, -1] of the documentation, untyped. *)
Definition f_plus : func := mkFunc 1 "f_add" [None; None] None.
Definition gp_documented : gp_params :=
  mkGP 1 2 [f_plus] [(TVar "x", None); (TVar "y", None); (TNum false (Fin 1) 1, None); (TNum false (Fin (-1)) 2, None)] false None (Fin 0) None false (Fin (1 # 2)).
Definition documented_sub : subpop :=
  mkSub [CGP Full gp_documented] [Fin 1] [mkOper OSubtreeXO (Fin 1) 2 5; mkOper (OSubtreeMut 1 2) (Fin 1) 1 5]
    [SelTournament 2 true 1] 4 (HB false) 0 None.
Definition documented : tree := blank_tree gp_documented (g_terms gp_documented).

Example C63_number_terminals_hypotheses l :
  configured false (whole_run documented_sub) (empty_world l) documented_sub /\
  supplied documented (t_root_type documented) /\ typed_terminals documented (t_root_type documented) /\
  Forall tree_operator (sp_ops documented_sub) /\ Forall (tree_creator documented (sp_size documented_sub)) (sp_creators documented_sub) /\
  untyped_terminal (t_tset documented) /\ In (TNum false (Fin 1) 1, None) (t_tset documented) /\
  node_kind documented (sp_ops documented_sub) (program_node documented).
Proof.
  assert (Hr : forall a, requested documented None a -> a = None).
  { intros a [->|(f & [<-|[]] & Ha)]; auto; cbn in Ha; intuition. }
  assert (Su : supplied documented (t_root_type documented)).
  { split; [|split; [discriminate|]].
    + intros f [<-|[]]; right; cbn; intuition.
    + intros a Ha. rewrite (Hr a Ha). split; [exists f_plus; cbn; auto|]. left. exists (TVar "x"). cbn. auto. }
  split; [|split; [exact Su|split; [|split; [|split; [|split; [|split]]]]]].
  - constructor; try reflexivity; try (cbn; auto with arith; fail).
    + cbn. intros n [<-|[<-|[<-|[]]]]; (split; [discriminate|]); [exists 4|exists 2|exists 4]; reflexivity.
    + exists (SelTournament 2 true 1), []. split; [reflexivity|]. cbn. auto with arith.
    + cbn. split; [reflexivity|]. split; [exists 1%Q; split; reflexivity|]. intros c [<-|[]]. repeat split.
    + repeat constructor.
  - left. split; [exact Hr|]. cbn. intros k a H. repeat (destruct H as [[= <- <-]|H]; [reflexivity|]). destruct H.
  - repeat constructor.
  - repeat constructor.
  - exists (TVar "x"). cbn. auto.
  - cbn. auto.
  - apply program_kind; [exact Su| |discriminate|].
    + cbn. intros v a H. repeat (destruct H as [[= <- _]|H]; [intros b x tag; try discriminate; intros [= <- <- <-]; reflexivity|]). destruct H.
    + intros op mu sigma [<-|[<-|[]]] [=].
Qed.

Definition documented_run := evolve first_cell in_turn 1 (whole_run documented_sub, empty_world [mkDraw 0 (1 # 2); mkDraw 1 (1 # 4); mkDraw 3 (3 # 4)]).
Example C63_number_terminals_example :
  fst documented_run = Raise TypeError /\ map (@length oid) (evals (a_trace (fst (snd documented_run)))) = [4; 4; 4].
Proof. split; vm_compute; reflexivity. Qed.

(** So the conditions of C63_trees do not suffice without the one on the textual form. *)
Theorem C63_documented_terminals_refuted : exists t0 Q ev sched h s n a w,
  gives_numbers ev /\ total_on (trees_of t0 Q) ev /\ fair sched /\ a_trace a = [] /\ configured h a w s /\
  supplied t0 (t_root_type t0) /\ typed_terminals t0 (t_root_type t0) /\ Forall tree_operator (sp_ops s) /\ node_kind t0 (sp_ops s) Q /\
  sp_inds s = None /\ Forall (tree_creator t0 (sp_size s)) (sp_creators s) /\
  exists a' w', evolve ev sched n (a, w) = (Raise TypeError, (a', w')).
Proof.
  exists documented, (program_node documented), first_cell, in_turn, false, documented_sub, 1, (whole_run documented_sub), (empty_world []).
  destruct (first_cell_total (trees_of documented (program_node documented))) as [N T]. destruct (C63_number_terminals_hypotheses []) as (C & S & Ty & O & Cr & U & I & K).
  split; [exact N|]. split; [exact T|]. split; [apply (C63_vector_hypotheses [])|]. split; [reflexivity|]. split; [exact C|]. split; [exact S|].
  split; [exact Ty|]. split; [exact O|]. split; [exact K|]. split; [reflexivity|]. split; [exact Cr|]. eexists _, _. vm_compute. reflexivity.
Qed.
Print Assumptions C63_documented_terminals_refuted.
