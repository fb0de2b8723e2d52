(** * C89: the creator of trees with a given root function, of the examples. *)
From Verif.Model Require Import World Creators RootFunction.
From Verif.Spec Require Import WorldSpec TreeSpec.
From Verif.Proofs Require Import RootFunctionP.
Open Scope string_scope.
Open Scope nat_scope.
Open Scope list_scope.

(** No individual that the creator returns has a node, let alone the root function. *)
Theorem C89_nothing : forall limit root p n h w l w', create_root_trees limit root p n h w = (Ok l, w') ->
  length l = n /\ forall o, In o l -> exists t, tree_at w' o t /\ t_nodes t = [].
Proof. exact root_nothing. Qed.
Print Assumptions C89_nothing.

(** A root function with parameters: wherever the full method creates individuals, this creator calls itself until the interpreter
    gives up; nothing is drawn. *)
Theorem C89_recursion : forall limit f p n h w l w1,
  (Forall (fun x => x <> None) (f_params f) /\ f_ret f <> None) \/ (Forall (fun x => x = None) (f_params f) /\ f_ret f = None) ->
  0 < length (f_params f) -> 0 < n -> create_individuals (CGP Full p) n h w = (Ok l, w1) ->
  exists w', create_root_trees limit (Some f) p n h w = (Raise RecursionError, w') /\ w_rng w' = w_rng w.
Proof. exact root_recursion. Qed.
Print Assumptions C89_recursion.

(** No root function, which is the default. *)
Theorem C89_default : forall limit p n h w l w1, 0 < limit -> 0 < n -> create_individuals (CGP Full p) n h w = (Ok l, w1) ->
  fst (create_root_trees limit None p n h w) = Raise TypeError.
Proof. exact root_default. Qed.
Print Assumptions C89_default.

Definition plus : func := mkFunc 1 "f_add" [None; None] None.
Definition best : func := mkFunc 2 "argmax" [None; None; None] None.
Definition never : func := mkFunc 3 "never" [] None.
Definition two_names : gp_params := mkGP 2 4 [plus] [(TVar "x", None); (TVar "y", None)] false None (Fin (1 # 10)) None false (Fin (1 # 2)).
Definition empty_world : world := mkWorld [] 1 (tape [mkDraw 1 (1 # 2); mkDraw 0 (1 # 4)]).

Example C89_hypotheses :
  ((Forall (fun x => x <> None) (f_params best) /\ f_ret best <> None) \/ (Forall (fun x => x = None) (f_params best) /\ f_ret best = None)) /\
  0 < length (f_params best) /\ exists w1, create_individuals (CGP Full two_names) 2 (HB false) empty_world = (Ok [0; 1], w1).
Proof. split; [right; split; [repeat constructor|reflexivity]|]. split; [cbn; auto|]. eexists. vm_compute. reflexivity. Qed.

Example C89_example :
  fst (create_root_trees 1000 (Some best) two_names 2 (HB false) empty_world) = Raise RecursionError /\
  fst (create_root_trees 1000 (Some never) two_names 2 (HB false) empty_world) = Ok [0; 1] /\
  fst (create_root_trees 1000 None two_names 2 (HB false) empty_world) = Raise TypeError.
Proof. repeat split; vm_compute; reflexivity. Qed.

(** What its documentation promises, "trees with an immutable root function". *)
Theorem C89_root_refuted : exists f p n h w,
  (exists l w1, create_individuals (CGP Full p) n h w = (Ok l, w1) /\ 0 < length l) /\
  ~ exists limit l w', create_root_trees limit (Some f) p n h w = (Ok l, w') /\
      forall o, In o l -> exists t, tree_at w' o t /\ hd_error (t_nodes t) = Some (FNode f).
Proof.
  exists best, two_names, 2, (HB false), empty_world. destruct C89_hypotheses as (A & B & w1 & C). split; [exists [0; 1], w1; split; [exact C|cbn; auto]|].
  intros (limit & l & w' & E & _). destruct (C89_recursion limit best two_names 2 (HB false) empty_world [0; 1] w1 A B (Nat.lt_0_succ 1) C) as (w2 & E2 & _).
  rewrite E in E2. discriminate.
Qed.
Print Assumptions C89_root_refuted.
