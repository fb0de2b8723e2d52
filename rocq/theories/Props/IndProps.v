(** Properties of individuals: cloning, ids and lineage: C04 and C05. *)
From Verif.Model Require Import Evolution.
From Verif.Spec Require Import WorldSpec IndSpec.
From Verif.Proofs Require Import IndP.

(** ** C04 *)

(** [clone] appends one new object; everything else stays as it is. *)
Theorem C04_clone_copies : forall o w i, at_ w o = Some i ->
  exists j w', clone o w = (Ok (length (w_heap w)), w') /\ w_heap w' = w_heap w ++ [j] /\ w_rng w' = w_rng w /\
    i_genome j = i_genome i /\ i_id j = w_next_id w /\ w_next_id w' = (w_next_id w + 1)%Z /\ i_cloned_from j = i_id i /\
    (ft_cache (i_fit i) = true -> i_fit j = i_fit i) /\
    (ft_cache (i_fit i) = false -> ft_evaluated (i_fit j) = false) /\
    (i_update_parents i = true -> i_parents j = []) /\
    (lineage_ok w -> ~ In (i_id j) (ids w)).
Proof. exact clone_copy. Qed.
Print Assumptions C04_clone_copies.

(** A later change of one of the two objects is not seen through the other. *)
Theorem C04_clone_independent : forall o w i c w' f, at_ w o = Some i -> clone o w = (Ok c, w') ->
  at_ (snd (modify c f w')) o = Some i /\ at_ (snd (modify o f w')) c = at_ w' c /\ at_ (snd (modify o f w')) o = Some (f i).
Proof. exact clone_independent. Qed.
Print Assumptions C04_clone_independent.

Definition vec12 : genome := GVec (mkVec KFloat (BPair (Fin 0) (Fin 9)) 2 [Fin 1; Fin 2]).
Definition parented (upd cache : bool) : ind :=
  mkInd 1 3 (mkFit KSimple (VNum (Fin 5)) true (HB true) cache false (Fin 0) PInf) (-1) ["s"%string] [] upd [1%Z] vec12.
Definition one_parent (upd cache : bool) : world := mkWorld [parented upd cache] 2 (tape []).

Example C04_example :
  at_ (one_parent true true) 0 = Some (parented true true) /\ lineage_ok (one_parent true false) /\
  at_ (snd (clone 0 (one_parent true true))) 1 =
    Some (mkInd 2 3 (mkFit KSimple (VNum (Fin 5)) true (HB true) true false (Fin 0) PInf) 1 ["s"%string] [] true [] vec12) /\
  at_ (snd (clone 0 (one_parent false false))) 1 =
    Some (mkInd 2 3 (mkFit KSimple VNone false (HB true) false false (Fin 0) PInf) 1 ["s"%string] [] false [1%Z] vec12).
Proof.
  split; [reflexivity|]. split; [|split; vm_compute; reflexivity].
  constructor; simpl.
  - repeat constructor; simpl; intuition.
  - intros id [<-|[]]; lia.
  - intros i [<-|[]]. left. reflexivity.
  - intros i p [<-|[]] [<-|[]]. simpl. auto.
  - lia.
Qed.

(** ** C05 *)

(** Any sequence of calls keeps ids unique and below the counter, and lineage among existing individuals. *)
Theorem C05_ids_and_lineage : forall cs w, lineage_ok w ->
  lineage_ok (run_calls_on cs w) /\ incl (ids w) (ids (run_calls_on cs w)).
Proof. exact ids_lineage. Qed.
Print Assumptions C05_ids_and_lineage.

(** So does a whole evolutionary run, however it ends. *)
Theorem C05_evolve_keeps_lineage : forall ev sched n a w, lineage_ok w ->
  lineage_ok (snd (snd (evolve ev sched n (a, w)))).
Proof. exact evolve_lineage. Qed.
Print Assumptions C05_evolve_keeps_lineage.

Definition history : list call :=
  [CallCreate (CVector 2 (BPair (Fin 0) (Fin 1)) KFloat KSimple true) 2 (HB true);
   CallClone 0; CallApply (mkOper (OKPoint 1) (Fin 1) 2 1) [1; 2]; CallClone 1].

Example C05_example :
  lineage_ok (mkWorld [] 1 (tape [])) /\
  map (fun i => (i_id i, i_cloned_from i, i_parents i)) (w_heap (run_calls_on history (mkWorld [] 1 (tape [])))) =
  [(1, -1, []); (2, -1, [2; 3]); (3, 1, [2; 3]); (4, 2, [])]%Z.
Proof.
  split; [|vm_compute; reflexivity].
  constructor; simpl; try (intros; contradiction); [constructor|lia].
Qed.
