(** Properties of what the listeners of operators are told: C82. *)
From Coq Require Import QArith.
From Verif.Model Require Import World Operators Selection Evolution Publisher Listeners.
From Verif.Spec Require Import WorldSpec ErrorSpec ListenSpec.
From Verif.Proofs Require Import ListenP.
From Verif.Props Require Import CompleteProps OperProps.
From Verif.Model Require Import World Operators Selection Evolution Publisher Listeners.
Open Scope nat_scope.
Open Scope list_scope.

(** ** C82 *)

(** A genetic operator that acts tells the listeners for the start nothing, and those for the end [applied_individuals]: the
    individuals it was given, unless it has changed no genome; then it may be what it was before. *)
Theorem C82_genetic user o inds s r s' : ob_class (l_obj s) = KGenetic -> 1 <= op_attempts o -> act_genetic user o inds s = (Ok r, s') ->
  apply_operator o inds (l_world s) = (Ok r, l_world s') /\ same_publisher (l_obj s) (l_obj s') /\
  bracketed_by DEmpty (DItem "applied_individuals" (ob_shown (l_obj s'))) s s' /\
  (ob_shown (l_obj s') = ShInds inds \/ ob_shown (l_obj s') = ob_shown (l_obj s) /\ same_genomes (l_world s) (l_world s')).
Proof. exact (genetic_told user o inds s r s'). Qed.
Print Assumptions C82_genetic.

(** It depends on the chance of the operator: vector operators that are applied show their individuals, and operators that are
    not applied show those of their last application. *)
Theorem C82_shown user o inds s r s' u g : 1 <= op_attempts o -> act_genetic user o inds s = (Ok r, s') ->
  random_unit (w_rng (l_world s)) = (Ok u, g) ->
  (nle u (op_prob o) = true -> not_on_trees (op_kind o) -> ob_shown (l_obj s') = ShInds inds) /\
  (nle u (op_prob o) = false -> ob_shown (l_obj s') = ob_shown (l_obj s) /\ r = inds /\ w_heap (l_world s') = w_heap (l_world s)).
Proof. exact (genetic_shown user o inds s r s' u g). Qed.
Print Assumptions C82_shown.

(** A crossover with probability one half, with two listeners for its end and one for its start. *)
Definition quiet (n : nat) (e : string) (d : data) : res unit := Ok tt.
Definition heard_by (ob : op_obj) : op_obj :=
  let s := snd ((register_listener after_operator (Some (CbUser 4)) ;;; register_listener before_operator (Some (CbUser 5)) ;;;
                 register_listener after_operator (Some (CbUser 6))) (mkL (family []) ob [])) in l_obj s.
Definition half_crossover : oper := crossover (Fin (1 # 2)).
Definition acting (l : list draw) : lst := mkL (family l) (heard_by (genetic_init 2 EaNone)) [].
Definition once : list draw := [mkDraw 2251799813685248 0; mkDraw 0 0; mkDraw 6755399441055744 0].

Example C82_genetic_example :
  ob_class (l_obj (acting once)) = KGenetic /\ 1 <= op_attempts half_crossover /\
  exists s', act_genetic quiet half_crossover [0; 1] (acting once) = (Ok [0; 1], s') /\
    l_heard s' = [mkHeard 5 before_operator DEmpty; mkHeard 4 after_operator (DItem "applied_individuals" (ShInds [0; 1]));
                  mkHeard 6 after_operator (DItem "applied_individuals" (ShInds [0; 1]))].
Proof. split; [reflexivity|]. split; [vm_compute; auto|]. eexists. split; vm_compute; reflexivity. Qed.
Example C82_shown_example :
  (exists q g, random_unit (w_rng (family once)) = (Ok (Fin q), g) /\ nle (Fin q) (op_prob half_crossover) = true) /\
  not_on_trees (op_kind half_crossover).
Proof. split; [|exact I]. eexists; eexists. split; vm_compute; reflexivity. Qed.

(** An operator that is not applied announces the individuals of its last application, which need not be among those it was
    given. *)
Theorem C82_this_time_refuted : exists user o first second s s1 s2 pre n,
  act_genetic user o first s = (Ok first, s1) /\ act_genetic user o second s1 = (Ok second, s2) /\
  (forall x, List.In x first -> ~ List.In x second) /\
  l_heard s2 = pre ++ [mkHeard n after_operator (DItem "applied_individuals" (ShInds first))].
Proof.
  exists quiet, half_crossover, [0; 1], [2; 3].
  pose (child := plain_ind 7 (GVec (mkVec KFloat (BPair (Fin 0) (Fin 4)) 2 [Fin 1; Fin 2]))).
  exists (mkL (mkWorld [child; child; child; child] 9 (tape once)) (heard_by (genetic_init 2 EaNone)) []).
  eexists. eexists. eexists [_; _; _; _; _]. eexists. split; [vm_compute; reflexivity|]. split; [vm_compute; reflexivity|].
  split; [|vm_compute; reflexivity]. intros x [<-|[<-|[]]] [E|[E|[]]]; discriminate.
Qed.
Print Assumptions C82_this_time_refuted.

(** A selection method made without events cannot be listened to, and cannot act: its events are a list of names. *)
Theorem C82_selection_mute user w hs name cb sel src dst :
  let s := mkL w (selection_init EaNone) hs in
  register_listener name cb s = (Raise TypeError, s) /\
  act_selection user false sel src dst s = (Raise TypeError, s) /\ act_selection user true sel src dst s = (Raise ValueError, s).
Proof. exact (selection_mute user w hs name cb sel src dst). Qed.
Print Assumptions C82_selection_mute.

(** With a dictionary of events it can act on a pair; its listeners are never told who was selected. *)
Theorem C82_selection_given user sel src dst s r s' : ob_class (l_obj s) = KSelection ->
  act_selection user false sel src dst s = (Ok r, s') ->
  select sel src dst (l_world s) = (Ok r, l_world s') /\ same_publisher (l_obj s) (l_obj s') /\
  bracketed_by DEmpty DEmpty s s' /\ ob_shown (l_obj s') = ShInds r.
Proof. exact (selection_given user sel src dst s r s'). Qed.
Print Assumptions C82_selection_given.

Definition two_events : events_arg := EaDict [(after_operator, []); (before_operator, [])].
Definition scored_world (l : list draw) : world :=
  let i x := mkInd 3 0 (mkFit KSimple (VNum (Fin x)) true (HB true) false false (Fin 0) PInf) (-1) [] [] false []
               (GVec (mkVec KFloat (BPair (Fin 0) (Fin 4)) 2 [Fin 1; Fin 2])) in
  mkWorld [i 1%Q; i 2%Q] 9 (tape l).
Example C82_selection_given_example :
  let s := mkL (scored_world [mkDraw 1 0; mkDraw 0 0]) (heard_by (selection_init two_events)) [] in
  ob_class (l_obj s) = KSelection /\
  exists s', act_selection quiet false (SelTournament 1 true 1) [0; 1] [] s = (Ok [2; 3], s') /\
    l_heard s' = [mkHeard 5 before_operator DEmpty; mkHeard 4 after_operator DEmpty; mkHeard 6 after_operator DEmpty].
Proof. split; [reflexivity|]. eexists. split; vm_compute; reflexivity. Qed.

(** A creator, whatever events it is made with, cannot act; its own event "after_creation" does not exist. *)
Theorem C82_creator user events payload w hs name cb :
  let s := mkL w (creator_init events) hs in
  act_creator user payload s = (Raise ValueError, s) /\
  (fst (register_listener name cb s) = Ok 0 <-> name = before_operator \/ name = after_operator) /\
  (name <> before_operator -> name <> after_operator -> register_listener name cb s = (Raise KeyError, s)).
Proof. exact (creator_acts user events payload w hs name cb). Qed.
Print Assumptions C82_creator.

Example C82_creator_example : forall w,
  register_listener "after_creation" None (mkL w (creator_init (EaDict [("after_creation"%string, [])])) []) =
    (Raise KeyError, mkL w (creator_init (EaDict [("after_creation"%string, [])])) []).
Proof. reflexivity. Qed.

(** Evaluators tell whom they evaluated, breeders pass None instead of a dictionary. *)
Theorem C82_evaluator user ev sched m alive pop s r s' : ob_class (l_obj s) = KEvaluator ->
  act_population_evaluator user ev sched m alive pop s = (Ok r, s') ->
  evaluate_population ev sched m alive pop (l_world s) = (Ok r, l_world s') /\ same_publisher (l_obj s) (l_obj s') /\
  bracketed_by DEmpty (DItem "applied_individuals" (ShPop pop)) s s'.
Proof. exact (evaluator_told user ev sched m alive pop s r s'). Qed.
Print Assumptions C82_evaluator.

Theorem C82_individual_evaluator user ev o s r s' : ob_class (l_obj s) = KEvaluator -> act_individual_evaluator user ev o s = (Ok r, s') ->
  r = o /\ bracketed_by DEmpty (DItem "applied_individuals" (ShInds [o])) s s' /\
  exists i v, at_ (l_world s) o = Some i /\ ev (i_genome i) = Ok v /\ ind_set_fitness o v (l_world s) = (Ok tt, l_world s').
Proof. exact (individual_evaluator_told user ev o s r s'). Qed.
Print Assumptions C82_individual_evaluator.

Theorem C82_breeder user pop s r s' : ob_class (l_obj s) = KBreeder -> act_breeder user pop s = (Ok r, s') ->
  breed pop (l_world s) = (Ok r, l_world s') /\ l_obj s' = l_obj s /\ bracketed_by DNone DNone s s'.
Proof. exact (breeder_told user pop s r s'). Qed.
Print Assumptions C82_breeder.

Definition pair_pop : list subpop := [mkSub [] [] [half_crossover] [SelTournament 1 true 1] 2 (HB true) 0 (Some [0; 1])].
Example C82_breeder_example :
  let s := mkL (scored_world (mkDraw 1 0 :: mkDraw 0 0 :: once)) (heard_by (breeder_init EaNone)) [] in
  ob_class (l_obj s) = KBreeder /\
  exists p s', act_breeder quiet pair_pop s = (Ok p, s') /\ map inds_of p = [[2; 3]] /\
    l_heard s' = [mkHeard 5 before_operator DNone; mkHeard 4 after_operator DNone; mkHeard 6 after_operator DNone].
Proof. split; [reflexivity|]. eexists; eexists. split; [|split]; vm_compute; reflexivity. Qed.
Example C82_evaluator_example :
  let s := mkL (scored_world []) (heard_by evaluator_init) [] in
  ob_class (l_obj s) = KEvaluator /\
  (exists s', act_population_evaluator quiet first_cell in_turn ByMap true pair_pop s = (Ok 0, s') /\
    l_heard s' = [mkHeard 5 before_operator DEmpty; mkHeard 4 after_operator (DItem "applied_individuals" (ShPop pair_pop));
                  mkHeard 6 after_operator (DItem "applied_individuals" (ShPop pair_pop))]) /\
  exists s', act_individual_evaluator quiet first_cell 1 s = (Ok 1, s') /\
    l_heard s' = [mkHeard 5 before_operator DEmpty; mkHeard 4 after_operator (DItem "applied_individuals" (ShInds [1]));
                  mkHeard 6 after_operator (DItem "applied_individuals" (ShInds [1]))].
Proof. split; [reflexivity|]. split; eexists; split; vm_compute; reflexivity. Qed.

(** During breeding the operators' listeners are not called at all; the breeder applies them without letting them act. *)
Theorem C82_breeding_silent ops l w hs r w' hs' : applying_operators ops l (w, hs) = (r, (w', hs')) ->
  hs' = hs /\ apply_operators (map snd ops) l w = (match r with Ok (l', _) => Ok l' | Raise e => Raise e end, w') /\
  (forall l' obs, r = Ok (l', obs) -> Forall2 (fun x ob => same_publisher (fst x) ob) ops obs).
Proof. exact (breeding_silent ops l w hs r w' hs'). Qed.
Print Assumptions C82_breeding_silent.

Example C82_breeding_silent_example :
  let r := applying_operators [(heard_by (genetic_init 2 EaNone), half_crossover); (heard_by (genetic_init 1 EaNone), mkOper OIdentity (Fin 1) 1 1)]
             [0; 1] (family once, []) in
  snd (snd r) = [] /\ match fst r with Ok (l, obs) => l = [0; 1] /\ map ob_shown obs = [ShInds [0; 1]; ShInds [1]] | Raise _ => False end.
Proof. vm_compute. repeat split. Qed.
