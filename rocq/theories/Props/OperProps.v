(** Properties of events (C36, C37), of retries (C43) and of the application of one operator (C44). *)
From Coq Require Import Sorted QArith.
From Verif.Model Require Import Operators Publisher.
From Verif.Spec Require Import WorldSpec PubSpec.
From Verif.Proofs Require Import OperP.
From Verif.Model Require Import Operators Publisher.
Open Scope nat_scope.
Open Scope list_scope.

(** A history for the examples: callbacks before the operator, one of them unregistered, one after it, one default; two
    calls that raise. *)
Definition calls : list command :=
  [Register before_operator (Some (CbUser 10)); Register "nothing" (Some (CbUser 11)); Register after_operator (Some (CbUser 12));
   Register before_operator (Some (CbUser 13)); Unregister before_operator 0; Unregister after_operator 7;
   Register "mine" None; Register before_operator (Some (CbUser 10))].
Definition mine : list string := ["mine"%string].
Definition quiet_user (n : nat) (e : string) : res unit := Ok tt.
Definition fussy_user (n : nat) (e : string) : res unit := if n =? 13 then Raise ValueError else Ok tt.

Example calls_known : known mine before_operator /\ known mine "mine" /\ ~ known mine "nothing" /\ registered mine (firstn 3 calls) 2.
Proof.
  assert (N : ~ known mine "nothing") by (intros [[|[]]|[|]]; discriminate).
  split; [unfold known; auto|]. split; [unfold known; simpl; auto|]. split; [exact N|].
  change (firstn 3 calls) with ((([] ++ [Register before_operator (Some (CbUser 10))]) ++ [Register "nothing" (Some (CbUser 11))])
    ++ [Register after_operator (Some (CbUser 12))]).
  apply rg_some; [apply rg_unknown; [apply rg_some; [constructor|unfold known; auto]|exact N]|unfold known; auto].
Qed.

Example calls_live : live mine calls before_operator 2 (CbUser 13).
Proof.
  split; [unfold known; auto|]. exists (firstn 3 calls), (skipn 4 calls), (Some (CbUser 13)). split; [reflexivity|].
  split; [apply calls_known|]. split; [reflexivity|]. simpl. intuition discriminate.
Qed.

Example calls_subscribers : fst (get_subscribers before_operator (after_calls mine calls)) = Ok [(2, CbUser 13); (4, CbUser 10)].
Proof. reflexivity. Qed.

Example calls_notify : notify fussy_user before_operator [CbUser 10; CbUser 13; CbUser 10]
  [LCall 10 before_operator; LCall 13 before_operator] (Raise ValueError).
Proof. apply nt_next; [reflexivity|]. apply nt_raise. reflexivity. Qed.

(** C36 *)
Theorem C36_brackets user A ar payload (r : res A) names cs :
  let p := after_calls names cs in
  exists before after,
  (forall id c, In (id, c) before <-> live names cs before_operator id c) /\ StronglySorted lt (map fst before) /\
  (forall id c, In (id, c) after <-> live names cs after_operator id c) /\ StronglySorted lt (map fst after) /\
  ((match payload with Some n => n = ar | None => ar = 1 end) ->
     exists items out, operator_act user ar payload (log LAct ;;; lift r) p = (out, observed p items) /\
                       bracketed user (map snd before) (map snd after) r items out) /\
  (~ (match payload with Some n => n = ar | None => ar = 1 end) ->
     operator_act user ar payload (log LAct ;;; lift r) p = (Raise ValueError, p)).
Proof. exact (operator_brackets user ar payload r names cs). Qed.
Print Assumptions C36_brackets.

Example C36_all_well :
  operator_act quiet_user 2 (Some 2) (log LAct ;;; lift (Ok 5)) (after_calls mine calls) =
    (Ok 5, observed (after_calls mine calls)
             [LCall 13 before_operator; LCall 10 before_operator; LAct; LCall 12 after_operator]).
Proof. reflexivity. Qed.
Example C36_action_raises :
  operator_act quiet_user 2 (Some 2) (log LAct ;;; lift (A := nat) (Raise IndexError)) (after_calls mine calls) =
    (Raise IndexError, observed (after_calls mine calls) [LCall 13 before_operator; LCall 10 before_operator; LAct]).
Proof. reflexivity. Qed.
Example C36_callback_raises :
  operator_act fussy_user 2 (Some 2) (log LAct ;;; lift (Ok 5)) (after_calls mine calls) =
    (Raise ValueError, observed (after_calls mine calls) [LCall 13 before_operator]).
Proof. reflexivity. Qed.

(** C37 *)
Theorem C37_subscribers names cs e : known names e ->
  exists l, get_subscribers e (after_calls names cs) = (Ok l, after_calls names cs) /\
    StronglySorted lt (map fst l) /\ forall id c, In (id, c) l <-> live names cs e id c.
Proof. exact (subscribers_live names cs e). Qed.
Print Assumptions C37_subscribers.

Theorem C37_publish user names cs e : known names e -> exists l items r,
  StronglySorted lt (map fst l) /\ (forall id c, In (id, c) l <-> live names cs e id c) /\
  publish user e (after_calls names cs) = (r, observed (after_calls names cs) items) /\ notify user e (map snd l) items r.
Proof. exact (publish_live user names cs e). Qed.
Print Assumptions C37_publish.

Theorem C37_register_number names cs e cb n : registered names cs n -> known names e ->
  fst (register e cb (after_calls names cs)) = Ok n.
Proof. exact (register_known names cs e cb n). Qed.
Print Assumptions C37_register_number.

Theorem C37_register_unknown names cs e cb : ~ known names e ->
  register e cb (after_calls names cs) = (Raise KeyError, after_calls names cs).
Proof. exact (register_unknown names cs e cb). Qed.
Print Assumptions C37_register_unknown.

Theorem C37_publish_unknown user names cs e : ~ known names e ->
  publish user e (after_calls names cs) = (Raise KeyError, after_calls names cs).
Proof. exact (publish_unknown user names cs e). Qed.
Print Assumptions C37_publish_unknown.

Theorem C37_unregister names cs e id :
  (fst (unregister e id (after_calls names cs)) = Ok tt <-> exists c, live names cs e id c) /\
  ((forall c, ~ live names cs e id c) -> unregister e id (after_calls names cs) = (Raise KeyError, after_calls names cs)).
Proof. exact (unregister_iff names cs e id). Qed.
Print Assumptions C37_unregister.

(** A callback registered by default is not callable. *)
Example C37_default_callback : fst (publish quiet_user "mine" (after_calls mine calls)) = Raise TypeError.
Proof. reflexivity. Qed.

(** A publisher made from an existing dictionary of events counts from 0 again: registering then replaces an earlier
    subscriber. *)
Theorem C37_existing_events_refuted : exists d cb id cb' p,
  get_subscribers before_operator (publisher_init (Some d) []) = (Ok [(id, cb)], publisher_init (Some d) []) /\
  cb <> cb' /\
  register before_operator (Some cb') (publisher_init (Some d) []) = (Ok id, p) /\
  get_subscribers before_operator p = (Ok [(id, cb')], p).
Proof.
  exists (p_events (after_calls [] [Register before_operator (Some (CbUser 1))])), (CbUser 1), 0, (CbUser 2).
  eexists. split; [reflexivity|]. split; [discriminate|]. split; reflexivity.
Qed.
Print Assumptions C37_existing_events_refuted.

(** C43 *)
Theorem C43_first_success S A n (attempt : nat -> SE S (bool * A)) (on_fail : SE S A) s out :
  failable_apply n attempt on_fail s = out <->
  exists k sk, failed attempt 0 s k sk /\ k <= n /\
   ((k < n /\ exists x s', attempt k sk = (Ok (true, x), s') /\ out = (Ok x, s')) \/
    (k < n /\ exists x s', attempt k sk = (Raise x, s') /\ out = (Raise x, s')) \/
    (k = n /\ out = on_fail sk)).
Proof. exact (failable_apply_iff n attempt on_fail s out). Qed.
Print Assumptions C43_first_success.

Theorem C43_attempts z n : failable_init z = Ok n <-> (1 <= z)%Z /\ n = Z.to_nat z.
Proof. exact (failable_attempts z n). Qed.
Print Assumptions C43_attempts.

(** The state counts the attempts; attempt number 2 succeeds. *)
Definition third (i : nat) : SE nat (bool * nat) := fun s => (Ok (i =? 2, i), S s).
Example C43_succeeds : failable_apply 5 third (ret 9) 0 = (Ok 2, 3) /\ failed third 0 0 2 2.
Proof. split; [reflexivity|]. eapply fl_one; [reflexivity|]. eapply fl_one; [reflexivity|]. constructor. Qed.
Example C43_fails : failable_apply 2 third (ret 9) 0 = (Ok 9, 2).
Proof. reflexivity. Qed.
Example C43_rejected : failable_init 0 = Raise ValueError /\ failable_init (-3) = Raise ValueError.
Proof. split; reflexivity. Qed.

(** C44 *)
Theorem C44_chance w : exists q g, random_unit (w_rng w) = (Ok (Fin q), g) /\ (0 <= q)%Q /\ (q < 1)%Q.
Proof. exact (chance w). Qed.
Print Assumptions C44_chance.

Theorem C44_skipped op inds w u g : random_unit (w_rng w) = (Ok u, g) -> nle u (op_prob op) = false ->
  apply_operator op inds w = (Ok inds, mkWorld (w_heap w) (w_next_id w) g).
Proof. exact (skipped op inds w u g). Qed.
Print Assumptions C44_skipped.

Theorem C44_applied op inds ids w u g r w' : NoDup inds -> have_ids w inds ids ->
  random_unit (w_rng w) = (Ok u, g) -> nle u (op_prob op) = true -> apply_operator op inds w = (Ok r, w') ->
  r = inds /\ frame (fun o => In o inds) w w' /\ exists names, recorded_names (op_kind op) names /\
  forall o i, In o inds -> at_ w o = Some i -> exists j, at_ w' o = Some j /\ went_through names ids i j.
Proof. exact (applied op inds ids w u g r w'). Qed.
Print Assumptions C44_applied.

Theorem C44_probability_one p u g w : random_unit (w_rng w) = (Ok (Fin u), g) -> (1 <= p)%Q -> nle (Fin u) (Fin p) = true.
Proof. exact (chance_one p u g w). Qed.
Print Assumptions C44_probability_one.

Theorem C44_probability_negative p u g w : random_unit (w_rng w) = (Ok (Fin u), g) -> (p < 0)%Q -> nle (Fin u) (Fin p) = false.
Proof. exact (chance_negative p u g w). Qed.
Print Assumptions C44_probability_negative.

Theorem C44_probability_zero u g w : random_unit (w_rng w) = (Ok (Fin u), g) -> (nle (Fin u) (Fin 0) = true <-> u == 0)%Q.
Proof. exact (chance_zero u g w). Qed.
Print Assumptions C44_probability_zero.

Definition family (l : list draw) : world :=
  let v := GVec (mkVec KFloat (BPair (Fin 0) (Fin 4)) 2 [Fin 1; Fin 2]) in
  let child := mkInd 8 3 (mkFit KSimple (VNum (Fin 3)) true (HB true) false false (Fin 0) PInf) 5 ["TournamentSelection"%string] ["SubtreeMutation"%string] true [5%Z] v in
  mkWorld [plain_ind 7 v; child] 9 (tape l).
Definition crossover (p : Num.num) : oper := mkOper (OKPoint 1) p 2 1.
Definition gaussian : oper := mkOper (OVecMut (MGaussOne (Fin 0) (Fin 1)) 1) (Fin 1) 1 1.
Definition seen (o : oid) (w : world) := option_map (fun i => (ft_evaluated (i_fit i), i_applied i, i_parents i)) (at_ w o).

(** Probability one half, drawn 1/4: applied.  Drawn 3/4: skipped.  Probability 0, drawn 0: applied. *)
Example C44_half : have_ids (family [mkDraw 2251799813685248 0]) [0; 1] [7; 8]%Z /\
  let w' := snd (apply_operator (crossover (Fin (1 # 2))) [0; 1] (family [mkDraw 2251799813685248 0])) in
  seen 1 w' = Some (false, ["SubtreeMutation"; "VectorKPointsCrossover"]%string, [5; 7; 8]%Z) /\
  seen 0 w' = Some (false, ["VectorKPointsCrossover"]%string, []).
Proof.
  split; [|vm_compute; auto]. repeat constructor; eexists; split; reflexivity.
Qed.
Example C44_not : seen 1 (snd (apply_operator (crossover (Fin (1 # 2))) [0; 1] (family [mkDraw 6755399441055744 0])))
  = Some (true, ["SubtreeMutation"]%string, [5%Z]).
Proof. vm_compute. reflexivity. Qed.
Example C44_zero : seen 0 (snd (apply_operator (crossover (Fin 0)) [0; 1] (family [mkDraw 0 0])))
  = Some (false, ["VectorKPointsCrossover"]%string, []).
Proof. vm_compute. reflexivity. Qed.
(** A Gauss mutation that leaves the bounds records the uniform mutation as well. *)
Example C44_fallback :
  seen 1 (snd (apply_operator gaussian [1] (family [mkDraw 0 0; mkDraw 0 0; mkDraw 0 100; mkDraw 0 0; mkDraw 0 0; mkDraw 0 0; mkDraw 0 0])))
  = Some (false, ["SubtreeMutation"; "FloatVectorUniformOnePointMutation"; "FloatVectorGaussOnePointMutation"]%string, [5; 8; 8]%Z).
Proof. vm_compute. reflexivity. Qed.
