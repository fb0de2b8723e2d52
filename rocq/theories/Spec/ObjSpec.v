(** * Vocabulary for copies of objects. *)
From Coq Require Import QArith.
From Verif.Model Require Import Objects.
Open Scope nat_scope.
Open Scope string_scope.

(** The documented exceptions: the fields that a copy does not take over. *)
Definition falsy (o : obj) : Prop :=
  In o [OAtom ANone; OAtom (ABool false); OAtom (AStr ""); OList []] \/ exists q, o = OAtom (ANum (Fin q)) /\ (q == 0)%Q.
Definition uncached (d : dict) : Prop := exists c, dget "cache" d = Some c /\ falsy c.
Definition left_out (c : cls) (d : dict) (k : string) : Prop :=
  match c with
  | CAlgorithm => k = "executor"
  | CWrapper => k = "is_fitted_"
  | CFitness => uncached d /\ (k = "fitness" \/ k = "_is_evaluated")
  | COther _ => False
  end.
(** The fields that the copying methods of the class look up. *)
Definition needed (c : cls) (d : dict) : Prop :=
  match c with
  | CAlgorithm => dget "executor" d <> None /\ dget "_executor_type" d <> None /\ dget "max_workers" d <> None
  | CFitness => dget "cache" d <> None
  | _ => True
  end.

(** Every dictionary has distinct keys. *)
Inductive proper : obj -> Prop :=
| p_atom a : proper (OAtom a)
| p_fun l n : proper (OFun l n)
| p_exec t w s : proper (OExec t w s)
| p_list l : (forall o, In o l -> proper o) -> proper (OList l)
| p_inst c d : NoDup (map fst d) -> (forall k o, In (k, o) d -> proper o) -> proper (OInst c d).

(** No executor and (if functions are copied by name) no local function is reached through the fields taken over. *)
Inductive savable (by_reference : bool) : obj -> Prop :=
| s_atom a : savable by_reference (OAtom a)
| s_fun l n : l = false \/ by_reference = true -> savable by_reference (OFun l n)
| s_list l : (forall o, In o l -> savable by_reference o) -> savable by_reference (OList l)
| s_inst c d : needed c d -> (forall k o, In (k, o) d -> ~ left_out c d k -> savable by_reference o) ->
    savable by_reference (OInst c d).

(** Only the executor type "thread" makes an executor of threads. *)
Definition threads (t : obj) (b : bool) : Prop := b = true <-> t = OAtom (AStr "thread").

(** What the fields left out are in the copy [d'] of [d]; executors are new, with serials from [n] to [m]. *)
Definition replaced (n m : nat) (c : cls) (d d' : dict) : Prop :=
  match c with
  | CAlgorithm => exists t b w s, dget "_executor_type" d = Some t /\ threads t b /\ dget "max_workers" d' = Some w /\
      dget "executor" d' = Some (OExec b w s) /\ n <= s < m
  | CWrapper => dget "is_fitted_" d' = None
  | CFitness => uncached d ->
      (dget "fitness" d <> None -> dget "fitness" d' = Some (OAtom ANone)) /\
      (dget "_is_evaluated" d <> None -> dget "_is_evaluated" d' = Some (OAtom (ABool false)))
  | COther _ => True
  end.

(** The copy: the same structure, field by field, except for the fields left out. *)
Inductive restored (n m : nat) : obj -> obj -> Prop :=
| r_atom a : restored n m (OAtom a) (OAtom a)
| r_fun l k : restored n m (OFun l k) (OFun l k)
| r_list l l' : Forall2 (restored n m) l l' -> restored n m (OList l) (OList l')
| r_inst c d d' :
    (forall k o, ~ left_out c d k -> dget k d = Some o -> exists o', dget k d' = Some o' /\ restored n m o o') ->
    (forall k, ~ left_out c d k -> dget k d = None -> dget k d' = None) ->
    replaced n m c d d' ->
    restored n m (OInst c d) (OInst c d').
