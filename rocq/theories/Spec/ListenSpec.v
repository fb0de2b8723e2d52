(** * Vocabulary for what the listeners of operators are told. *)
From Verif.Model Require Import World Operators Publisher Listeners.
Open Scope nat_scope.
Open Scope list_scope.

(** The operator has an entry for the event, with these subscribers. *)
Definition listens (ob : op_obj) (name : string) (l : subscribers) : Prop :=
  exists pre post, ob_events ob = EaDict (pre ++ (name, l) :: post) /\ ~ In name (map fst pre).

(** All these subscribers, in this order, were called for the event with the data. *)
Definition told (name : string) (d : data) (l : subscribers) (hs : list heard) : Prop :=
  Forall2 (fun ic h => snd ic = CbUser (hd_callback h) /\ hd_event h = name /\ hd_data h = d) l hs.

(** The same publisher, apart from what it shows. *)
Definition same_publisher (ob ob' : op_obj) : Prop :=
  ob_class ob' = ob_class ob /\ ob_arity ob' = ob_arity ob /\ ob_events ob' = ob_events ob /\ ob_next ob' = ob_next ob.

(** From [s] to [s'] the listeners for the start of the action were told [d], and later those for its end [d']. *)
Definition bracketed_by (d d' : data) (s s' : lst) : Prop :=
  exists bs es hb he, listens (l_obj s) before_operator bs /\ listens (l_obj s) after_operator es /\
    told before_operator d bs hb /\ told after_operator d' es he /\ l_heard s' = l_heard s ++ hb ++ he.

(** An operator on vectors, or one that does nothing. *)
Definition not_on_trees (k : okind) : Prop :=
  match k with OKPoint _ | OVecMut _ _ | OIdentity => True | _ => False end.
