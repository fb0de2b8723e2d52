(** * Vocabulary for what generations inherit. *)
From Verif.Model Require Import Num Vector Tree World Evolution.
From Verif.Spec Require Import WorldSpec VectorSpec TreeSpec CompleteSpec.
Open Scope nat_scope.
Open Scope list_scope.

(** The genomes of these individuals. *)
Definition genomes_of (w : world) (l : list oid) (g : genome) : Prop := exists o i, In o l /\ at_ w o = Some i /\ i_genome i = g.

(** [D] is a closure operator on the sets of genomes from [B]. *)
Definition closure (B : genome -> Prop) (D : (genome -> Prop) -> genome -> Prop) : Prop :=
  (forall S : genome -> Prop, (forall g, S g -> B g) -> forall g, S g -> D S g) /\
  (forall S T : genome -> Prop, (forall g, S g -> T g) -> forall g, D S g -> D T g) /\
  (forall S g, D (D S) g -> D S g).

(** Later generations lie in the closure of each earlier one. *)
Definition descends (D : (genome -> Prop) -> genome -> Prop) (w : world) (ls : list (list oid)) : Prop :=
  forall before l after l', ls = before ++ l :: after -> In l' after -> genomes_in (D (genomes_of w l)) l' w.

(** Some individual has this value at this place. *)
Definition carried (w : world) (l : list oid) (j : nat) (x : num) : Prop :=
  exists o v, In o l /\ vec_at w o v /\ nth_error (v_cells v) j = Some x.

(** Some individual's tree contains this node. *)
Definition occurs (w : world) (l : list oid) (n : node) : Prop :=
  exists o t, In o l /\ tree_at w o t /\ In n (t_nodes t).

(** Operators that add nothing. *)
Definition recombines (op : oper) : Prop := match op_kind op with OIdentity | OKPoint _ | OSubtreeXO => True | _ => False end.
