(** * Vocabulary for events, for retries and for the application of one genetic operator. *)
From Verif.Model Require Import Operators Publisher.
From Verif.Spec Require Import WorldSpec.
Open Scope nat_scope.
Open Scope list_scope.

(** ** Events *)

(** What a program does to a publisher; a call that raises does not stop the program. *)
Inductive command := Register (e : string) (cb : option callback) | Unregister (e : string) (id : nat).

Definition obey (p : pub) (c : command) : pub :=
  match c with
  | Register e cb => snd (register e cb p)
  | Unregister e id => snd (unregister e id p)
  end.

(** The publisher made with these event names, after these calls. *)
Definition after_calls (names : list string) (cs : list command) : pub :=
  fold_left obey cs (publisher_init None names).

Definition known (names : list string) (e : string) : Prop := In e names \/ e = before_operator \/ e = after_operator.

(** How many of the calls registered something. *)
Inductive registered (names : list string) : list command -> nat -> Prop :=
| rg_none : registered names [] 0
| rg_some cs n e cb : registered names cs n -> known names e -> registered names (cs ++ [Register e cb]) (S n)
| rg_unknown cs n e cb : registered names cs n -> ~ known names e -> registered names (cs ++ [Register e cb]) n
| rg_unreg cs n e id : registered names cs n -> registered names (cs ++ [Unregister e id]) n.

Definition given (cb : option callback) : callback := match cb with Some c => c | None => CbDefault end.

(** Callback [cb] was registered for [e] under the number [id], and not unregistered since. *)
Definition live (names : list string) (cs : list command) (e : string) (id : nat) (cb : callback) : Prop :=
  known names e /\
  exists cs1 cs2 c, cs = cs1 ++ Register e c :: cs2 /\ registered names cs1 id /\ cb = given c /\
                    ~ In (Unregister e id) cs2.

(** Calling callbacks in a row: what is observed, and how it ends. *)
Inductive notify (user : nat -> string -> res unit) (e : string) : list callback -> list log_item -> res unit -> Prop :=
| nt_done : notify user e [] [] (Ok tt)
| nt_next n cs l r : user n e = Ok tt -> notify user e cs l r -> notify user e (CbUser n :: cs) (LCall n e :: l) r
| nt_raise n cs x : user n e = Raise x -> notify user e (CbUser n :: cs) [LCall n e] (Raise x)
| nt_default cs : notify user e (CbDefault :: cs) [] (Raise TypeError).

(** An action with result [r] between two events. *)
Inductive bracketed (user : nat -> string -> res unit) {A} (before after : list callback) (r : res A)
  : list log_item -> res A -> Prop :=
| br_before l x : notify user before_operator before l (Raise x) -> bracketed user before after r l (Raise x)
| br_act l x : notify user before_operator before l (Ok tt) -> r = Raise x ->
    bracketed user before after r (l ++ [LAct]) (Raise x)
| br_after l l' v x : notify user before_operator before l (Ok tt) -> r = Ok v ->
    notify user after_operator after l' (Raise x) -> bracketed user before after r (l ++ LAct :: l') (Raise x)
| br_done l l' v : notify user before_operator before l (Ok tt) -> r = Ok v ->
    notify user after_operator after l' (Ok tt) -> bracketed user before after r (l ++ LAct :: l') (Ok v).

(** [p] after some more observations. *)
Definition observed (p : pub) (l : list log_item) : pub := mkPub (p_events p) (p_next p) (p_log p ++ l).

(** ** Retries *)

(** Attempts number [i], ..., [k - 1] were made and all failed. *)
Inductive failed {S A} (attempt : nat -> SE S (bool * A)) : nat -> S -> nat -> S -> Prop :=
| fl_none i s : failed attempt i s i s
| fl_one i s x s1 k s2 : attempt i s = (Ok (false, x), s1) -> failed attempt (Datatypes.S i) s1 k s2 ->
    failed attempt i s k s2.

(** ** Application of an operator *)

(** [j] is [i] after it went through the operators [names], each time together with the individuals [ids]: its fitness is
    not evaluated, the operators are recorded, and the ids as well if the individual asks for it. *)
Record went_through (names : list string) (ids : list Z) (i j : ind) : Prop := {
  wt_fitness : ft_evaluated (i_fit j) = false;
  wt_applied : i_applied j = i_applied i ++ names;
  wt_parents : i_parents j = i_parents i ++ (if i_update_parents i then concat (map (fun _ => ids) names) else []);
  wt_same : i_id j = i_id i /\ i_gen j = i_gen i /\ i_cloned_from j = i_cloned_from i /\
            i_selected_by j = i_selected_by i /\ i_update_parents j = i_update_parents i
}.

(** The operators recorded by one application: the operator itself, and before it the uniform mutation if a Gauss mutation
    fell back on it. *)
Inductive recorded_names : okind -> list string -> Prop :=
| rn_self k : recorded_names k [okind_name k]
| rn_gauss_one a b n : recorded_names (OVecMut (MGaussOne a b) n)
    ["FloatVectorUniformOnePointMutation"; "FloatVectorGaussOnePointMutation"]%string
| rn_gauss_n a b n : recorded_names (OVecMut (MGaussN a b) n)
    ["FloatVectorUniformNPointMutation"; "FloatVectorGaussNPointMutation"]%string.

(** [l] are the ids of these individuals. *)

Definition have_ids (w : world) (inds : list oid) (l : list Z) : Prop :=
  Forall2 (fun o id => exists i, at_ w o = Some i /\ i_id i = id) inds l.
