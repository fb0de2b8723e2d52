(** * Vocabulary for selection. *)
From Coq Require Import Permutation.
From Verif.Model Require Import World.
From Verif.Spec Require Import WorldSpec FitnessSpec.

(** The individual [o] has the evaluated, non-NaN augmented fitness [a], to be compared in direction [h]. *)
Definition scored (w : world) (o : oid) (a : num) : Prop :=
  exists i, at_ w o = Some i /\ scores (i_fit i) (isize i) a.
Definition oriented (w : world) (h : bool) (o : oid) : Prop :=
  exists i, at_ w o = Some i /\ hib_truthy (ft_hib (i_fit i)) = h.

(** [j] is a clone of [i] that was marked by the selection method. *)
Record copy_of (name : string) (i j : ind) : Prop := {
  co_genome : i_genome j = i_genome i;
  co_from : i_cloned_from j = i_id i;
  co_gen : i_gen j = i_gen i;
  co_selected : i_selected_by j = i_selected_by i ++ [name];
  co_applied : i_applied j = i_applied i;
  co_cached : ft_cache (i_fit i) = true -> i_fit j = i_fit i;
  co_kind : fit_kind (i_fit i) (i_fit j);
  co_uncached : ft_cache (i_fit i) = false -> ft_evaluated (i_fit j) = false
}.

(** The new objects [cs] are marked clones of [l], in this order, and nothing else changed. *)
Definition copies (name : string) (l : list oid) (w : world) (cs : list oid) (w' : world) : Prop :=
  cs = seq (length (w_heap w)) (length l) /\
  exists js, w_heap w' = w_heap w ++ js /\
             Forall2 (fun o j => exists i, at_ w o = Some i /\ copy_of name i j) l js.

(** [o] is the earliest member of [t] that no other member is better than. *)
Definition first_best (h : bool) (score : oid -> num) (t : list oid) (o : oid) : Prop :=
  exists pre post, t = pre ++ o :: post /\
    (forall p, In p pre -> better_score h (score o) (score p)) /\
    (forall p, In p post -> ~ better_score h (score p) (score o)).

(** What one tournament may be drawn from. *)
Definition drawn_from (replace : bool) (size : nat) (source t : list oid) : Prop :=
  length t = size /\ incl t source /\ (replace = false -> exists rest, Permutation source (t ++ rest)).
