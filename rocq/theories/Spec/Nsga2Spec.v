(** * Vocabulary for multi-objective evolution. *)
From Coq Require Import Permutation Sorted QArith.
From Verif.Model Require Import Nsga2.
From Verif.Spec Require Import WorldSpec FitnessSpec.
Open Scope nat_scope.
Open Scope list_scope.

(** An evaluated multi-objective fitness with directions [h] and objectives [v]. *)
Record objectives (f : fitness) (h : list bool) (v : list num) : Prop := {
  ob_class : ft_class f = KNSGA2;
  ob_evaluated : ft_evaluated f = true;
  ob_hib : ft_hib f = HL h;
  ob_value : ft_value f = VList v;
  ob_length : length v = length h;
  ob_numbers : Forall (fun x => is_nan x = false) v
}.

(** [a] is nowhere worse than [b] and somewhere better. *)
Definition pareto (h : list bool) (a b : list num) : Prop :=
  (forall k d x y, nth_error h k = Some d -> nth_error a k = Some x -> nth_error b k = Some y -> ~ better_score d y x) /\
  (exists k d x y, nth_error h k = Some d /\ nth_error a k = Some x /\ nth_error b k = Some y /\ better_score d x y).

(** ** Sorting into fronts *)

(** Objective [k] of individual [o] is the number [v k o]; [h] gives the directions. *)
Definition values (h : list bool) (v : nat -> oid -> Q) (o : oid) : list num :=
  map (fun k => Fin (v k o)) (seq 0 (length h)).

(** The individuals [l] carry these objectives. *)
Definition measured (w : world) (h : list bool) (v : nat -> oid -> Q) (l : list oid) : Prop :=
  forall o, In o l -> exists i, at_ w o = Some i /\ objectives (i_fit i) h (values h v o).

Section Fronts.
  Variable h : list bool.
  Variable v : nat -> oid -> Q.
  Variable l : list oid.

  Definition beats (o p : oid) : Prop := pareto h (values h v o) (values h v p).

  (** What is left when the first [k] fronts are taken away, and front number [k] (counted from 0). *)
  Fixpoint left_after (k : nat) (o : oid) : Prop :=
    match k with
    | O => In o l
    | S k' => left_after k' o /\ exists p, left_after k' p /\ beats p o
    end.
  Definition front (k : nat) (o : oid) : Prop := left_after k o /\ forall p, left_after k p -> ~ beats p o.
End Fronts.

(** The iteration order of a set: any order. *)
Definition any_order (setorder : nat -> list nat -> list nat) : Prop := forall r l, Permutation (setorder r l) l.

(** Rank and crowding distance of an individual. *)
Definition rank_of (w : world) (o : oid) (r : num) : Prop := exists i, at_ w o = Some i /\ ft_rank (i_fit i) = r.
Definition crowding_of (w : world) (o : oid) (c : num) : Prop := exists i, at_ w o = Some i /\ ft_crowding (i_fit i) = c.
Definition rank_number (k : nat) : num := Fin (inject_Z (Z.of_nat k)).

(** Only rank and crowding distance of these individuals may have changed. *)
Definition only_ranked (l : list oid) (w w' : world) : Prop :=
  w_next_id w' = w_next_id w /\ w_rng w' = w_rng w /\ length (w_heap w') = length (w_heap w) /\
  forall o i, at_ w o = Some i -> exists c r, at_ w' o = Some (set_fit (with_moo (i_fit i) c r) i) /\
    (~ In o l -> c = ft_crowding (i_fit i) /\ r = ft_rank (i_fit i)).

(** ** Crowding distance *)

(** [x] is the first or the last of the list. *)
Definition at_end (f : list oid) (x : oid) : Prop := (exists r, f = x :: r) \/ (exists r, f = r ++ [x]).

(** Distance of the two neighbours of [x] in [f], relative to the width of [f] (0 if all values agree). *)
Definition gap (u : oid -> Q) (f : list oid) (x : oid) (q : Q) : Prop :=
  exists p a b s, f = p ++ a :: x :: b :: s /\
    exists x0 x1, head f = Some x0 /\ (exists r, f = r ++ [x1]) /\
    (if Qeq_bool (u x1 - u x0) 0 then q == 0 else q == (u b - u a) / (u x1 - u x0))%Q.

Definition ascending (u : oid -> Q) (f : list oid) : Prop := StronglySorted (fun a b => (u a <= u b)%Q) f.

Fixpoint sumQ (l : list Q) : Q := match l with [] => 0 | x :: r => x + sumQ r end%Q.

(** [c] are the crowding distances of the members of [F]: for some ascending order of [F] per objective, infinite for the
    ends of these orders, and else the sum of the gaps. *)
Definition crowded (m : nat) (v : nat -> oid -> Q) (F : list oid) (c : oid -> num) : Prop :=
  exists orders, length orders = m /\
    (forall k f, nth_error orders k = Some f -> Permutation F f /\ ascending (v k) f) /\
    forall x, In x F ->
      ((exists f, In f orders /\ at_end f x) -> c x = PInf) /\
      ((forall f, In f orders -> ~ at_end f x) -> exists qs s, length qs = m /\ c x = Fin s /\ (s == sumQ qs)%Q /\
         forall k f q, nth_error orders k = Some f -> nth_error qs k = Some q -> gap (v k) f x q).

(** ** Reports *)

(** What the statistics read of these individuals: rank, crowding distance and objectives. *)
Definition reports (w : world) (l : list oid) (ms : list (num * num * list num)) : Prop :=
  Forall2 (fun o m => exists i v, at_ w o = Some i /\ ft_value (i_fit i) = VList v /\
                        m = (ft_rank (i_fit i), ft_crowding (i_fit i), v)) l ms.

(** A crowding distance is infinite or a number that is not negative. *)
Definition distance (c : num) : Prop := c = PInf \/ exists q, c = Fin q /\ (0 <= q)%Q.

(** The crowding distance of individual [o] with multi-objective fitness. *)
Definition crowded_by (w : world) (o : oid) (c : num) : Prop :=
  exists i, at_ w o = Some i /\ ft_class (i_fit i) = KNSGA2 /\ ft_crowding (i_fit i) = c.

(** The sizes of the subpopulations. *)
Definition sizes (pop : list subpop) : list nat := map (fun s => length (inds_of s)) pop.

(** ** Objectives over a run *)

(** A flag per objective, or one flag for all [length h] of them. *)
Definition directed (b : hibv) (h : list bool) : Prop :=
  b = HL h \/ exists d, b = HB d /\ h = repeat d (length h).
Definition moo_at (w : world) (h : list bool) (o : oid) : Prop :=
  exists i, at_ w o = Some i /\ ft_class (i_fit i) = KNSGA2 /\ directed (ft_hib (i_fit i)) h.

(** One subpopulation, with multi-objective fitness of directions [h]: given individuals or vector creators. *)
Definition moo_population (w : world) (h : list bool) (pop : list subpop) : Prop :=
  exists s, pop = [s] /\
    match sp_inds s with
    | Some l => forall o, In o l -> moo_at w h o
    | None => directed (sp_hib s) h /\
              forall c, In c (sp_creators s) -> exists len b k upd, c = CVector len b k KNSGA2 upd
    end.

(** The fitness function gives [m] finite numbers (or raises). *)
Definition gives_objectives (ev : genome -> res fval) (m : nat) : Prop :=
  forall g v, ev g = Ok v -> exists qs, length qs = m /\ v = VList (map Fin qs).

(** The fitness function gives the genome of [o] the value [x] in objective [k]. *)
Definition objective (ev : genome -> res fval) (w : world) (o : oid) (k : nat) (x : num) : Prop :=
  exists i v, at_ w o = Some i /\ ev (i_genome i) = Ok (VList v) /\ nth_error v k = Some x.

(** Whatever is reached in one objective by one of [l] is reached or surpassed by one of [l']. *)
Definition reached_again (ev : genome -> res fval) (h : list bool) (w : world) (l : list oid) (w' : world) (l' : list oid) : Prop :=
  forall o k d x, In o l -> nth_error h k = Some d -> objective ev w o k x ->
    exists o' y, In o' l' /\ objective ev w' o' k y /\ ~ better_score d x y.

(** By their values of the fitness function, [o] in [w] dominates [p] in [w']. *)
Definition outdoes (ev : genome -> res fval) (h : list bool) (w : world) (o : oid) (w' : world) (p : oid) : Prop :=
  exists i j a b, at_ w o = Some i /\ at_ w' p = Some j /\ ev (i_genome i) = Ok (VList a) /\ ev (i_genome j) = Ok (VList b) /\ pareto h a b.
