(** * Vocabulary for the vector properties. *)
From Verif.Model Require Import Base Num Vector World.
From Verif.Spec Require Import WorldSpec.
Open Scope nat_scope.

(** The bounds of cell [i]. *)
Definition bound_at (b : bounds) (i : nat) : option (num * num) :=
  match b with BPair lo hi => Some (lo, hi) | BCells l => nth_error l i end.

(** Every cell lies between its bounds (hence is not NaN). *)
Definition in_box (b : bounds) (cells : list num) : Prop :=
  forall i x, nth_error cells i = Some x ->
  exists lo hi, bound_at b i = Some (lo, hi) /\ nle lo x = true /\ nle x hi = true.

(** Bounds are finite and non-empty intervals. *)
Definition proper_interval (p : num * num) : Prop :=
  exists lo hi, p = (Fin lo, Fin hi) /\ (lo <= hi)%Q.
Definition proper_bounds (b : bounds) (n : nat) : Prop :=
  match b with
  | BPair lo hi => proper_interval (lo, hi)
  | BCells l => length l = n /\ Forall proper_interval l
  end.

(** Bounds whose end points are integers (for integer vectors). *)
Definition integral (x : num) : Prop := exists z, x = nof_Z z.
Definition integral_bounds (b : bounds) : Prop :=
  match b with
  | BPair lo hi => integral lo /\ integral hi
  | BCells l => Forall (fun p => integral (fst p) /\ integral (snd p)) l
  end.

Definition no_nan (l : list num) : Prop := Forall (fun x => is_nan x = false) l.
Definition no_nan_bounds (b : bounds) : Prop :=
  match b with
  | BPair lo hi => is_nan lo = false /\ is_nan hi = false
  | BCells l => Forall (fun p => is_nan (fst p) = false /\ is_nan (snd p) = false) l
  end.

(** At most [n] positions differ. *)
Definition differ_at_most (n : nat) (c c' : list num) : Prop :=
  length c = length c' /\
  exists ps, length ps <= n /\ forall i, ~ In i ps -> nth_error c i = nth_error c' i.

(** [a', b'] arise from [a, b] by exchanging the genes at some positions. *)
Definition position_mix (a b a' b' : list num) : Prop :=
  length a' = length a /\ length b' = length b /\
  forall i, (nth_error a' i = nth_error a i /\ nth_error b' i = nth_error b i) \/
            (nth_error a' i = nth_error b i /\ nth_error b' i = nth_error a i).

(** k-point crossover as documented: the segments between consecutive points alternate. Position [i]
    is exchanged iff the number of points at or before it is even. *)
Definition exchanged (pts : list nat) (i : nat) : bool :=
  Nat.even (length (filter (fun p => p <=? i) pts)).

Definition kpoint_spec (pts : list nat) (a b : list num) : list num * list num :=
  let pick (x y : num) (i : nat) := if exchanged pts i then y else x in
  (map (fun t => pick (fst (snd t)) (snd (snd t)) (fst t)) (combine (seq 0 (length a)) (combine a b)),
   map (fun t => pick (snd (snd t)) (fst (snd t)) (fst t)) (combine (seq 0 (length a)) (combine a b))).

(** A vector as the creators make it: finite bounds, one per cell or one for all, every cell within them.
    Per-cell bounds of a vector of length 2 are excluded (check_if_in_bounds raises, C15). *)
Definition sound_vec (v : vec) : Prop :=
  v_length v = vsize v /\ proper_bounds (v_bounds v) (vsize v) /\
  (v_kind v <> KFloat -> integral_bounds (v_bounds v)) /\
  match v_bounds v with BCells l => length l <> 2 | _ => True end /\
  in_box (v_bounds v) (v_cells v).

Definition same_shape (v v' : vec) : Prop :=
  v_kind v' = v_kind v /\ v_bounds v' = v_bounds v /\ v_length v' = v_length v /\ vsize v' = vsize v.

(** Gaussian parameters are finite numbers. *)
Definition finite_params (m : vmut) : Prop :=
  match m with
  | MGaussOne mu sigma | MGaussN mu sigma => is_fin mu = true /\ is_fin sigma = true
  | _ => True
  end.

Definition is_bits (c : list num) : Prop := Forall (fun x => x = Fin 0 \/ x = Fin 1) c.

(** Exactly one position differs. *)
Definition differ_at_one (c c' : list num) : Prop :=
  length c = length c' /\
  exists i, i < length c /\ nth_error c i <> nth_error c' i /\
            forall j, j <> i -> nth_error c j = nth_error c' j.

(** Mutations whose new values are always within the bounds. *)
Definition draws_inside (m : vmut) (v : vec) : Prop :=
  match m with
  | MUniformOne | MUniformN | MIntOne _ | MIntN =>
      v_kind v = KBit -> exists lo hi, v_bounds v = BPair lo hi
  | MBitFlip | MBitNFlip _ => v_kind v = KBit /\ exists lo hi, v_bounds v = BPair lo hi
  | _ => False
  end.
Definition is_gauss (m : vmut) : Prop :=
  match m with MGaussOne _ _ | MGaussN _ _ => True | _ => False end.

(** As [sound_vec], but the cells are only known to be finite. *)
Definition wf_vec (v : vec) : Prop :=
  v_length v = vsize v /\ proper_bounds (v_bounds v) (vsize v) /\
  (v_kind v <> KFloat -> integral_bounds (v_bounds v)) /\
  match v_bounds v with BCells l => length l <> 2 | _ => True end /\
  Forall (fun x => is_fin x = true) (v_cells v).

(** Bit strings with their default bounds. *)
Definition bit_string (v : vec) : Prop :=
  v_kind v = KBit /\ v_bounds v = BPair (Fin 0) (Fin 1) /\ v_length v = vsize v /\ is_bits (v_cells v).

(** Bounds from which every cell of a vector of this length can be drawn. *)
Definition creatable (len : nat) (b : bounds) (k : vkind) : Prop :=
  proper_bounds b len /\ (k <> KFloat -> integral_bounds b) /\
  (k = KBit -> exists lo hi, b = BPair lo hi).

(** The value fits the bounds of cell [i]. *)
Definition in_cell (v : vec) (i : nat) (x : num) : Prop :=
  exists lo hi, bound_at (v_bounds v) i = Some (lo, hi) /\ nle lo x = true /\ nle x hi = true.

(** Every listed individual is a sound vector (with property [Pv]). *)
Definition all_sound (inds : list oid) (w : world) : Prop :=
  forall o, In o inds -> exists v, vec_at w o v /\ sound_vec v.
Definition all_vec (Pv : vec -> Prop) (inds : list oid) (w : world) : Prop :=
  forall o, In o inds -> exists v, vec_at w o v /\ sound_vec v /\ Pv v.

(** Mutations for which the parameter [n] limits the number of changed cells.  (The one-point integer mutation
    visits every cell; the fallback of the one-point Gaussian mutation changes one cell.) *)
Definition counts (m : vmut) (n : nat) : Prop :=
  match m with MGaussOne _ _ => n = 1 | MIntOne _ => False | _ => True end.

(** The vector has the [n] cells to be sampled. *)
Definition enough (m : vmut) (n : nat) (v : vec) : Prop := match m with MIntOne _ => True | _ => n <= vsize v end.

Definition bit_mut (m : vmut) : Prop := match m with MBitFlip | MBitNFlip _ => True | _ => False end.

(** ** The effect of a mutation on the cells *)

(** A new value for cell [i]: within the bounds of this cell, and an integer unless the vector is one of floats. *)
Definition drawn_for (v : vec) (i : nat) (y : num) : Prop := in_cell v i y /\ (v_kind v <> KFloat -> integral y).

(** The other one of the two bounds. *)
Definition other_bound (v : vec) (x y : num) : Prop :=
  exists lo hi, v_bounds v = BPair lo hi /\ (neq_num x lo = true -> y = hi) /\ (neq_num x lo = false -> y = lo).

(** What may become of the value [x] of cell [i] if this cell is mutated.  A probability of at least one means always,
    a negative one never. *)
Definition mutated_cell (m : vmut) (v : vec) (i : nat) (x y : num) : Prop :=
  let with_prob p (changed : Prop) := (changed /\ nlt p (Fin 0) = false) \/ (y = x /\ nle (Fin 1) p = false) in
  match m with
  | MUniformOne | MUniformN | MIntN => drawn_for v i y
  | MGaussOne mu sigma | MGaussN mu sigma => exists z, y = nadd x (nadd mu (nmul (Fin z) sigma))
  | MIntOne p => with_prob p (drawn_for v i y)
  | MBitFlip => other_bound v x y
  | MBitNFlip p => with_prob p (other_bound v x y)
  | MBase => False
  end.

(** As many different cells as the operator is told to select have been mutated, the others are as before. *)
Definition cells_mutated (m : vmut) (n : nat) (v v' : vec) : Prop :=
  same_shape v v' /\
  exists pts, NoDup pts /\ length pts = match m with MIntOne _ => vsize v | _ => n end /\
    (forall i, In i pts -> exists x y, nth_error (v_cells v) i = Some x /\ nth_error (v_cells v') i = Some y /\ mutated_cell m v i x y) /\
    forall i, ~ In i pts -> nth_error (v_cells v') i = nth_error (v_cells v) i.
