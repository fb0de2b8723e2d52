(** * Vocabulary for what one application of an operator can lead to. *)
From Verif.Model Require Import Num Rng Vector Tree World Operators.
From Verif.Spec Require Import WorldSpec VectorSpec TreeSpec ReachSpec.
Open Scope nat_scope.
Open Scope list_scope.

(** The same individuals with another future of the random generators. *)
Definition with_rng (w : world) (g : rng) : world := mkWorld (w_heap w) (w_next_id w) g.

(** What is done with probability [p] can happen, respectively can be left out: [random()] gives the multiples of 2^-53 from 0 on, below 1. *)
Definition can_happen (p : num) : Prop := nle (Fin 0) p = true.
Definition can_fail (p : num) : Prop := nle (Fin (9007199254740991 # 9007199254740992)) p = false.

(** A value that can be drawn for cell [i]. *)
Definition drawable (v : vec) (i : nat) (y : num) : Prop :=
  exists lo hi, bound_at (v_bounds v) i = Some (lo, hi) /\ on_grid (v_kind v) lo hi y.

(** The values that a selected cell can get instead of [x]. *)
Definition new_cell (m : vmut) (v : vec) (i : nat) (x y : num) : Prop :=
  match m with
  | MUniformOne | MUniformN | MIntN => drawable v i y
  | MIntOne p => (can_happen p /\ drawable v i y) \/ (can_fail p /\ y = x)
  | MBitFlip => other_bound v x y
  | MBitNFlip p => (can_happen p /\ other_bound v x y) \/ (can_fail p /\ y = x)
  | _ => False
  end.

(** The cells after one mutation: any [n] different cells (all cells for the integer one-point mutation) have new values. *)
Definition step (m : vmut) (n : nat) (v : vec) (c : list num) : Prop :=
  length c = vsize v /\
  exists pts, NoDup pts /\ length pts = match m with MIntOne _ => vsize v | _ => n end /\ (forall i, In i pts -> i < vsize v) /\
    forall i x y, nth_error (v_cells v) i = Some x -> nth_error c i = Some y ->
      (In i pts -> new_cell m v i x y) /\ (~ In i pts -> y = x).

(** Mutations that can change any single cell and leave the others. *)
Definition versatile (m : vmut) (n : nat) (v : vec) : Prop :=
  match m with
  | MUniformOne | MUniformN | MIntN => 1 <= n
  | MIntOne p => can_happen p
  | MBitFlip => n = 1 /\ v_bounds v = BPair (Fin 0) (Fin 1)
  | MBitNFlip p => can_happen p /\ (n = 1 \/ (1 <= n /\ can_fail p)) /\ v_bounds v = BPair (Fin 0) (Fin 1)
  | _ => False
  end.

(** The number of ones. *)
Definition ones (c : list num) : nat := length (filter (fun x => neq_num x (Fin 1)) c).

(** The trees that subtree mutation makes of [t]: a subtree at an eligible place, whose root differs from all nodes before it, is replaced by a
    program of its type over the primitives of [t], of the depths asked for. *)
Definition regrown (mn mx : nat) (t t' : tree) : Prop :=
  exists rt c r, saturated rt /\ flatten rt = t_nodes t /\ subtree_at rt (p_before c) (p_sub c) (p_after c) /\
    ~ In (label (p_sub c)) (p_before c) /\ eligible (label rt) None (label (p_sub c)) /\
    program t mn (Nat.max mn mx) 0 (delivers (label (p_sub c))) r /\ t' = filled t c r.

(** A place which subtree crossover may choose in a tree, for a wanted type. *)
Definition choosable (wanted : option ty) (t : tree) (c : place) : Prop :=
  exists rt, saturated rt /\ flatten rt = t_nodes t /\ subtree_at rt (p_before c) (p_sub c) (p_after c) /\
    ~ In (label (p_sub c)) (p_before c) /\ eligible (label rt) wanted (label (p_sub c)).

(** A place is chosen freely in the first tree and with the same type in the others; then the subtrees go around. *)
Definition exchanged (ts ts' : list tree) : Prop :=
  exists t rest c cs, ts = t :: rest /\ choosable None t c /\ Forall2 (choosable (delivers (label (p_sub c)))) rest cs /\
    ts' = filled_all ts (c :: cs) (rotate (map p_sub (c :: cs))).
