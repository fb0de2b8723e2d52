(** * Vector genomes.

    Cites: eckity/genetic_encodings/ga/vector_individual.py 31-264, int_vector.py 9-62,
    float_vector.py 27-79, bit_string_vector.py 30-64.

    Simplifications: integers and floats are both [num]; cells are numbers (a bit flip with
    per-cell bounds, which would store a tuple in Python, is a TypeError here). *)
From Verif.Model Require Export Base Num Rng.

Inductive vkind := KInt | KFloat | KBit.

(** [bounds]: a tuple (lo, hi), or a list of tuples, one per cell. *)
Inductive bounds := BPair (lo hi : num) | BCells (l : list (num * num)).

Record vec := mkVec {
  v_kind : vkind;
  v_bounds : bounds;
  v_length : nat;        (* the [length] attribute *)
  v_cells : list num     (* the [vector] attribute *)
}.

Definition with_cells (v : vec) (c : list num) : vec :=
  mkVec (v_kind v) (v_bounds v) (v_length v) c.

(** vector_individual.py 31-58: constructor; [None] cells give an empty vector whatever [length]. *)
Definition vector_init (k : vkind) (b : bounds) (len : nat) (cells : option (list num)) : res vec :=
  let bad := match b with BPair _ _ => false | BCells l => negb (length l =? len) end in
  if bad then Raise ValueError
  else match cells with
       | None => Ok (mkVec k b len [])
       | Some c => if length c =? len then Ok (mkVec k b len c) else Raise ValueError
       end.

(** int_vector.py 9-10 and 34: default bounds of IntVector; float_vector.py 31; bit_string_vector.py 32. *)
Definition int_default_bounds : bounds := BPair (nof_Z 2147483647) (nof_Z (-2147483648)).
Definition float_default_bounds : bounds := BPair (Fin 0) (Fin 1).
Definition bit_default_bounds : bounds := BPair (Fin 0) (Fin 1).

(** vector_individual.py 60-69 *)
Definition vsize (v : vec) : nat := length (v_cells v).

(** vector_individual.py 82-102.  The test is [len(self.bounds) == 2], so per-cell bounds of a vector of
    length 2 are compared as if they were a pair: number < tuple is a TypeError. *)
Fixpoint in_bounds_from (b : bounds) (i : nat) (cells : list num) : res bool :=
  match cells with
  | [] => Ok true
  | x :: rest =>
      match b with
      | BPair lo hi => if nlt x lo || nlt hi x then Ok false else in_bounds_from b (S i) rest
      | BCells l =>
          if length l =? 2 then Raise TypeError
          else match nth_error l i with
               | None => Raise IndexError
               | Some (lo, hi) =>
                   if nlt x lo || nlt hi x then Ok false else in_bounds_from b (S i) rest
               end
      end
  end.

Definition check_if_in_bounds (v : vec) : res bool := in_bounds_from (v_bounds v) 0 (v_cells v).

(** vector_individual.py 104-113 *)
Definition add_cell (v : vec) (x : num) : vec :=
  mkVec (v_kind v) (v_bounds v) (S (v_length v)) (v_cells v ++ [x]).

(** vector_individual.py 115-124 *)
Definition empty_vector (v : vec) : vec := mkVec (v_kind v) (v_bounds v) 0 [].

(** vector_individual.py 126-140 *)
Definition set_vector (v : vec) (c : list num) : vec :=
  mkVec (v_kind v) (v_bounds v) (length c) c.

(** vector_individual.py 153-165 *)
Definition random_vector_part (v : vec) : R (list num) :=
  if vsize v =? 0 then raise ValueError     (* randint(0, -1) *)
  else i <- randbelow (vsize v) ;;
       d <- randbelow (vsize v - i) ;;
       ret (py_slice (v_cells v) (Z.of_nat i) (Z.of_nat (i + d) + 1)).

(** vector_individual.py 189-211: the old part and the new vector.  The [length] attribute is not updated. *)
Definition replace_vector_part (v : vec) (part : list num) (start : nat) : list num * vec :=
  let e := start + length part in
  (py_slice (v_cells v) (Z.of_nat start) (Z.of_nat e),
   with_cells v (firstn start (v_cells v) ++ part ++ skipn e (v_cells v))).

(** vector_individual.py 167-187 *)
Definition replace_vector_part_random (v : vec) (part : list num) : R (list num * vec) :=
  if vsize v <? length part then raise ValueError      (* randint(0, negative) *)
  else i <- randbelow (vsize v - length part + 1) ;;
       ret (replace_vector_part v part i).

(** vector_individual.py 213-230, non-negative arguments *)
Definition get_vector_part (v : vec) (i e : nat) : list num :=
  py_slice (v_cells v) (Z.of_nat i) (Z.of_nat e).

(** vector_individual.py 232-246 *)
Definition cell_value (v : vec) (i : nat) : res num :=
  match nth_error (v_cells v) i with Some x => Ok x | None => Raise IndexError end.

(** vector_individual.py 248-264 *)
Definition set_cell_value (v : vec) (i : nat) (x : num) : res vec :=
  rbind (py_set (v_cells v) i x) (fun c => Ok (with_cells v c)).

(** int_vector.py 46-62; float_vector.py 43-59; bit_string_vector.py 41-56 (which always uses
    [bounds[0]], [bounds[1]]: with per-cell bounds, [randint] of tuples is a TypeError). *)
Definition get_random_number_in_bounds (v : vec) (i : nat) : R num :=
  match v_kind v, v_bounds v with
  | KInt, BPair lo hi => randint lo hi
  | KFloat, BPair lo hi => uniform lo hi
  | KBit, BPair lo hi => randint lo hi
  | KBit, BCells l => if length l <? 2 then raise IndexError else raise TypeError
  | KInt, BCells l => match nth_error l i with
                      | Some (lo, hi) => randint lo hi
                      | None => raise IndexError
                      end
  | KFloat, BCells l => match nth_error l i with
                        | Some (lo, hi) => uniform lo hi
                        | None => raise IndexError
                        end
  end.

(** float_vector.py 61-79 *)
Definition get_random_number_with_gauss (v : vec) (i : nat) (mu sigma : num) : R num :=
  match v_kind v with
  | KFloat => c <- lift (cell_value v i) ;; g <- gauss mu sigma ;; ret (nadd c g)
  | _ => raise AttributeError
  end.

(** bit_string_vector.py 58-63 *)
Definition bit_flip (v : vec) (i : nat) : res num :=
  match v_kind v with
  | KBit =>
      match v_bounds v with
      | BPair lo hi => rbind (cell_value v i) (fun c => Ok (if neq_num c lo then hi else lo))
      | BCells _ => Raise TypeError
      end
  | _ => Raise AttributeError
  end.

(** simple_vector_creator.py 46-53: [create_vector] with the default gene creator. *)
Definition create_vector (len : nat) (v : vec) : R vec :=
  cells <- mapM (get_random_number_in_bounds v) (seq 0 len) ;;
  ret (set_vector v cells).

(** ** Crossover and mutation on the cells *)

(** vector_k_point_crossover.py 59-88: one loop step per [i] in range(0, len(xo), 2). *)
Fixpoint swap_loop (xo : list nat) (n_xo : nat) (start : Z) (v1 v2 : list num) (fuel i : nat)
  : res (list num * list num) :=
  match fuel with
  | O => Ok (v1, v2)
  | S fuel' =>
      match nth_error xo i with
      | None => Ok (v1, v2)                     (* range exhausted *)
      | Some e =>
          let replaced := py_slice v1 start (Z.of_nat e) in
          let v1' := py_slice_set v1 start (Z.of_nat e) (py_slice v2 start (Z.of_nat e)) in
          let v2' := py_slice_set v2 start (Z.of_nat e) replaced in
          if e <? n_xo
          then match nth_error xo (S i) with
               | None => Raise IndexError
               | Some s => swap_loop xo n_xo (Z.of_nat s) v1' v2' fuel' (i + 2)
               end
          else swap_loop xo n_xo (-1)%Z v1' v2' fuel' (i + 2)
      end
  end.

Definition swap_vector_parts (k : nat) (v1 v2 : list num) (xo : list nat)
  : res (list num * list num) :=
  let xo' := if length xo =? k then xo ++ [length v1] else xo in
  swap_loop xo' (length xo') 0%Z v1 v2 (length xo') 0.

(** vector_k_point_crossover.py 36-57: the points, then the swap.  Values of [range(1, n)]. *)
Definition xo_points (k n : nat) : R (list nat) :=
  p <- sample (seq 1 (n - 1)) k ;; ret (sort_stable Nat.ltb p).

(** Mutation kinds of vector_random_mutation.py: how new values and cells are chosen. *)
Inductive vmut :=
| MUniformOne                       (* FloatVectorUniformOnePointMutation 24-50 *)
| MUniformN                         (* FloatVectorUniformNPointMutation 53-79 *)
| MGaussOne (mu sigma : num)        (* FloatVectorGaussOnePointMutation 82-136 *)
| MGaussN (mu sigma : num)          (* FloatVectorGaussNPointMutation 139-194 *)
| MIntOne (p_each : num)            (* IntVectorOnePointMutation 197-220 *)
| MIntN                             (* IntVectorNPointMutation 223-249 *)
| MBitFlip                          (* BitStringVectorFlipMutation 252-276 *)
| MBitNFlip (p_each : num)          (* BitStringVectorNFlipMutation 279-318 *)
| MBase.                            (* VectorNPointMutation with its default getter *)

(** [mut_val_getter] of each class; vector_n_point_mutation.py 70-72 for the default, which passes one
    argument too many ([vec] is already bound). *)
Definition mut_val (m : vmut) (v : vec) (i : nat) : R num :=
  match m with
  | MUniformOne | MUniformN | MIntN => get_random_number_in_bounds v i
  | MGaussOne mu sigma | MGaussN mu sigma => get_random_number_with_gauss v i mu sigma
  | MIntOne p => u <- random_unit ;;
                 if nle u p then get_random_number_in_bounds v i else lift (cell_value v i)
  | MBitFlip => lift (bit_flip v i)
  | MBitNFlip p => u <- random_unit ;;
                   if nle u p then lift (bit_flip v i) else lift (cell_value v i)
  | MBase => raise TypeError
  end.

(** vector_n_point_mutation.py 78-80; vector_random_mutation.py 220 for the int one-point mutation,
    which selects all cells. *)
Definition cell_selector (m : vmut) (n : nat) (v : vec) : R (list nat) :=
  match m with
  | MIntOne _ => ret (seq 0 (vsize v))
  | _ => sample (seq 0 (vsize v)) n
  end.

(** vector_n_point_mutation.py 116-117 *)
Fixpoint set_cells (c : list num) (pts : list nat) (vals : list num) : list num :=
  match pts, vals with
  | p :: ps, x :: xs => set_cells (list_set c p x) ps xs
  | _, _ => c
  end.
