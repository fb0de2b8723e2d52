(** Properties of vector individuals, their operators and creators: C10 to C18. *)
From Verif.Model Require Import Operators Creators.
From Verif.Spec Require Import WorldSpec VectorSpec.
From Verif.Proofs Require Import VecFinalP VecEffectP.
From Coq Require Import Sorted.

(** ** C10 *)

(** K-point crossover, applied with any probability and any draws, returns its individuals, keeps the lengths and
    exchanges genes position by position. *)
Theorem C10_crossover_mixes_positions : forall op k a b rest w va vb, op_kind op = OKPoint k -> a <> b -> present rest w ->
  vec_at w a va -> vec_at w b vb -> vsize va = vsize vb -> k < vsize va ->
  exists ca cb w', apply_operator op (a :: b :: rest) w = (Ok (a :: b :: rest), w') /\
    vec_at w' a (with_cells va ca) /\ vec_at w' b (with_cells vb cb) /\
    position_mix (v_cells va) (v_cells vb) ca cb.
Proof. exact crossover_op. Qed.
Print Assumptions C10_crossover_mixes_positions.

(** Hence per-position bounds that both parents satisfy are kept. *)
Theorem C10_crossover_keeps_bounds : forall op k a b rest w va vb, op_kind op = OKPoint k -> a <> b -> present rest w ->
  vec_at w a va -> vec_at w b vb -> vsize va = vsize vb -> k < vsize va ->
  forall bd, in_box bd (v_cells va) -> in_box bd (v_cells vb) ->
  exists va' vb' w', apply_operator op (a :: b :: rest) w = (Ok (a :: b :: rest), w') /\
    vec_at w' a va' /\ vec_at w' b vb' /\ vsize va' = vsize va /\ vsize vb' = vsize vb /\
    in_box bd (v_cells va') /\ in_box bd (v_cells vb').
Proof. exact crossover_in_box. Qed.
Print Assumptions C10_crossover_keeps_bounds.

Definition v123 : vec := mkVec KFloat (BPair (Fin 0) (Fin 9)) 3 [Fin 1; Fin 2; Fin 3].
Definition v456 : vec := mkVec KFloat (BPair (Fin 0) (Fin 9)) 3 [Fin 4; Fin 5; Fin 6].
Definition two_vectors (g : rng) : world := mkWorld [plain_ind 0 (GVec v123); plain_ind 1 (GVec v456)] 2 g.

Example C10_example : forall g,
  vec_at (two_vectors g) 0 v123 /\ vec_at (two_vectors g) 1 v456 /\ vsize v123 = vsize v456 /\ 2 < vsize v123 /\
  in_box (v_bounds v123) (v_cells v123) /\ in_box (v_bounds v123) (v_cells v456).
Proof.
  intros g. split; [eexists; split; reflexivity|]. split; [eexists; split; reflexivity|].
  split; [reflexivity|]. split; [unfold vsize; simpl; lia|].
  split; intros [|[|[|i]]] x Hx; try (destruct i; discriminate); injection Hx as <-; exists (Fin 0), (Fin 9); repeat split.
Qed.

(** ** C11 *)

(** One-point crossover exchanges the prefixes before a point strictly inside the vectors. *)
Theorem C11_one_point : forall op a b rest w va vb, op_kind op = OKPoint 1 -> a <> b -> present rest w ->
  nle (Fin 1) (op_prob op) = true ->
  vec_at w a va -> vec_at w b vb -> vsize va = vsize vb -> 2 <= vsize va ->
  exists p w', 1 <= p < vsize va /\ apply_operator op (a :: b :: rest) w = (Ok (a :: b :: rest), w') /\
    vec_at w' a (with_cells va (firstn p (v_cells vb) ++ skipn p (v_cells va))) /\
    vec_at w' b (with_cells vb (firstn p (v_cells va) ++ skipn p (v_cells vb))).
Proof. exact one_point_op. Qed.
Print Assumptions C11_one_point.

Example C11_one_point_example :
  let w := two_vectors (tape [mkDraw 0 0; mkDraw 1 0]) in
  let r := apply_operator (mkOper (OKPoint 1) (Fin 1) 2 1) [0; 1] w in
  fst r = Ok [0; 1] /\
  cells_at (snd r) 0 = Some [Fin 4; Fin 5; Fin 3] /\ cells_at (snd r) 1 = Some [Fin 1; Fin 2; Fin 6].
Proof. vm_compute. repeat split. Qed.

(** Two-point crossover: exactly the positions that are exchanged. *)
Theorem C11_two_point_effect : forall p1 p2 v1 v2, length v1 = length v2 -> 1 <= p1 < p2 -> p2 < length v1 ->
  exists a b, swap_vector_parts 2 v1 v2 [p1; p2] = Ok (a, b) /\
    forall i, i < length v1 ->
      let swapped := (i <? p1) || (if p1 <? 3 then p2 <=? i else i =? length v1 - 1) in
      nth_error a i = (if swapped then nth_error v2 i else nth_error v1 i) /\
      nth_error b i = (if swapped then nth_error v1 i else nth_error v2 i).
Proof. exact two_point. Qed.
Print Assumptions C11_two_point_effect.

(** It is what is documented only in special cases. *)
Theorem C11_two_point_documented : forall p1 p2 v1 v2, length v1 = length v2 -> 1 <= p1 < p2 -> p2 < length v1 ->
  p1 < 3 \/ p2 = length v1 - 1 ->
  swap_vector_parts 2 v1 v2 [p1; p2] = Ok (kpoint_spec [p1; p2] v1 v2).
Proof. exact two_point_documented. Qed.
Print Assumptions C11_two_point_documented.

(** For every k >= 2 there are vectors and valid points where the result is not k-point crossover. *)
Theorem C11_k_points_refuted : forall k, 2 <= k ->
  exists v1 v2 pts a b, length v1 = length v2 /\ length pts = k /\ StronglySorted lt pts /\
    (forall p, In p pts -> 1 <= p < length v1) /\
    swap_vector_parts k v1 v2 pts = Ok (a, b) /\ (a, b) <> kpoint_spec pts v1 v2.
Proof. exact kpoint_wrong. Qed.
Print Assumptions C11_k_points_refuted.

Example C11_example :
  let a := [Fin 0; Fin 0; Fin 0; Fin 0; Fin 0; Fin 0] in let b := [Fin 1; Fin 1; Fin 1; Fin 1; Fin 1; Fin 1] in
  swap_vector_parts 2 a b [2; 4] = Ok (kpoint_spec [2; 4] a b) /\
  fst (kpoint_spec [3; 4] a b) = [Fin 1; Fin 1; Fin 1; Fin 0; Fin 1; Fin 1] /\
  swap_vector_parts 2 a b [3; 4] = Ok ([Fin 1; Fin 1; Fin 1; Fin 0; Fin 0; Fin 1], [Fin 0; Fin 0; Fin 0; Fin 1; Fin 1; Fin 0]).
Proof. repeat split. Qed.

(** ** C12 *)

(** Whatever a vector mutation does (succeed, fail or raise), every sound vector stays one: in bounds, same length. *)
Theorem C12_mutation_in_bounds : forall op m n inds w o v, op_kind op = OVecMut m n -> finite_params m ->
  all_sound inds w -> vec_at w o v -> sound_vec v ->
  exists v', vec_at (snd (apply_operator op inds w)) o v' /\ sound_vec v' /\ same_shape v v'.
Proof. exact mutation_sound. Qed.
Print Assumptions C12_mutation_in_bounds.

(** Mutating one individual changes at most [n] cells, over all attempts and the fallback. *)
Theorem C12_at_most_n_cells : forall op m n o w v, op_kind op = OVecMut m n -> finite_params m -> counts m n ->
  vec_at w o v -> sound_vec v ->
  exists v', vec_at (snd (apply_operator op [o] w)) o v' /\ differ_at_most n (v_cells v) (v_cells v').
Proof. exact mutation_at_most. Qed.
Print Assumptions C12_at_most_n_cells.

(** Uniform mutations succeed at the first attempt. *)
Theorem C12_uniform_never_fails : forall op m n inds w, op_kind op = OVecMut m n -> 1 <= op_attempts op -> finite_params m ->
  all_vec (fun v => draws_inside m v /\ enough m n v) inds w ->
  exists w', apply_operator op inds w = (Ok inds, w') /\ all_sound inds w'.
Proof. exact inside_never_fails. Qed.
Print Assumptions C12_uniform_never_fails.

(** The vector is as it was, or the selected cells got values such as the class of the operator promises: a draw from the
    bounds of the cell, noise added to the old value, the other bit.  A Gaussian mutation may end as a uniform one. *)
Theorem C12_effect : forall op m n o w v, op_kind op = OVecMut m n -> finite_params m -> vec_at w o v -> sound_vec v ->
  exists v', vec_at (snd (apply_operator op [o] w)) o v' /\
    (v' = v \/ cells_mutated m n v v' \/
     match m with MGaussOne _ _ => cells_mutated MUniformOne 1 v v' | MGaussN _ _ => cells_mutated MUniformN n v v' | _ => False end).
Proof. exact mutation_effect. Qed.
Print Assumptions C12_effect.

(** With probability one the cells are mutated. *)
Theorem C12_applied : forall op m n o w v, op_kind op = OVecMut m n -> 1 <= op_attempts op -> nle (Fin 1) (op_prob op) = true ->
  vec_at w o v -> sound_vec v -> draws_inside m v -> enough m n v ->
  exists v' w', apply_operator op [o] w = (Ok [o], w') /\ vec_at w' o v' /\ cells_mutated m n v v'.
Proof. exact mutation_applied. Qed.
Print Assumptions C12_applied.

(** Vectors of integers keep integers. *)
Theorem C12_integers_kept : forall op m n o w v, op_kind op = OVecMut m n -> ~ is_gauss m -> vec_at w o v -> sound_vec v ->
  v_kind v <> KFloat -> Forall integral (v_cells v) ->
  exists v', vec_at (snd (apply_operator op [o] w)) o v' /\ Forall integral (v_cells v').
Proof. exact integers_kept. Qed.
Print Assumptions C12_integers_kept.

(** Three cells of an integer vector, each redrawn with probability 1/2: the first and the last one are. *)
Definition ints3 : vec := mkVec KInt (BPair (nof_Z 0) (nof_Z 9)) 3 [nof_Z 1; nof_Z 2; nof_Z 3].
Example C12_effect_example : sound_vec ints3 /\ Forall integral (v_cells ints3) /\ draws_inside (MIntOne (Fin (1 # 2))) ints3 /\
  let r := apply_operator (mkOper (OVecMut (MIntOne (Fin (1 # 2))) 1) (Fin 1) 1 2) [0]
     (mkWorld [plain_ind 0 (GVec ints3)] 1 (tape [mkDraw 0 0; mkDraw 0 0; mkDraw 7 0; mkDraw 9007199254740991 0; mkDraw 0 0; mkDraw 5 0])) in
  fst r = Ok [0] /\ cells_at (snd r) 0 = Some [nof_Z 7; nof_Z 2; nof_Z 5].
Proof.
  split.
  { split; [reflexivity|]. split; [exists 0%Q, 9%Q; split; [reflexivity|discriminate]|].
    split; [intros _; split; eexists; reflexivity|]. split; [exact I|].
    intros i x Hi. exists (nof_Z 0), (nof_Z 9). split; [reflexivity|].
    destruct i as [|[|[|i]]]; [| | |destruct i; discriminate]; injection Hi as <-; split; reflexivity. }
  split; [repeat constructor; eexists; reflexivity|]. split; [discriminate|]. split; vm_compute; reflexivity.
Qed.

(** With two individuals the limit [n] does not hold: a failed attempt keeps the changes of the first one. *)
Theorem C12_two_individuals_refuted : exists op m n inds w w' o v v',
  op_kind op = OVecMut m n /\ finite_params m /\ counts m n /\ all_sound inds w /\ In o inds /\ vec_at w o v /\
  apply_operator op inds w = (Ok inds, w') /\ vec_at w' o v' /\ ~ differ_at_most n (v_cells v) (v_cells v').
Proof. exact arity_two_wrong. Qed.
Print Assumptions C12_two_individuals_refuted.

Example C12_example : sound_vec v123 /\ finite_params (MGaussN (Fin 0) (Fin 1)) /\ counts (MGaussN (Fin 0) (Fin 1)) 2 /\
  draws_inside MUniformN v123 /\ enough MUniformN 2 v123 /\
  all_vec (fun v => draws_inside MUniformN v /\ enough MUniformN 2 v) [0] (two_vectors (tape [])) /\
  cells_at (snd (apply_operator (mkOper (OVecMut (MGaussN (Fin 0) (Fin 1)) 2) (Fin 1) 1 2) [0]
     (two_vectors (tape [mkDraw 0 0; mkDraw 0 0; mkDraw 0 0; mkDraw 0 (99); mkDraw 0 0;
                         mkDraw 1 0; mkDraw 0 0; mkDraw 0 (3); mkDraw 0 2])))) 0 = Some [Fin 3; Fin 5; Fin 3].
Proof.
  assert (S : sound_vec v123).
  { split; [reflexivity|]. split; [exists 0%Q, 9%Q; split; [reflexivity|discriminate]|].
    split; [intros H; contradiction H; reflexivity|]. split; [exact I|].
    intros [|[|[|i]]] x Hx; try (destruct i; discriminate); injection Hx as <-; exists (Fin 0), (Fin 9); repeat split. }
  split; [exact S|]. split; [split; reflexivity|]. split; [exact I|]. split; [discriminate|]. split; [unfold enough, vsize; simpl; lia|].
  split. { intros o [<-|[]]. exists v123. split; [eexists; split; reflexivity|]. split; [exact S|].
           split; [discriminate|unfold enough, vsize; simpl; lia]. }
  vm_compute. reflexivity.
Qed.

(** ** C13 *)

(** A Gaussian mutation of sound float vectors never raises, and ends in bounds: the uniform mutation takes over
    when all attempts leave the bounds. *)
Theorem C13_gauss_ends_in_bounds : forall op m n inds w, op_kind op = OVecMut m n -> is_gauss m -> finite_params m -> 1 <= n ->
  all_vec (fun v => v_kind v = KFloat /\ n <= vsize v) inds w ->
  exists w', apply_operator op inds w = (Ok inds, w') /\ all_sound inds w'.
Proof. exact gauss_total. Qed.
Print Assumptions C13_gauss_ends_in_bounds.

(** A draw far out of bounds in both attempts; then a uniform draw of the fallback. *)
Example C13_example :
  let r := apply_operator (mkOper (OVecMut (MGaussOne (Fin 0) (Fin 1)) 1) (Fin 1) 1 2) [0]
     (two_vectors (tape [mkDraw 0 0; mkDraw 0 0; mkDraw 0 99; mkDraw 0 0; mkDraw 0 (-99);
                         mkDraw 0 0; mkDraw 1 0; mkDraw 0 0])) in
  fst r = Ok [0] /\
  match cells_at (snd r) 0 with Some [a; Fin b; c] => a = Fin 1 /\ (b == 0)%Q /\ c = Fin 3 | _ => False end.
Proof. vm_compute. repeat split. Qed.

(** ** C14 *)

(** Bit strings stay bit strings of the same length, whatever a bit mutation does. *)
Theorem C14_bits_kept : forall op m n inds w o v, op_kind op = OVecMut m n -> bit_mut m ->
  (forall o, In o inds -> exists v, vec_at w o v /\ bit_string v) -> vec_at w o v -> bit_string v ->
  exists v', vec_at (snd (apply_operator op inds w)) o v' /\ bit_string v' /\ vsize v' = vsize v.
Proof. exact bits_kept. Qed.
Print Assumptions C14_bits_kept.

Theorem C14_at_most_n_flips : forall op m n o w v, op_kind op = OVecMut m n -> bit_mut m -> vec_at w o v -> bit_string v ->
  exists v', vec_at (snd (apply_operator op [o] w)) o v' /\ differ_at_most n (v_cells v) (v_cells v').
Proof. exact bits_at_most. Qed.
Print Assumptions C14_at_most_n_flips.

(** The one-point flip changes exactly one cell. *)
Theorem C14_flip_one : forall op o w v, op_kind op = OVecMut MBitFlip 1 -> 1 <= op_attempts op ->
  nle (Fin 1) (op_prob op) = true -> vec_at w o v -> bit_string v -> 1 <= vsize v ->
  exists v' w', apply_operator op [o] w = (Ok [o], w') /\ vec_at w' o v' /\ differ_at_one (v_cells v) (v_cells v').
Proof. exact bit_flip_one. Qed.
Print Assumptions C14_flip_one.

(** Flipping twice gives the bit back. *)
Theorem C14_flip_involutive : forall v i x y, bit_string v -> bit_flip v i = Ok x ->
  bit_flip (with_cells v (list_set (v_cells v) i x)) i = Ok y -> cell_value v i = Ok y.
Proof. exact bit_flip_twice. Qed.
Print Assumptions C14_flip_involutive.

(** "Traverse the vector and flip each bit with a probability" is false with the default [n] = 1: two bits never flip,
    however large the probability. *)
Theorem C14_nflip_default_one_bit : forall op p o w v, op_kind op = OVecMut (MBitNFlip p) 1 -> vec_at w o v -> bit_string v ->
  exists v', vec_at (snd (apply_operator op [o] w)) o v' /\ differ_at_most 1 (v_cells v) (v_cells v').
Proof. exact nflip_default. Qed.
Print Assumptions C14_nflip_default_one_bit.

Definition bits : vec := mkVec KBit (BPair (Fin 0) (Fin 1)) 3 [Fin 1; Fin 0; Fin 1].
Example C14_example : bit_string bits /\
  let r := apply_operator (mkOper (OVecMut MBitFlip 1) (Fin 1) 1 1) [0]
             (mkWorld [plain_ind 0 (GVec bits)] 1 (tape [mkDraw 0 0; mkDraw 1 0])) in
  fst r = Ok [0] /\ cells_at (snd r) 0 = Some [Fin 1; Fin 1; Fin 1].
Proof.
  split; [split; [reflexivity|]; split; [reflexivity|]; split; [reflexivity|]; repeat (apply Forall_cons; [auto|]); apply Forall_nil|].
  vm_compute. repeat split.
Qed.

(** ** C15 *)

Theorem C15_check_decides : forall v, no_nan (v_cells v) -> no_nan_bounds (v_bounds v) ->
  match v_bounds v with BCells l => length l = length (v_cells v) /\ length l <> 2 | _ => True end ->
  exists r, check_if_in_bounds v = Ok r /\ (r = true <-> in_box (v_bounds v) (v_cells v)).
Proof. exact check_in_box. Qed.
Print Assumptions C15_check_decides.

(** With per-cell bounds and length 2 it raises instead. *)
Theorem C15_length_two_raises : forall v l, v_bounds v = BCells l -> length l = 2 -> v_cells v <> [] ->
  check_if_in_bounds v = Raise TypeError.
Proof. exact check_length_two. Qed.
Print Assumptions C15_length_two_raises.

Example C15_example :
  check_if_in_bounds (mkVec KInt (BCells [(Fin 0, Fin 1); (Fin 2, Fin 3); (Fin 4, Fin 5)]) 3 [Fin 1; Fin 3; Fin 4]) = Ok true /\
  check_if_in_bounds (mkVec KInt (BCells [(Fin 0, Fin 1); (Fin 2, Fin 3); (Fin 4, Fin 5)]) 3 [Fin 1; Fin 3; Fin 3]) = Ok false /\
  check_if_in_bounds (mkVec KInt (BCells [(Fin 0, Fin 1); (Fin 2, Fin 3)]) 2 [Fin 1; Fin 3]) = Raise TypeError.
Proof. repeat split. Qed.

(** ** C16 *)

(** The creators of vectors never raise for valid bounds; they return [n] new individuals, not evaluated, each with
    a vector of the requested length within the bounds, and change no other object. *)
Theorem C16_creators : forall len b k fc upd n h w, creatable len b k ->
  exists l w', create_vectors len b k fc upd n h w = (Ok l, w') /\
    length l = n /\ NoDup l /\ (forall o, In o l -> length (w_heap w) <= o) /\
    frame (fun _ => False) w w' /\
    forall o, In o l -> newborn w' o fc h upd /\
      exists v, vec_at w' o v /\ v_kind v = k /\ v_bounds v = b /\ v_length v = len /\ vsize v = len /\
                in_box b (v_cells v) /\ (k <> KFloat -> Forall integral (v_cells v)).
Proof. exact creators_ok. Qed.
Print Assumptions C16_creators.

(** With the default bounds of integer vectors, creation always raises ValueError. *)
Theorem C16_int_default_bounds_raise : forall fc upd len n h w, 1 <= len -> 1 <= n ->
  exists w', create_vectors len int_default_bounds KInt fc upd n h w = (Raise ValueError, w').
Proof. exact create_default_int. Qed.
Print Assumptions C16_int_default_bounds_raise.

(** Those of the other vectors do not. *)
Theorem C16_other_default_bounds : forall len, float_default_bounds = BPair (Fin 0) (Fin 1) /\ bit_default_bounds = BPair (Fin 0) (Fin 1) /\
  creatable len float_default_bounds KFloat /\ creatable len bit_default_bounds KBit.
Proof. exact other_defaults. Qed.
Print Assumptions C16_other_default_bounds.

Example C16_example : creatable 2 (BCells [(nof_Z 1, nof_Z 3); (nof_Z 5, nof_Z 5)]) KInt /\
  let r := create_vectors 2 (BCells [(nof_Z 1, nof_Z 3); (nof_Z 5, nof_Z 5)]) KInt KSimple false 2 (HB true)
             (two_vectors (tape [mkDraw 1 0; mkDraw 0 0; mkDraw 2 0; mkDraw 0 0])) in
  fst r = Ok [2; 3] /\
  cells_at (snd r) 2 = Some [nof_Z 2; nof_Z 5] /\ cells_at (snd r) 3 = Some [nof_Z 3; nof_Z 5].
Proof.
  split.
  - split; [split; [reflexivity|]|].
    { repeat (apply Forall_cons; [eexists; eexists; split; [reflexivity|discriminate]|]). apply Forall_nil. }
    split; [intros _|discriminate].
    repeat (apply Forall_cons; [split; eexists; reflexivity|]). apply Forall_nil.
  - vm_compute. repeat split.
Qed.

(** ** C17 *)

(** Replacing a part inside the vector: the old part is returned, the length is kept, only the addressed
    positions change, and putting the old part back restores the vector. *)
Theorem C17_replace_part : forall v part start, start + length part <= vsize v ->
  let r := replace_vector_part v part start in
  length (fst r) = length part /\ vsize (snd r) = vsize v /\
  get_vector_part (snd r) start (start + length part) = part /\
  (forall i, i < start \/ start + length part <= i ->
     nth_error (v_cells (snd r)) i = nth_error (v_cells v) i) /\
  fst r = get_vector_part v start (start + length part) /\
  snd (replace_vector_part (snd r) (fst r) start) = v /\
  fst (replace_vector_part (snd r) (fst r) start) = part.
Proof. exact part_get. Qed.
Print Assumptions C17_replace_part.

(** A part that does not fit silently grows the vector, and the [length] attribute gets stale. *)
Theorem C17_overlong_part_grows : forall v part start, v_length v = vsize v -> start <= vsize v -> vsize v < start + length part ->
  vsize (snd (replace_vector_part v part start)) = start + length part /\
  v_length (snd (replace_vector_part v part start)) < vsize (snd (replace_vector_part v part start)).
Proof. exact part_overlong. Qed.
Print Assumptions C17_overlong_part_grows.

(** A cell is set, and no other; beyond the end IndexError is raised. *)
Theorem C17_set_cell : forall v i x, i < vsize v ->
  exists v', set_cell_value v i x = Ok v' /\ cell_value v' i = Ok x /\ (forall j, j <> i -> cell_value v' j = cell_value v j) /\
    vsize v' = vsize v /\ v_kind v' = v_kind v /\ v_bounds v' = v_bounds v /\ v_length v' = v_length v.
Proof. exact set_cell. Qed.
Print Assumptions C17_set_cell.

Theorem C17_set_cell_beyond : forall v i x, vsize v <= i -> set_cell_value v i x = Raise IndexError /\ cell_value v i = Raise IndexError.
Proof. exact set_cell_beyond. Qed.
Print Assumptions C17_set_cell_beyond.

(** The constructor accepts exactly cells, and per-cell bounds, of the length given. *)
Theorem C17_constructor : forall k b len c,
  (length c = len /\ (forall l, b = BCells l -> length l = len) -> exists v, vector_init k b len (Some c) = Ok v /\
     v_kind v = k /\ v_bounds v = b /\ v_length v = len /\ v_cells v = c) /\
  (length c <> len \/ (exists l, b = BCells l /\ length l <> len) -> vector_init k b len (Some c) = Raise ValueError).
Proof. exact constructed. Qed.
Print Assumptions C17_constructor.

(** Emptied and filled again, a vector has the length of its cells; set_vector forgets the old cells. *)
Theorem C17_refilled : forall v c, fold_left add_cell c (empty_vector v) = set_vector v c /\
  v_length (set_vector v c) = vsize (set_vector v c) /\ v_cells (set_vector v c) = c.
Proof. exact refilled. Qed.
Print Assumptions C17_refilled.

(** A cell is added at the end. *)
Theorem C17_add_cell : forall v x, v_length v = vsize v ->
  let v' := add_cell v x in
  v_length v' = vsize v' /\ vsize v' = S (vsize v) /\ v_kind v' = v_kind v /\ v_bounds v' = v_bounds v /\
  (forall i, i < vsize v -> cell_value v' i = cell_value v i) /\ cell_value v' (vsize v) = Ok x.
Proof. exact add_cell_end. Qed.
Print Assumptions C17_add_cell.

Example C17_add_cell_example : v_length v123 = vsize v123 /\ v_cells (add_cell v123 (Fin 7)) = [Fin 1; Fin 2; Fin 3; Fin 7].
Proof. split; reflexivity. Qed.

(** The random variant always replaces inside the vector, and raises if the part is longer than the vector. *)
Theorem C17_replace_random : forall v part g r g', replace_vector_part_random v part g = (Ok r, g') ->
  exists i, i + length part <= vsize v /\ r = replace_vector_part v part i.
Proof. exact part_random. Qed.
Print Assumptions C17_replace_random.

Theorem C17_replace_random_too_long : forall v part g, vsize v < length part ->
  replace_vector_part_random v part g = (Raise ValueError, g).
Proof. exact part_random_raises. Qed.
Print Assumptions C17_replace_random_too_long.

(** A random part is a contiguous non-empty part. *)
Theorem C17_random_part : forall v g p g', random_vector_part v g = (Ok p, g') ->
  p <> [] /\ exists pre post, v_cells v = pre ++ p ++ post.
Proof. exact random_part. Qed.
Print Assumptions C17_random_part.

Example C17_example :
  replace_vector_part v123 [Fin 7; Fin 8] 1 = ([Fin 2; Fin 3], with_cells v123 [Fin 1; Fin 7; Fin 8]) /\
  fst (random_vector_part v123 (tape [mkDraw 1 0; mkDraw 1 0])) = Ok [Fin 2; Fin 3] /\
  v_cells (snd (replace_vector_part v123 [Fin 7; Fin 8] 2)) = [Fin 1; Fin 2; Fin 7; Fin 8] /\
  fst (replace_vector_part_random v123 [Fin 7; Fin 8] (tape [mkDraw 0 0])) = Ok ([Fin 1; Fin 2], with_cells v123 [Fin 7; Fin 8; Fin 3]) /\
  set_cell_value v123 2 (Fin 9) = Ok (with_cells v123 [Fin 1; Fin 2; Fin 9]) /\ set_cell_value v123 3 (Fin 9) = Raise IndexError /\
  vector_init KInt (BCells [(Fin 0, Fin 1)]) 1 (Some [Fin 1]) = Ok (mkVec KInt (BCells [(Fin 0, Fin 1)]) 1 [Fin 1]).
Proof. repeat split. Qed.

(** ** C18 *)

(** VectorNPointMutation with its default value getter raises TypeError, after the fitness of all given individuals was reset. *)
Theorem C18_default_getter_raises : forall op n o rest w v, op_kind op = OVecMut MBase n -> 1 <= op_attempts op ->
  nle (Fin 1) (op_prob op) = true -> NoDup (o :: rest) -> present (o :: rest) w ->
  vec_at w o v -> 1 <= n <= vsize v ->
  exists w', apply_operator op (o :: rest) w = (Raise TypeError, w') /\
             forall o', In o' (o :: rest) -> unevaluated w' o'.
Proof. exact base_mutation_raises. Qed.
Print Assumptions C18_default_getter_raises.

(** A vector with two cells out of bounds cannot be repaired by a one-point mutation: all attempts fail, and
    [apply_operator] raises TypeError because [on_fail] returns None. *)
Theorem C18_failing_mutation_raises : forall op o w v a b, op_kind op = OVecMut MUniformOne 1 ->
  nle (Fin 1) (op_prob op) = true -> vec_at w o v -> wf_vec v -> v_kind v = KFloat ->
  a <> b -> (exists x, nth_error (v_cells v) a = Some x /\ ~ in_cell v a x) ->
  (exists x, nth_error (v_cells v) b = Some x /\ ~ in_cell v b x) ->
  exists w', apply_operator op [o] w = (Raise TypeError, w') /\ unevaluated w' o.
Proof. exact stuck_mutation. Qed.
Print Assumptions C18_failing_mutation_raises.

Definition outside : vec := mkVec KFloat (BPair (Fin 0) (Fin 1)) 3 [Fin 7; Fin (1 # 2); Fin 9].
Example C18_example :
  fst (apply_operator (mkOper (OVecMut MBase 1) (Fin 1) 1 5) [0; 1] (two_vectors (tape []))) = Raise TypeError /\
  wf_vec outside /\
  (exists x, nth_error (v_cells outside) 0 = Some x /\ ~ in_cell outside 0 x) /\
  (exists x, nth_error (v_cells outside) 2 = Some x /\ ~ in_cell outside 2 x) /\
  fst (apply_operator (mkOper (OVecMut MUniformOne 1) (Fin 1) 1 5) [0] (mkWorld [plain_ind 0 (GVec outside)] 1 (tape []))) = Raise TypeError.
Proof.
  split; [vm_compute; reflexivity|]. split.
  { split; [reflexivity|]. split; [exists 0%Q, 1%Q; split; [reflexivity|discriminate]|].
    split; [intros H; contradiction H; reflexivity|]. split; [exact I|]. repeat constructor. }
  assert (N : forall i x, nle x (Fin 1) = false -> ~ in_cell outside i x).
  { intros i x Hx (lo & hi & Hb & _ & H). injection Hb as <- <-. congruence. }
  split; [eexists; split; [reflexivity|apply N; reflexivity]|].
  split; [eexists; split; [reflexivity|apply N; reflexivity]|]. vm_compute. reflexivity.
Qed.
