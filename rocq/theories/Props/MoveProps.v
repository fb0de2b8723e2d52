(** * What operators can reach (C80). *)
From Coq Require Import QArith Lia Sorted.
From Verif.Spec Require Import WorldSpec VectorSpec TreeSpec ReachSpec MoveSpec.
From Verif.Proofs Require Import MoveP XoReachP.
From Verif.Model Require Import Num Rng Vector Tree World Creators Operators.
From Verif.Props Require Import VectorProps TreeProps.
Open Scope string_scope.
Open Scope nat_scope.
Open Scope list_scope.

(** ** C80 *)

(** The results of one vector mutation are exactly those with new values, independent of each other, in any n different cells. *)
Theorem C80_moves : forall op m n o w v c, op_kind op = OVecMut m n -> 1 <= op_attempts op -> nle (Fin 1) (op_prob op) = true ->
  vec_at w o v -> sound_vec v -> draws_inside m v -> enough m n v -> (v_kind v = KFloat -> wide (v_bounds v)) ->
  (step m n v c <-> exists g w', apply_operator op [o] (with_rng w g) = (Ok [o], w') /\ vec_at w' o (with_cells v c)).
Proof. exact moves. Qed.
Print Assumptions C80_moves.

(** Repeated mutation reaches every vector of the search space from every other one. *)
Theorem C80_connected : forall op m n o w v c, op_kind op = OVecMut m n -> 1 <= op_attempts op -> can_happen (op_prob op) ->
  vec_at w o v -> sound_vec v -> draws_inside m v -> enough m n v -> (v_kind v = KFloat -> wide (v_bounds v)) -> versatile m n v ->
  search_space (v_kind v) (v_bounds v) (vsize v) (v_cells v) -> search_space (v_kind v) (v_bounds v) (vsize v) c ->
  exists k g w', repeatM k (apply_operator op [o]) (with_rng w g) = (Ok (repeat [o] k), w') /\ vec_at w' o (with_cells v c).
Proof. exact connected. Qed.
Print Assumptions C80_connected.

(** But flipping an even number of bits never changes whether the number of ones is even. *)
Theorem C80_even_flips : forall op m n o, op_kind op = OVecMut m n ->
  (m = MBitFlip \/ exists p, m = MBitNFlip p /\ nle (Fin 1) p = true) -> Nat.even n = true ->
  forall k w v r w', vec_at w o v -> bit_string v -> repeatM k (apply_operator op [o]) w = (r, w') ->
  exists v', vec_at w' o v' /\ bit_string v' /\ Nat.even (ones (v_cells v')) = Nat.even (ones (v_cells v)).
Proof. exact even_flips. Qed.
Print Assumptions C80_even_flips.

(** The results of one-point crossover are exactly those of the cuts strictly inside the vectors. *)
Theorem C80_cuts : forall op a b w va vb ca cb, op_kind op = OKPoint 1 -> nle (Fin 1) (op_prob op) = true -> a <> b ->
  vec_at w a va -> vec_at w b vb -> vsize va = vsize vb -> 2 <= vsize va ->
  ((exists p, 1 <= p < vsize va /\ ca = firstn p (v_cells vb) ++ skipn p (v_cells va) /\ cb = firstn p (v_cells va) ++ skipn p (v_cells vb)) <->
   exists g w', apply_operator op [a; b] (with_rng w g) = (Ok [a; b], w') /\ vec_at w' a (with_cells va ca) /\ vec_at w' b (with_cells vb cb)).
Proof. exact cuts. Qed.
Print Assumptions C80_cuts.

(** In k-point crossover all sets of k points can be drawn. *)
Theorem C80_points : forall op k a b w va vb pts ca cb, op_kind op = OKPoint k -> can_happen (op_prob op) -> a <> b -> vec_at w a va -> vec_at w b vb ->
  length pts = k -> StronglySorted lt pts -> (forall p, In p pts -> 1 <= p < vsize va) ->
  swap_vector_parts k (v_cells va) (v_cells vb) pts = Ok (ca, cb) ->
  exists g w', apply_operator op [a; b] (with_rng w g) = (Ok [a; b], w') /\ vec_at w' a (with_cells va ca) /\ vec_at w' b (with_cells vb cb).
Proof. exact crossing. Qed.
Print Assumptions C80_points.

(** The results of subtree mutation are exactly those with a new program of the right type and depth at an eligible place. *)
Theorem C80_trees : forall op mn mx o w t t', op_kind op = OSubtreeMut mn mx -> 1 <= op_attempts op -> nle (Fin 1) (op_prob op) = true -> tree_at w o t ->
  complete_tree t -> open_for None t -> (forall n, In n (t_nodes t) -> clear_terminals t (delivers n)) -> (forall e, t_erc t = Some e -> erc_proper e) ->
  (regrown mn mx t t' <-> exists g w', apply_operator op [o] (with_rng w g) = (Ok [o], w') /\ tree_at w' o t').
Proof. exact tree_moves. Qed.
Print Assumptions C80_trees.

(** Without types every program of the depths of the operator is one mutation away from every tree. *)
Theorem C80_programs : forall op mn mx o w t r, op_kind op = OSubtreeMut mn mx -> 1 <= op_attempts op -> can_happen (op_prob op) -> tree_at w o t ->
  complete_tree t -> (forall n, In n (t_nodes t) -> delivers n = None) -> clear_terminals t None -> (forall e, t_erc t = Some e -> erc_proper e) ->
  program t mn (Nat.max mn mx) 0 None r ->
  exists g w', apply_operator op [o] (with_rng w g) = (Ok [o], w') /\ tree_at w' o (with_nodes t (flatten r)).
Proof. exact any_program. Qed.
Print Assumptions C80_programs.

(** The results of one subtree crossover, for any number of trees, are exactly those where a place is chosen in each tree, the first one freely among the
    eligible ones and the others among those eligible for its type, and the subtrees go around. *)
Theorem C80_exchanges : forall op inds ts ts' w, op_kind op = OSubtreeXO -> op_arity op = length inds -> 1 <= op_attempts op -> nle (Fin 1) (op_prob op) = true ->
  NoDup inds -> inds <> [] -> trees_at w inds ts -> Forall complete_tree ts -> matchable ts ->
  (exchanged ts ts' <-> exists g w', apply_operator op inds (with_rng w g) = (Ok inds, w') /\ trees_at w' inds ts').
Proof. exact exchange. Qed.
Print Assumptions C80_exchanges.

(** The results of one mutation of the constants are exactly those where noise is added to one of them. *)
Theorem C80_constants : forall op mu sigma o t t' w, op_kind op = OErc mu sigma -> 1 <= op_attempts op -> nle (Fin 1) (op_prob op) = true ->
  tree_at w o t -> has_number t ->
  (noised mu sigma t t' <-> exists g w', apply_operator op [o] (with_rng w g) = (Ok [o], w') /\ tree_at w' o t').
Proof. exact erc_move. Qed.
Print Assumptions C80_constants.

(** *** Examples *)

Definition mutate_one : oper := mkOper (OVecMut MIntN 1) (Fin 1) 1 5.
Definition int_world (g : rng) : world := mkWorld [plain_ind 0 (GVec ints3)] 1 g.

Lemma ints3_sound : sound_vec ints3.
Proof.
  split; [reflexivity|]. split; [do 2 eexists; split; [reflexivity|discriminate]|].
  split; [intros _; split; eexists; reflexivity|]. split; [exact I|].
  intros [|[|[|i]]] x Hx; try (destruct i; discriminate); injection Hx as <-; do 2 eexists; (split; [reflexivity|]); split; reflexivity.
Qed.

Lemma in_ints3 a b c : (0 <= a <= 9)%Z -> (0 <= b <= 9)%Z -> (0 <= c <= 9)%Z ->
  search_space KInt (BPair (nof_Z 0) (nof_Z 9)) 3 [nof_Z a; nof_Z b; nof_Z c].
Proof.
  intros Ha Hb Hc. split; [reflexivity|]. intros [|[|[|i]]] x Hx; try (destruct i; discriminate); injection Hx as <-;
    do 2 eexists; (split; [reflexivity|]); exists 0%Z, 9%Z; eexists; repeat split; (reflexivity || tauto).
Qed.

(** [1, 2, 3] becomes [1, 7, 3] in one application and [9, 9, 9] in three. *)
Example C80_moves_example : forall g, vec_at (int_world g) 0 ints3 /\ sound_vec ints3 /\ draws_inside MIntN ints3 /\ enough MIntN 1 ints3 /\
  versatile MIntN 1 ints3 /\ step MIntN 1 ints3 [nof_Z 1; nof_Z 7; nof_Z 3] /\ ~ step MIntN 1 ints3 [nof_Z 1; nof_Z 7; nof_Z 4] /\
  search_space KInt (v_bounds ints3) 3 (v_cells ints3) /\ search_space KInt (v_bounds ints3) 3 [nof_Z 9; nof_Z 9; nof_Z 9] /\
  let d n := mkDraw n 0 in
  let r := repeatM 3 (apply_operator mutate_one [0]) (int_world (tape [d 0; d 0; d 9; d 0; d 1; d 9; d 0; d 2; d 9]%N)) in
  fst r = Ok [[0]; [0]; [0]] /\ cells_at (snd r) 0 = Some [nof_Z 9; nof_Z 9; nof_Z 9].
Proof.
  intros g. split; [eexists; split; reflexivity|]. split; [exact ints3_sound|]. split; [discriminate|]. split; [unfold enough, vsize; cbn; lia|].
  split; [cbn; lia|]. split.
  { split; [reflexivity|]. exists [1]. split; [repeat constructor; intros []|]. split; [reflexivity|]. split; [intros i [<-|[]]; unfold vsize; cbn; lia|].
    intros [|[|[|i]]] x y Hx Hy; try (destruct i; discriminate); injection Hx as <-; injection Hy as <-.
    - split; [intros [E|[]]; discriminate|reflexivity].
    - split; [|intros H; destruct H; left; reflexivity]. intros _. exists (nof_Z 0), (nof_Z 9). split; [reflexivity|].
      exists 0%Z, 9%Z, 7%Z. repeat split; discriminate.
    - split; [intros [E|[]]; discriminate|reflexivity]. }
  split.
  { intros (_ & pts & N & L & _ & H). destruct pts as [|p [|q pts]]; try discriminate.
    destruct (H 1 _ _ eq_refl eq_refl) as [_ H1]. destruct (H 2 _ _ eq_refl eq_refl) as [_ H2].
    destruct (Nat.eq_dec p 1) as [->|E1].
    - assert (~ In 2 [1]) as X by (intros [E|[]]; discriminate). specialize (H2 X). discriminate.
    - assert (~ In 1 [p]) as X by (intros [E|[]]; auto). specialize (H1 X). discriminate. }
  split; [apply in_ints3; lia|]. split; [apply in_ints3; lia|]. vm_compute. split; reflexivity.
Qed.

(** Flipping two bits of 101 leads to 011 in this case, never to 111. *)
Example C80_even_flips_example : bit_string bits /\ ones (v_cells bits) = 2 /\ Nat.even 2 = true /\
  let r := apply_operator (mkOper (OVecMut (MBitNFlip (Fin 1)) 2) (Fin 1) 1 1) [0]
             (mkWorld [plain_ind 0 (GVec bits)] 1 (tape [mkDraw 0 0; mkDraw 0 0; mkDraw 1 0; mkDraw 0 0])) in
  fst r = Ok [0] /\ cells_at (snd r) 0 = Some [Fin 0; Fin 1; Fin 1].
Proof.
  split; [apply C14_example|]. split; [reflexivity|]. split; [reflexivity|]. vm_compute. split; reflexivity.
Qed.

(** Both cuts of two vectors of length three. *)
Example C80_cuts_example : forall g, vec_at (two_vectors g) 0 v123 /\ vec_at (two_vectors g) 1 v456 /\ vsize v123 = vsize v456 /\ 2 <= vsize v123 /\
  let cut d := let r := apply_operator (mkOper (OKPoint 1) (Fin 1) 2 1) [0; 1] (two_vectors (tape [mkDraw 0 0; mkDraw d 0])) in
    (cells_at (snd r) 0, cells_at (snd r) 1) in
  cut 0%N = (Some [Fin 4; Fin 2; Fin 3], Some [Fin 1; Fin 5; Fin 6]) /\ cut 1%N = (Some [Fin 4; Fin 5; Fin 3], Some [Fin 1; Fin 2; Fin 6]).
Proof.
  intros g. split; [eexists; split; reflexivity|]. split; [eexists; split; reflexivity|]. split; [reflexivity|]. split; [unfold vsize; cbn; lia|].
  vm_compute. split; reflexivity.
Qed.

Example C80_points_example : StronglySorted lt [1; 2] /\ (forall p, In p [1; 2] -> 1 <= p < vsize v123) /\
  swap_vector_parts 2 (v_cells v123) (v_cells v456) [1; 2] = Ok ([Fin 4; Fin 2; Fin 6], [Fin 1; Fin 5; Fin 3]).
Proof.
  split; [repeat constructor|]. split; [intros p [<-|[<-|[]]]; unfold vsize; cbn; lia|]. reflexivity.
Qed.

(** add(x, neg(y)) can become add(x, add(y, y)), and also add(y, y). *)
Lemma xy_program : program tree1 0 1 0 None (Rose (FNode add2) [Rose vy []; Rose vy []]).
Proof.
  assert (T : terminal_for tree1 None vy) by (apply Listed; right; left; reflexivity).
  apply Call; [left; reflexivity|right; cbn; intuition|reflexivity|lia|]. repeat constructor; exact T.
Qed.

Lemma xy_clear : clear_terminals tree1 None.
Proof.
  left. split.
  - intros a [->|(f & [<-|[<-|[]]] & Ha)]; [reflexivity| |]; cbn in Ha; intuition.
  - intros k a [E|[E|[]]]; congruence.
Qed.

Example C80_trees_example : tree_at (two_trees []) 0 tree1 /\ complete_tree tree1 /\ open_for None tree1 /\
  (forall n, In n (t_nodes tree1) -> clear_terminals tree1 (delivers n)) /\ (forall n, In n (t_nodes tree1) -> delivers n = None) /\
  (forall e, t_erc tree1 = Some e -> erc_proper e) /\
  regrown 0 1 tree1 (with_nodes tree1 [FNode add2; vx; FNode add2; vy; vy]) /\
  program tree1 0 1 0 None (Rose (FNode add2) [Rose vy []; Rose vy []]) /\
  let d n := mkDraw n 0 in
  let r := apply_operator mutation1 [0] (two_trees [d 0; d 2; d 9007199254740991; d 0; d 1; d 1]%N) in
  let r' := apply_operator mutation1 [0] (two_trees [d 0; d 0; d 9007199254740991; d 0; d 1; d 1]%N) in
  fst r = Ok [0] /\ nodes_in (snd r) 0 = [FNode add2; vx; FNode add2; vy; vy] /\
  fst r' = Ok [0] /\ nodes_in (snd r') 0 = [FNode add2; vy; vy].
Proof.
  assert (N : forall n, In n (t_nodes tree1) -> delivers n = None).
  { intros n Hn. cbn in Hn. repeat (destruct Hn as [<-|Hn]; [reflexivity|]). destruct Hn. }
  split; [eexists; split; reflexivity|]. split; [apply complete1|].
  split. { eexists _, vx. split; [reflexivity|]. split; [cbn; auto|left; reflexivity]. }
  split. { intros n Hn. rewrite (N n Hn). exact xy_clear. } split; [exact N|]. split; [discriminate|]. split.
  { exists rose1, (mkPlace [FNode add2; vx] (Rose (FNode neg1) [Rose vy []]) []), (Rose (FNode add2) [Rose vy []; Rose vy []]).
    split; [repeat split|]. split; [reflexivity|]. split.
    { exact (Below (FNode add2) [Rose vx []] (Rose (FNode neg1) [Rose vy []]) [] [] _ [] (Here _)). }
    split; [intros [E|[E|[]]]; discriminate|]. split; [left; reflexivity|]. split; [exact xy_program|reflexivity]. }
  split; [exact xy_program|]. vm_compute. repeat split.
Qed.

(** neg(y) and the constant 2 change places, or the whole trees do. *)
Example C80_exchanges_example : matchable [tree1; tree2] /\ 
  exchanged [tree1; tree2] [with_nodes tree1 [FNode add2; vx; two]; with_nodes tree2 [FNode neg1; FNode add2; vy; FNode neg1; vy]] /\
  exchanged [tree1; tree2] [with_nodes tree1 (t_nodes tree2); with_nodes tree2 (t_nodes tree1)].
Proof.
  split; [apply C23_example|]. split.
  - exists tree1, [tree2], (mkPlace [FNode add2; vx] (Rose (FNode neg1) [Rose vy []]) []), [mkPlace [FNode neg1; FNode add2; vy] (Rose two []) []].
    split; [reflexivity|]. split.
    { exists rose1. split; [repeat split|]. split; [reflexivity|]. split.
      { exact (Below (FNode add2) [Rose vx []] (Rose (FNode neg1) [Rose vy []]) [] [] _ [] (Here _)). }
      split; [intros [E|[E|[]]]; discriminate|]. left. reflexivity. }
    split; [|reflexivity]. constructor; [|constructor].
    exists (Rose (FNode neg1) [Rose (FNode add2) [Rose vy []; Rose two []]]). split; [repeat split|]. split; [reflexivity|]. split.
    { exact (Below (FNode neg1) [] _ [] [FNode add2; vy] _ [] (Below (FNode add2) [Rose vy []] (Rose two []) [] [] _ [] (Here _))). }
    split; [intros [E|[E|[E|[]]]]; discriminate|]. left. reflexivity.
  - exists tree1, [tree2], (mkPlace [] rose1 []), [mkPlace [] (Rose (FNode neg1) [Rose (FNode add2) [Rose vy []; Rose two []]]) []].
    split; [reflexivity|]. split.
    { exists rose1. split; [repeat split|]. split; [reflexivity|]. split; [exact (Here _)|]. split; [intros []|]. left. reflexivity. }
    split; [|reflexivity]. constructor; [|constructor].
    eexists. split; [|split; [|split; [exact (Here _)|]]]; [repeat split|reflexivity|]. split; [intros []|]. left. reflexivity.
Qed.

Example C80_constants_example : tree_at (two_trees []) 1 tree2 /\ has_number tree2 /\
  noised (Fin 0) (Fin 1) tree2 (with_nodes tree2 [FNode neg1; FNode add2; vy; TNode (TNum true (Fin (5 # 2)) 4) None]).
Proof.
  split; [eexists; split; reflexivity|]. split; [exists true, (Fin 2), 9%N, None; cbn; auto|].
  exists [FNode neg1; FNode add2; vy], true, (Fin 2), 9%N, None, [], (1 # 2), 4%N. split; reflexivity.
Qed.
