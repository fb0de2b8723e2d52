(** * How often each random choice is made (C97). *)
From Coq Require Import QArith Lia Permutation Sorted Factorial.
From Verif.Spec Require Import WorldSpec VectorSpec TreeSpec PressureSpec ReachSpec MoveSpec FairSpec.
From Verif.Proofs Require Import FairP.
From Verif.Model Require Import Num Rng Vector Tree World Operators Creators Evolution.
From Verif.Props Require Import VectorProps TreeProps MoveProps.
Open Scope string_scope.
Open Scope nat_scope.
Open Scope list_scope.

(** ** C97 *)

(** Of the 2^53 numbers that [random()] gives, floor (2^53 q) + 1 are at most [q]. *)
Theorem C97_probability : forall q, number_of (fun k => unit_draw k /\ (unit_value k <= q)%Q) (Z.to_nat (at_most q)).
Proof. exact probability. Qed.
Print Assumptions C97_probability.

(** For these an operator of probability [q] does what it does when it is always applied; for the others nothing happens. *)
Theorem C97_applied : forall op q inds w k, op_prob op = Fin q -> unit_draw k -> ahead (w_rng w) [k] ->
  (~ (unit_value k <= q)%Q -> apply_operator op inds w = (Ok inds, with_rng w (later 1 (w_rng w)))) /\
  ((unit_value k <= q)%Q -> no_fallback op -> apply_operator op inds w = apply_operator (certain op) inds w).
Proof. exact applied. Qed.
Print Assumptions C97_applied.

(** Each creator is used for its share of the 2^53 numbers, to less than one. *)
Theorem C97_creators : forall s qs, sp_inds s = None -> sp_pcr s = map Fin qs -> length (sp_creators s) = length qs -> Forall (fun q => 0 <= q)%Q qs -> (0 < qtotal qs)%Q ->
  exists f : N -> nat,
    (forall k, unit_draw k -> f k < length (sp_creators s)) /\
    (forall i x, nth_error qs i = Some x -> exists m, number_of (fun k => unit_draw k /\ f k = i) m /\ share m x (qtotal qs)) /\
    forall k c w l w', unit_draw k -> nth_error (sp_creators s) (f k) = Some c -> ahead (w_rng w) [k] ->
      create_individuals c (sp_size s) (sp_hib s) (with_rng w (later 1 (w_rng w))) = (Ok l, w') -> create_subpopulation s w = (Ok (with_inds s l), w').
Proof. exact creators. Qed.
Print Assumptions C97_creators.

(** Each set of k cut points comes from equally many sequences of draws, namely k!. *)
Theorem C97_points : forall k va, k <= vsize va - 1 ->
  exists f : list nat -> list nat,
    (forall ds, draws_for false (vsize va - 1) k ds -> cut_points k (vsize va) (f ds)) /\
    (forall pts, cut_points k (vsize va) pts -> number_of (fun ds => draws_for false (vsize va - 1) k ds /\ f ds = pts) (fact k)) /\
    forall op a b w vb u ds ca cb, op_kind op = OKPoint k -> unit_draw u -> nle (Fin (unit_value u)) (op_prob op) = true -> a <> b -> vec_at w a va -> vec_at w b vb ->
      draws_for false (vsize va - 1) k ds -> ahead (w_rng w) (u :: map N.of_nat ds) -> swap_vector_parts k (v_cells va) (v_cells vb) (f ds) = Ok (ca, cb) ->
      exists w', apply_operator op [a; b] w = (Ok [a; b], w') /\ vec_at w' a (with_cells va ca) /\ vec_at w' b (with_cells vb cb).
Proof. exact points. Qed.
Print Assumptions C97_points.

(** Each set of n cells is mutated for equally many sequences of draws, namely n!. *)
Theorem C97_cells : forall m n v, match m with MIntOne _ => False | _ => True end -> n <= vsize v ->
  exists f : list nat -> list nat,
    (forall ds, draws_for false (vsize v) n ds -> cell_set n (vsize v) (f ds)) /\
    (forall pts, cell_set n (vsize v) pts -> number_of (fun ds => draws_for false (vsize v) n ds /\ Permutation (f ds) pts) (fact n)) /\
    forall op o w u ds, op_kind op = OVecMut m n -> 1 <= op_attempts op -> unit_draw u -> nle (Fin (unit_value u)) (op_prob op) = true -> vec_at w o v ->
      sound_vec v -> draws_inside m v -> draws_for false (vsize v) n ds -> ahead (w_rng w) (u :: map N.of_nat ds) ->
      exists c w', apply_operator op [o] w = (Ok [o], w') /\ vec_at w' o (with_cells v c) /\ length c = vsize v /\
        forall i x y, nth_error (v_cells v) i = Some x -> nth_error c i = Some y -> (In i (f ds) -> new_cell m v i x y) /\ (~ In i (f ds) -> y = x).
Proof. exact cells. Qed.
Print Assumptions C97_cells.

(** Subtree mutation draws one of the positions that may be chosen and mutates the first place with an equal node: such a place is chosen as often as its node
    occurs. *)
Theorem C97_places : forall t, complete_tree t -> open_for None t ->
  (forall n, In n (t_nodes t) -> clear_terminals t (delivers n)) -> (forall e, t_erc t = Some e -> erc_proper e) ->
  exists m (f : nat -> place), 0 < m /\ open_positions None t m /\
    (forall d, d < m -> choosable None t (f d)) /\
    (forall c, choosable None t c -> exists q, occurrences (label (p_sub c)) (t_nodes t) q /\ number_of (fun d => d < m /\ f d = c) q) /\
    forall op mn mx o w w' u d, op_kind op = OSubtreeMut mn mx -> 1 <= op_attempts op -> unit_draw u -> nle (Fin (unit_value u)) (op_prob op) = true ->
      tree_at w o t -> d < m -> ahead (w_rng w) [u; N.of_nat d] -> apply_operator op [o] w = (Ok [o], w') ->
      exists r, program t mn (Nat.max mn mx) 0 (delivers (label (p_sub (f d)))) r /\ tree_at w' o (filled t (f d) r).
Proof. exact places. Qed.
Print Assumptions C97_places.

(** It is not true that every place that may be chosen is: the second x of add(x, x) is never replaced. *)
Theorem C97_second_refuted : exists op mn mx t c r o w, op_kind op = OSubtreeMut mn mx /\ 1 <= op_attempts op /\ nle (Fin 1) (op_prob op) = true /\ tree_at w o t /\ complete_tree t /\
  place_in t c /\ (exists root, hd_error (t_nodes t) = Some root /\ eligible root None (label (p_sub c))) /\
  program t mn (Nat.max mn mx) 0 (delivers (label (p_sub c))) r /\
  forall g w', apply_operator op [o] (with_rng w g) = (Ok [o], w') -> ~ tree_at w' o (filled t c r).
Proof. exact second_refuted. Qed.
Print Assumptions C97_second_refuted.

(** A random function of a type: each of the function set's entries of that type for exactly one of the numbers. *)
Theorem C97_functions : forall t a, (forall f, In f (t_fset t) -> hinted f) ->
  exists m h, bijection (fun d => d < m) (fun i => exists f, nth_error (t_fset t) i = Some f /\ f_ret f = a) h /\
    forall d f g, d < m -> nth_error (t_fset t) (h d) = Some f -> ahead g [N.of_nat d] -> random_function t a g = (Ok (Some (FNode f)), later 1 g).
Proof. exact functions. Qed.
Print Assumptions C97_functions.

(** A random terminal of a type: each of the terminal set's entries of that type for exactly one of the numbers; where a random constant can be used, it is
    drawn first, and taken for exactly one number more. *)
Theorem C97_terminals : forall t a,
  exists m h, bijection (fun d => d < m) (fun i => exists v, nth_error (t_tset t) i = Some (v, a)) h /\
    ((t_erc t = None \/ exists s, a = Some s /\ is_number_type s = false) ->
      forall d v g, d < m -> nth_error (t_tset t) (h d) = Some (v, a) -> ahead g [N.of_nat d] ->
        exists b, random_terminal t a g = (Ok (Some (TNode v b)), later 1 g)) /\
    (forall e, t_erc t = Some e -> erc_proper e -> (a = None \/ exists s, a = Some s /\ is_number_type s = true) ->
      forall k tag d g, ahead g [k; tag; N.of_nat d] ->
        (d < m -> forall v, nth_error (t_tset t) (h d) = Some (v, a) -> exists b, random_terminal t a g = (Ok (Some (TNode v b)), later 3 g)) /\
        (d = m -> exists c b, erc_gives e c /\ random_terminal t a g = (Ok (Some (TNode c b)), later 3 g))).
Proof. exact terminals. Qed.
Print Assumptions C97_terminals.

(** ERC mutation: each numeric terminal of the tree for exactly one of the numbers; it is the only node that changes. *)
Theorem C97_constants : forall t, exists m h, bijection (fun d => d < m) (fun i => exists b x tag s, nth_error (t_nodes t) i = Some (TNode (TNum b x tag) s)) h /\
  forall op mu sigma o w u d, op_kind op = OErc mu sigma -> 1 <= op_attempts op -> unit_draw u -> nle (Fin (unit_value u)) (op_prob op) = true ->
    tree_at w o t -> d < m -> ahead (w_rng w) [u; N.of_nat d] ->
    exists w' t' b x tag s z tag', apply_operator op [o] w = (Ok [o], w') /\ tree_at w' o t' /\ nth_error (t_nodes t) (h d) = Some (TNode (TNum b x tag) s) /\
      nth_error (t_nodes t') (h d) = Some (TNode (TNum true (nadd x (nadd mu (nmul (Fin z) sigma))) tag') s) /\
      forall i, i <> h d -> nth_error (t_nodes t') i = nth_error (t_nodes t) i.
Proof. exact constants. Qed.
Print Assumptions C97_constants.

(** *** Examples *)

(** An operator of probability 1/2 is applied for one number more than half of them, an operator of probability 0 for one of them. *)
Example C97_probability_example : at_most (1 # 2) = 4503599627370497%Z /\ at_most 0 = 1%Z /\ at_most 1 = 9007199254740992%Z /\ at_most 2 = 9007199254740992%Z /\ at_most (-1) = 0%Z.
Proof. vm_compute. auto. Qed.

Definition half_flip : oper := mkOper (OVecMut MBitFlip 1) (Fin (1 # 2)) 1 5.
Definition bits_world (l : list N) : world := mkWorld [plain_ind 0 (GVec bits)] 1 (tape (map (fun n => mkDraw n 0) l)).

Example C97_applied_example : unit_draw 4503599627370496 /\ unit_draw 4503599627370497 /\ no_fallback half_flip /\
  (unit_value 4503599627370496 <= 1 # 2)%Q /\ ~ (unit_value 4503599627370497 <= 1 # 2)%Q /\
  ahead (w_rng (bits_world [4503599627370496; 2]%N)) [4503599627370496%N] /\ ahead (w_rng (bits_world [4503599627370497; 2]%N)) [4503599627370497%N] /\
  cells_at (snd (apply_operator half_flip [0] (bits_world [4503599627370496; 2]%N))) 0 = Some [Fin 1; Fin 0; Fin 0] /\
  cells_at (snd (apply_operator half_flip [0] (bits_world [4503599627370497; 2]%N))) 0 = Some [Fin 1; Fin 0; Fin 1].
Proof.
  split; [reflexivity|]. split; [reflexivity|]. split; [exact I|]. split; [discriminate|]. split; [intros H; apply H; reflexivity|].
  split; [intros [|[|i]] d H; try discriminate; injection H as <-; reflexivity|]. split; [intros [|[|i]] d H; try discriminate; injection H as <-; reflexivity|].
  vm_compute. split; reflexivity.
Qed.

(** Weights 1 and 3: a quarter of the numbers make bit strings of length 1, the others of length 2. *)
Definition two_makers : subpop :=
  mkSub [CVector 1 (BPair (Fin 0) (Fin 1)) KBit KSimple false; CVector 2 (BPair (Fin 0) (Fin 1)) KBit KSimple false] (map Fin [1; 3]%Q) [] [] 1 (HB true) 0 None.
Definition empty_world (l : list N) : world := mkWorld [] 0 (tape (map (fun n => mkDraw n 0) l)).

Example C97_creators_example : Forall (fun q => 0 <= q)%Q [1; 3]%Q /\ (0 < qtotal [1; 3])%Q /\ share (2 ^ 1) (2 # 9007199254740992) 1 /\ ~ share 2 (4 # 9007199254740992) 1 /\
  cells_at (snd (create_subpopulation two_makers (empty_world [2251799813685247; 1; 0]%N))) 0 = Some [Fin 1] /\
  cells_at (snd (create_subpopulation two_makers (empty_world [2251799813685248; 1; 0]%N))) 0 = Some [Fin 1; Fin 0].
Proof.
  split; [repeat constructor; discriminate|]. split; [reflexivity|]. split; [split; reflexivity|]. split; [intros [H _]; discriminate|]. vm_compute. split; reflexivity.
Qed.

(** Two points in vectors of length three: the draws 0, 0 and 1, 0 give the only set of two points. *)
Example C97_points_example : 2 <= vsize v123 - 1 /\ draws_for false (vsize v123 - 1) 2 [0; 0] /\ draws_for false (vsize v123 - 1) 2 [1; 0] /\
  cut_points 2 (vsize v123) [1; 2] /\
  let r ds := let w := snd (apply_operator (mkOper (OKPoint 2) (Fin 1) 2 1) [0; 1] (two_vectors (tape (map (fun n => mkDraw n 0) ds)))) in (cells_at w 0, cells_at w 1) in
  r [0; 0; 0]%N = (Some [Fin 4; Fin 2; Fin 6], Some [Fin 1; Fin 5; Fin 3]) /\ r [0; 1; 0]%N = r [0; 0; 0]%N.
Proof.
  split; [unfold vsize; cbn; lia|]. split; [split; [reflexivity|]; intros [|[|[|i]]] d H; try discriminate; injection H as <-; unfold vsize; cbn; lia|].
  split; [split; [reflexivity|]; intros [|[|[|i]]] d H; try discriminate; injection H as <-; unfold vsize; cbn; lia|].
  split; [split; [reflexivity|]; split; [repeat constructor|]; intros p [<-|[<-|[]]]; unfold vsize; cbn; lia|]. vm_compute. split; reflexivity.
Qed.

(** Two cells out of three: 101 becomes 011 for the draws 0, 1 and 1, 0 (the last cell has moved to the place of the first). *)
Example C97_cells_example : 2 <= vsize bits /\ draws_for false (vsize bits) 2 [0; 1] /\ draws_for false (vsize bits) 2 [1; 0] /\ cell_set 2 (vsize bits) [0; 1] /\
  vec_at (bits_world []) 0 bits /\ sound_vec bits /\ draws_inside MBitFlip bits /\
  let r ds := cells_at (snd (apply_operator (mkOper (OVecMut MBitFlip 2) (Fin 1) 1 5) [0] (bits_world ds))) 0 in
  r [0; 0; 1]%N = Some [Fin 0; Fin 1; Fin 1] /\ r [0; 1; 0]%N = Some [Fin 0; Fin 1; Fin 1] /\ r [0; 0; 0]%N = Some [Fin 0; Fin 0; Fin 0].
Proof.
  split; [unfold vsize; cbn; lia|]. split; [split; [reflexivity|]; intros [|[|[|i]]] d H; try discriminate; injection H as <-; unfold vsize; cbn; lia|].
  split; [split; [reflexivity|]; intros [|[|[|i]]] d H; try discriminate; injection H as <-; unfold vsize; cbn; lia|].
  split; [split; [reflexivity|]; split; [repeat constructor; cbn; intuition discriminate|]; intros p [<-|[<-|[]]]; unfold vsize; cbn; lia|].
  split; [eexists; split; reflexivity|]. split; [apply VecOpP.bit_sound, C14_example|]. split; [split; [reflexivity|do 2 eexists; split; reflexivity]|]. vm_compute. auto.
Qed.

(** add(x, x): the draws 1 and 2 both replace the first x. *)
Example C97_places_example : complete_tree fair_tree /\ open_for None fair_tree /\ (forall n, In n (t_nodes fair_tree) -> clear_terminals fair_tree (delivers n)) /\
  occurrences fair_x (t_nodes fair_tree) 2 /\
  let r d := let r := apply_operator (mkOper (OSubtreeMut 0 0) (Fin 1) 1 5) [0] (mkWorld [plain_ind 0 (GTree fair_tree)] 1 (tape (map (fun n => mkDraw n 0) [0; d; 1]%N))) in
    (fst r, nodes_in (snd r) 0) in
  r 0%N = (Ok [0], [fair_y]) /\ r 1%N = (Ok [0], [FNode fair_add; fair_y; fair_x]) /\ r 2%N = (Ok [0], [FNode fair_add; fair_y; fair_x]).
Proof.
  split; [exact fair_complete|]. split; [eexists _, fair_x; split; [reflexivity|]; split; [cbn; auto|left; reflexivity]|].
  split; [intros n; cbn; intros [<-|[<-|[<-|[]]]]; exact fair_clear|].
  split. { exists [1; 2]. split; [repeat constructor; cbn; intuition discriminate|]. split; [|reflexivity].
    intros [|[|[|i]]]; cbn; split; intros H; intuition try discriminate; destruct i; discriminate. }
  vm_compute. auto.
Qed.

(** Three functions, two of which give ints; three terminals, two of which are ints, and a range of random ints. *)
Definition int_add : func := mkFunc 1 "add" [Some TyInt; Some TyInt] (Some TyInt).
Definition int_less : func := mkFunc 2 "less" [Some TyInt; Some TyInt] (Some TyBool).
Definition int_choose : func := mkFunc 3 "choose" [Some TyBool; Some TyInt; Some TyInt] (Some TyInt).
Definition typed_primitives : tree :=
  mkTree [int_add; int_less; int_choose] [(TVar "x", Some TyInt); (TVar "s", Some TyStr); (TVar "y", Some TyInt)] (Some (ErcInt (Fin 1) (Fin 9))) (Some TyInt) [].

Example C97_functions_example : (forall f, In f (t_fset typed_primitives) -> hinted f) /\
  let r d := fst (random_function typed_primitives (Some TyInt) (tape [mkDraw d 0])) in
  r 0%N = Ok (Some (FNode int_add)) /\ r 1%N = Ok (Some (FNode int_choose)).
Proof. split; [|vm_compute; auto]. intros f [<-|[<-|[<-|[]]]]; left; cbn; intuition congruence. Qed.

Example C97_terminals_example : erc_proper (ErcInt (Fin 1) (Fin 9)) /\ is_number_type TyInt = true /\ is_number_type TyStr = false /\
  let r d := fst (random_terminal typed_primitives (Some TyInt) (tape (map (fun n => mkDraw n 0) [4; 7; d]%N))) in
  r 0%N = Ok (Some (TNode (TVar "x") (Some TyInt))) /\ r 1%N = Ok (Some (TNode (TVar "y") (Some TyInt))) /\
  r 2%N = Ok (Some (TNode (TNum false (Fin 5) 7) (Some TyInt))) /\
  fst (random_terminal typed_primitives (Some TyStr) (tape [mkDraw 0 0])) = Ok (Some (TNode (TVar "s") (Some TyStr))).
Proof. split; [exists 1%Z, 9%Z; split; [reflexivity|]; split; [reflexivity|lia]|]. vm_compute. repeat split. Qed.

(** add(2, 3) with the noise 1: the number 0 gives add(3, 3), the number 1 add(2, 4). *)
Definition two_numbers : tree :=
  mkTree [fair_add] [(TNum true (Fin 2) 1, None); (TNum true (Fin 3) 2, None)] None None [FNode fair_add; TNode (TNum true (Fin 2) 1) None; TNode (TNum true (Fin 3) 2) None].
Example C97_constants_example :
  let w d := mkWorld [plain_ind 0 (GTree two_numbers)] 1 (tape [mkDraw 0 0; mkDraw d 0; mkDraw 0 1; mkDraw 5 0]) in
  let r d := let r := apply_operator (mkOper (OErc (Fin 0) (Fin 1)) (Fin 1) 1 5) [0] (w d) in (fst r, nodes_in (snd r) 0) in
  tree_at (w 0%N) 0 two_numbers /\ ahead (w_rng (w 1%N)) [0; 1]%N /\
  r 0%N = (Ok [0], [FNode fair_add; TNode (TNum true (Fin 3) 5) None; TNode (TNum true (Fin 3) 2) None]) /\
  r 1%N = (Ok [0], [FNode fair_add; TNode (TNum true (Fin 2) 1) None; TNode (TNum true (Fin 4) 5) None]).
Proof.
  cbv zeta. split; [eexists; split; reflexivity|]. split; [intros [|[|i]] d H; cbn in H; try (injection H as <-; reflexivity); destruct i; discriminate|]. vm_compute. auto.
Qed.
