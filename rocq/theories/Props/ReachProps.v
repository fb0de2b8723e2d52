(** * What creators can make (C78). *)
From Coq Require Import QArith Lia.
From Verif.Spec Require Import WorldSpec VectorSpec TreeSpec PressureSpec ReachSpec.
From Verif.Proofs Require Import ReachP ReachVecP.
From Verif.Model Require Import Num Rng Vector Tree World Creators.
Open Scope string_scope.
Open Scope nat_scope.
Open Scope list_scope.

(** ** C78 *)

(** Each vector of the search space comes from exactly one sequence of numbers, and the vectors of a population from consecutive
    sequences: if the numbers are equally likely, so are the vectors, independently of each other. *)
Theorem C78_vectors : forall k b len fc upd h, creatable len b k -> (k = KFloat -> wide b) ->
  exists f, bijection (cell_draws k b len) (search_space k b len) f /\
    forall dss w, Forall (cell_draws k b len) dss -> ahead (w_rng w) (concat dss) ->
      exists os w', create_individuals (CVector len b k fc upd) (length dss) h w = (Ok os, w') /\
        Forall2 (fun o ds => vec_at w' o (mkVec k b len (f ds))) os dss.
Proof. exact vectors_by_draws. Qed.
Print Assumptions C78_vectors.

(** Whatever is drawn, nothing else is created. *)
Theorem C78_inside : forall k b len fc upd n h w os w', creatable len b k -> create_individuals (CVector len b k fc upd) n h w = (Ok os, w') ->
  forall o, In o os -> exists c, vec_at w' o (mkVec k b len c) /\ search_space k b len c.
Proof. exact vectors_sound. Qed.
Print Assumptions C78_inside.

(** The search space of integer vectors and bit strings with common bounds has (b - a + 1)^len elements. *)
Theorem C78_number : forall k a b len, k <> KFloat -> (a <= b)%Z ->
  number_of (search_space k (BPair (nof_Z a) (nof_Z b)) len) (Z.to_nat (b - a + 1) ^ len).
Proof. exact space_number. Qed.
Print Assumptions C78_number.

(** The populations of trees that Grow and Full can make are exactly those of programs of the promised depth. *)
Theorem C78_programs : forall m p h tset heap id rs,
  handle_input_types (g_fset p) (g_terms p) (g_typed p) (g_erc p) (g_root p) = Ok tset ->
  clear_terminals (blank_tree p tset) (g_root p) -> (forall e, g_erc p = Some e -> erc_proper e) -> (m = Grow -> undecided (g_prune p)) ->
  (forall r, In r rs -> saturated r) ->
  (Forall (program_of m p (blank_tree p tset)) rs <->
   exists g os w', create_individuals (CGP m p) (length rs) h (mkWorld heap id g) = (Ok os, w') /\ Forall2 (fun o r => has_nodes w' o (flatten r)) os rs).
Proof. exact populations. Qed.
Print Assumptions C78_programs.

(** Every population that follows the plan of ramped half-and-half can be made. *)
Theorem C78_half : forall mn mx grow full n h tg tf heap id rs, mn <= mx -> 2 * (mx + 1 - mn) <= n ->
  handle_input_types (g_fset grow) (g_terms grow) (g_typed grow) (g_erc grow) (g_root grow) = Ok tg ->
  handle_input_types (g_fset full) (g_terms full) (g_typed full) (g_erc full) (g_root full) = Ok tf ->
  clear_terminals (blank_tree grow tg) (g_root grow) -> clear_terminals (blank_tree full tf) (g_root full) ->
  (forall e, g_erc grow = Some e \/ g_erc full = Some e -> erc_proper e) -> undecided (g_prune grow) ->
  Forall2 (plan_program mn grow full tg tf) (half_plan mn mx n) rs ->
  exists g os w', create_individuals (CHalf mn mx grow full) n h (mkWorld heap id g) = (Ok os, w') /\ Forall2 (fun o r => has_nodes w' o (flatten r)) os rs.
Proof. exact half_populations. Qed.
Print Assumptions C78_half.

(** *** Examples *)

(** Two integer vectors of length 2 with bounds (3, 5) and (0, 9): the numbers 2, 7 give [5, 7], the numbers 0, 0 give [3, 0]. *)
Example C78_vectors_example :
  let b := BCells [(nof_Z 3, nof_Z 5); (nof_Z 0, nof_Z 9)] in
  creatable 2 b KInt /\ (KInt = KFloat -> wide b) /\ Forall (cell_draws KInt b 2) [[2; 7]; [0; 0]]%N /\
  search_space KInt b 2 [nof_Z 5; nof_Z 7] /\
  let d n := mkDraw n 0 in
  let r := create_individuals (CVector 2 b KInt KSimple false) 2 (HB true) (mkWorld [] 0 (tape [d 2%N; d 7%N; d 0%N; d 0%N])) in
  fst r = Ok [0; 1] /\ cells_at (snd r) 0 = Some [nof_Z 5; nof_Z 7] /\ cells_at (snd r) 1 = Some [nof_Z 3; nof_Z 0].
Proof.
  cbv zeta. split.
  { split; [split; [reflexivity|]|split; [|discriminate]].
    - repeat constructor; do 2 eexists; (split; [reflexivity|]); discriminate.
    - intros _. repeat constructor; eexists; reflexivity. }
  split; [discriminate|]. split.
  { repeat constructor; intros [|[|[|i]]] d H; try discriminate; injection H as <-; cbn [bound_at nth_error];
      ((exists (nof_Z 3), (nof_Z 5), 3%N; split; [reflexivity|]; split; [exists 3%Z, 5%Z; repeat split|reflexivity]) ||
       (exists (nof_Z 0), (nof_Z 9), 10%N; split; [reflexivity|]; split; [exists 0%Z, 9%Z; repeat split|reflexivity])). }
  split.
  { split; [reflexivity|]. intros [|[|[|i]]] x H; try discriminate; injection H as <-; cbn [bound_at nth_error]; do 2 eexists; (split; [reflexivity|]).
    - exists 3%Z, 5%Z, 5%Z. repeat split; discriminate.
    - exists 0%Z, 9%Z, 7%Z. repeat split; discriminate. }
  vm_compute. repeat split.
Qed.

Definition add2 : func := mkFunc 1 "add" [None; None] None.
Definition neg1 : func := mkFunc 2 "neg" [None] None.
Definition params : gp_params :=
  mkGP 1 2 [add2; neg1] [(TVar "x", None); (TVar "y", None)] false (Some (ErcFloat (Fin (-1)) (Fin 1))) (Fin 0) None false (Fin (1 # 2)).
Definition terminals : list (tval * option ty) := [(TVar "x", None); (TVar "y", None)].

(** add(x, neg(0.5)), where 0.5 = -1 + 2 * (3 * 2^51 / 2^53). *)
Definition half_of : tval := TNum true (Fin (-1 + (1 - -1) * (6755399441055744 # 9007199254740992))) 17.
Definition small : rtree := Rose (FNode add2) [Rose (TNode (TVar "x") None) []; Rose (FNode neg1) [Rose (TNode half_of None) []]].

Lemma small_program lo hi : lo <= 1 -> 2 <= hi -> program (blank_tree params terminals) lo hi 0 None small.
Proof.
  intros L H. assert (Hh : forall f, In f [add2; neg1] -> hinted f).
  { intros f [<-|[<-|[]]]; right; cbn; intuition. }
  apply Call; [left; reflexivity|apply Hh; simpl; auto|reflexivity|lia|].
  constructor; [apply Terminal; [apply Listed; left; reflexivity|exact L]|constructor; [|constructor]].
  apply Call; [right; left; reflexivity|apply Hh; simpl; auto|reflexivity|lia|].
  constructor; [apply Terminal; [|lia]|constructor]. eapply Untyped_number; [reflexivity| |reflexivity]. eexists. exists 17%N. split; [|reflexivity].
  exists (-1)%Q, 1%Q, 6755399441055744%N. repeat split.
Qed.

Lemma terminals_clear : clear_terminals (blank_tree params terminals) None.
Proof.
  left. split.
  - intros a [->|(f & [<-|[<-|[]]] & Ha)]; [reflexivity| |]; cbn in Ha; intuition.
  - intros k a [E|[E|[]]]; congruence.
Qed.

(** The hypotheses of C78_programs hold for Grow with depth range (1, 2), and these numbers make that program. *)
Example C78_programs_example :
  handle_input_types (g_fset params) (g_terms params) (g_typed params) (g_erc params) (g_root params) = Ok terminals /\
  clear_terminals (blank_tree params terminals) (g_root params) /\ (forall e, g_erc params = Some e -> erc_proper e) /\ undecided (g_prune params) /\
  saturated small /\ program_of Grow params (blank_tree params terminals) small /\ ~ program_of Full params (blank_tree params terminals) small /\
  let d n := mkDraw n 0 in
  let g := tape [d 0%N; d 0%N; d 5%N; d 5%N; d 0%N; d 9007199254740991%N; d 1%N; d 6755399441055744%N; d 17%N; d 2%N] in
  let r := create_individuals (CGP Grow params) 1 (HB true) (mkWorld [] 0 g) in
  fst r = Ok [0] /\ has_nodes (snd r) 0 (flatten small).
Proof.
  split; [reflexivity|]. split; [exact terminals_clear|]. split; [intros e [= <-]; split; reflexivity|].
  split; [exists (1 # 2); repeat split; discriminate|]. split; [repeat split|]. split; [apply small_program; cbn; lia|]. split.
  - intros H. inversion H; subst. match goal with F : Forall2 _ _ _ |- _ => inversion F; subst end.
    match goal with P : program _ _ _ _ _ (Rose (TNode _ _) _) |- _ => inversion P; subst end. cbn in *. lia.
  - cbv zeta. split; [vm_compute; reflexivity|]. eexists. split; [eexists; split; vm_compute; reflexivity|]. vm_compute. reflexivity.
Qed.

(** Ramped half-and-half with depths from 1 to 2 and four individuals can make this one for depth 2. *)
Example C78_half_example : half_plan 1 2 4 = [(Grow, 1); (Full, 1); (Grow, 2); (Full, 2)] /\
  plan_program 1 params params terminals terminals (Grow, 2) small.
Proof. split; [reflexivity|]. apply small_program; cbn; lia. Qed.
