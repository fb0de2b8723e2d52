(** No generation of a run is a dead end: C98. *)
From Coq Require Import Permutation QArith Lia.
From Verif.Model Require Import Num Rng Vector Tree World Creators Evolution.
From Verif.Spec Require Import WorldSpec FitnessSpec VectorSpec TreeSpec EvoSpec CompleteSpec ShowSpec ReachSpec MoveSpec EverySpec.
From Verif.Proofs Require Import ChanceP EveryP.
From Verif.Props Require Import CompleteProps ChanceProps.
From Verif.Model Require Import Num Rng Vector Tree World Creators Evolution.
Open Scope string_scope.
Open Scope nat_scope.
Open Scope list_scope.

(** ** C98 *)

(** Vectors.  Let the last operator be a mutation that draws all cells anew, or may do so.  Take a run, and some generation of it after the
    first.  For every list of vectors of the search space there is another stream of Python's generator, which differs only for the seed of this
    generation, such that the run with it has the same generations before, and then exactly these vectors. *)
Theorem C98_next_vectors : forall k b len ev sched h s n a w cs ops op m j a' w' before l after,
  gives_numbers ev -> total_on (vectors k b len) ev -> fair sched -> a_trace a = [] ->
  configured h a w s -> Forall (vector_operator k b len) (sp_ops s) ->
  match sp_inds s with Some l => genomes_in (vectors k b len) l w | None => Forall (vector_creator k b len) (sp_creators s) end ->
  (k = KFloat -> wide b) -> sp_ops s = ops ++ [op] -> op_kind op = OVecMut m j -> op_arity op = 1 -> can_happen (op_prob op) -> redraws m j len ->
  evolve ev sched n (a, w) = (Ok tt, (a', w')) -> evals (a_trace a') = before ++ l :: after -> before <> [] ->
  (Z.of_nat (length before) < 2 ^ 32)%Z -> a_random_seed a <> seed_at a (length before) ->
  length cs = sp_size s -> Forall (search_space k b len) cs ->
  exists g a'' w'' l' after', other_stream (seed_at a (length before)) (w_rng w) g /\ evolve ev sched n (a, with_rng w g) = (Ok tt, (a'', w'')) /\
    evals (a_trace a'') = before ++ l' :: after' /\ (forall o, In o (concat before) -> genome_now w'' o = genome_now w' o) /\
    Forall2 (fun o c => vec_at w'' o (mkVec k b len c)) l' cs.
Proof. exact C98_vectors. Qed.
Print Assumptions C98_next_vectors.

(** Bit strings, where the last operator is a mutation that flips each cell with a probability that is neither too high nor negative. *)
Theorem C98_next_bits : forall len ev sched h s n a w cs ops op p a' w' before l after,
  gives_numbers ev -> total_on (bit_genomes len) ev -> fair sched -> a_trace a = [] ->
  configured h a w s -> Forall (bit_operator len) (sp_ops s) ->
  match sp_inds s with
  | Some l => genomes_in (bit_genomes len) l w
  | None => forall c, In c (sp_creators s) -> exists fc upd, c = CVector len (BPair (Fin 0) (Fin 1)) KBit fc upd
  end ->
  sp_ops s = ops ++ [op] -> op_kind op = OVecMut (MBitNFlip p) len -> op_arity op = 1 -> can_happen (op_prob op) -> can_happen p -> can_fail p ->
  evolve ev sched n (a, w) = (Ok tt, (a', w')) -> evals (a_trace a') = before ++ l :: after -> before <> [] ->
  (Z.of_nat (length before) < 2 ^ 32)%Z -> a_random_seed a <> seed_at a (length before) ->
  length cs = sp_size s -> Forall (fun c => is_bits c /\ length c = len) cs ->
  exists g a'' w'' l' after', other_stream (seed_at a (length before)) (w_rng w) g /\ evolve ev sched n (a, with_rng w g) = (Ok tt, (a'', w'')) /\
    evals (a_trace a'') = before ++ l' :: after' /\ (forall o, In o (concat before) -> genome_now w'' o = genome_now w' o) /\
    Forall2 (fun o c => vec_at w'' o (mkVec KBit (BPair (Fin 0) (Fin 1)) len c)) l' cs.
Proof. exact C98_bits. Qed.
Print Assumptions C98_next_bits.

(** Programs over untyped primitives, where the last operator is subtree mutation: all programs of the depths given to it. *)
Theorem C98_next_programs : forall t0 (Q : node -> Prop) ev sched h s n a w rs ops op mn mx a' w' before l after,
  gives_numbers ev -> total_on (trees_of t0 Q) ev -> fair sched -> a_trace a = [] ->
  configured h a w s -> supplied t0 (t_root_type t0) -> typed_terminals t0 (t_root_type t0) -> Forall tree_operator (sp_ops s) -> node_kind t0 (sp_ops s) Q ->
  match sp_inds s with Some l => genomes_in (trees_of t0 Q) l w | None => Forall (tree_creator t0 (sp_size s)) (sp_creators s) end ->
  printable_terminals t0 -> clear_terminals t0 None -> (forall e, t_erc t0 = Some e -> erc_proper e) -> untyped t0 ->
  sp_ops s = ops ++ [op] -> op_kind op = OSubtreeMut mn mx -> op_arity op = 1 -> 1 <= op_attempts op -> can_happen (op_prob op) ->
  evolve ev sched n (a, w) = (Ok tt, (a', w')) -> evals (a_trace a') = before ++ l :: after -> before <> [] ->
  (Z.of_nat (length before) < 2 ^ 32)%Z -> a_random_seed a <> seed_at a (length before) ->
  length rs = sp_size s -> Forall (program t0 mn (Nat.max mn mx) 0 None) rs ->
  exists g a'' w'' l' after', other_stream (seed_at a (length before)) (w_rng w) g /\ evolve ev sched n (a, with_rng w g) = (Ok tt, (a'', w'')) /\
    evals (a_trace a'') = before ++ l' :: after' /\ (forall o, In o (concat before) -> genome_now w'' o = genome_now w' o) /\
    Forall2 (fun o r => has_nodes w'' o (flatten r)) l' rs.
Proof. exact C98_programs. Qed.
Print Assumptions C98_next_programs.

(** Hence a run may go through any populations at all, one after the other, as long as no checker stops it. *)
Theorem C98_any_history : forall k b len ev sched h s n a w css ops op m j,
  gives_numbers ev -> total_on (vectors k b len) ev -> fair sched -> a_trace a = [] ->
  configured h a w s -> Forall (vector_operator k b len) (sp_ops s) -> sp_inds s = None -> Forall (vector_creator k b len) (sp_creators s) ->
  (k = KFloat -> wide b) -> sp_ops s = ops ++ [op] -> op_kind op = OVecMut m j -> op_arity op = 1 -> can_happen (op_prob op) -> redraws m j len ->
  css <> [] -> Forall (fun cs => length cs = sp_size s /\ Forall (search_space k b len) cs) css ->
  (Z.of_nat (length css) <= 2 ^ 32)%Z -> (forall i, 1 <= i < length css -> a_random_seed a <> seed_at a i) ->
  exists g a' w', evolve ev sched n (a, with_rng w g) = (Ok tt, (a', w')) /\ evals (a_trace a') <> [] /\
    forall i l cs, nth_error (evals (a_trace a')) i = Some l -> nth_error css i = Some cs -> Forall2 (fun o c => vec_at w' o (mkVec k b len c)) l cs.
Proof. exact C98_history. Qed.
Print Assumptions C98_any_history.

Theorem C98_any_program_history : forall t0 (Q : node -> Prop) ev sched h s n a w rss ops op mn mx,
  gives_numbers ev -> total_on (trees_of t0 Q) ev -> fair sched -> a_trace a = [] ->
  configured h a w s -> supplied t0 (t_root_type t0) -> typed_terminals t0 (t_root_type t0) -> Forall tree_operator (sp_ops s) -> node_kind t0 (sp_ops s) Q ->
  sp_inds s = None -> Forall (tree_creator t0 (sp_size s)) (sp_creators s) ->
  printable_terminals t0 -> clear_terminals t0 None -> (forall e, t_erc t0 = Some e -> erc_proper e) -> untyped t0 ->
  sp_ops s = ops ++ [op] -> op_kind op = OSubtreeMut mn mx -> op_arity op = 1 -> 1 <= op_attempts op -> can_happen (op_prob op) ->
  rss <> [] -> Forall (fun rs => length rs = sp_size s) rss ->
  (forall rs, nth_error rss 0 = Some rs -> Forall (fun c => can_make t0 c rs) (sp_creators s)) ->
  (forall i rs, nth_error rss (S i) = Some rs -> Forall (program t0 mn (Nat.max mn mx) 0 None) rs) ->
  (Z.of_nat (length rss) <= 2 ^ 32)%Z -> (forall i, 1 <= i < length rss -> a_random_seed a <> seed_at a i) ->
  exists g a' w', evolve ev sched n (a, with_rng w g) = (Ok tt, (a', w')) /\ evals (a_trace a') <> [] /\
    forall i l rs, nth_error (evals (a_trace a')) i = Some l -> nth_error rss i = Some rs -> Forall2 (fun o r => has_nodes w' o (flatten r)) l rs.
Proof. exact C98_program_history. Qed.
Print Assumptions C98_any_program_history.

(** *** Examples *)

(** Integer vectors of two cells from 0 to 3, a crossover and an integer mutation. *)
Definition small : bounds := BPair (nof_Z 0) (nof_Z 3).
Definition redraw_all : oper := mkOper (OVecMut (MIntOne (Fin (1 # 2))) 1) (Fin (1 # 2)) 1 5.
Definition cut : oper := mkOper (OKPoint 1) (Fin (1 # 2)) 2 5.
Definition small_sub : subpop :=
  mkSub [CVector 2 small KInt KSimple false] [Fin 1] [cut; redraw_all] [SelTournament 2 false 1] 2 (HB true) 0 None.
Definition wanted : list (list num) := [row [3; 3]%Z; row [0; 2]%Z].

Example C98_vectors_example :
  fair in_turn /\ configured true (two_generations small_sub) nothing small_sub /\ Forall (vector_operator KInt small 2) (sp_ops small_sub) /\
  Forall (vector_creator KInt small 2) (sp_creators small_sub) /\ (KInt = KFloat -> wide small) /\ sp_ops small_sub = [cut] ++ [redraw_all] /\
  can_happen (op_prob redraw_all) /\ redraws (MIntOne (Fin (1 # 2))) 1 2 /\ length wanted = sp_size small_sub /\ Forall (search_space KInt small 2) wanted /\
  forall i, 1 <= i < 3 -> a_random_seed (two_generations small_sub) <> seed_at (two_generations small_sub) i.
Proof.
  split; [intros n; apply Permutation_sym, Permutation_rev|]. split; [|split; [|split; [|split; [|split; [|split; [|split; [|split; [|split]]]]]]]].
  - constructor; try reflexivity; try (cbn; auto with arith; fail).
    + cbn. intros n [<-|[<-|[<-|[]]]]; (split; [discriminate|]); [exists 2|exists 1|exists 2]; reflexivity.
    + exists (SelTournament 2 false 1), []. split; [reflexivity|]. cbn. auto with arith.
    + cbn. split; [reflexivity|]. split; [exists 1%Q; split; reflexivity|]. intros c [<-|[]]. split; [reflexivity|exact I].
  - constructor; [cbn; auto with arith|constructor; [|constructor]]. left. cbn. split; [auto with arith|]. split; [intros [=]|exact I].
  - constructor; [|constructor]. cbn. split; [reflexivity|]. split; [reflexivity|]. split; [reflexivity|]. split; [|exact I].
    split; [exists 0%Q, 3%Q; split; [reflexivity|discriminate]|]. split; [intros _; repeat split; eexists; reflexivity|intros [=]].
  - intros [=].
  - reflexivity.
  - reflexivity.
  - reflexivity.
  - reflexivity.
  - repeat constructor; intros [|[|i]] x H; try discriminate; try (destruct i; discriminate); injection H as <-; cbn [bound_at small]; do 2 eexists; (split; [reflexivity|]); exists 0%Z, 3%Z;
      eexists; (split; [reflexivity|]; split; [reflexivity|]; split; [|reflexivity]); lia.
  - intros i Hi. assert (i = 1 \/ i = 2) as [-> | ->] by lia; discriminate.
Qed.

(** Two streams which differ only for the seed 8 of generation 1: the same first population, and then the wanted one. *)
Definition drawn (l : list N) (i : nat) : draw := mkDraw (nth i l 0%N) 0.
Definition stream (l : list N) : rng := mkRng (fun s => if (s =? 8)%Z then drawn l else drawn [0; 1; 2; 3; 1]%N) (fun _ => drawn []) 0 0 0 0.
Definition other : list N := [0; 0; 0; 0; 0; 0; 0; 0; 3; 0; 3; 0; 0; 0; 0; 2]%N.

Example C98_vectors_run :
  other_stream (seed_at (two_generations small_sub) 1) (stream []) (stream other) /\
  let r := evolve first_bit in_turn 1 (two_generations small_sub, with_rng nothing (stream [])) in
  let r' := evolve first_bit in_turn 1 (two_generations small_sub, with_rng nothing (stream other)) in
  fst r = Ok tt /\ evals (a_trace (fst (snd r))) = [[0; 1]] ++ [2; 3] :: [[6; 7]] /\
  fst r' = Ok tt /\ (exists after, evals (a_trace (fst (snd r'))) = [[0; 1]] ++ [2; 3] :: after) /\
  vec_at (snd (snd r)) 1 (mkVec KInt small 2 (row [3; 1]%Z)) /\ vec_at (snd (snd r')) 1 (mkVec KInt small 2 (row [3; 1]%Z)) /\
  vec_at (snd (snd r)) 2 (mkVec KInt small 2 (row [0; 0]%Z)) /\ Forall2 (fun o c => vec_at (snd (snd r')) o (mkVec KInt small 2 c)) [2; 3] wanted.
Proof.
  split.
  - repeat (split; [reflexivity|]). intros s i Hs. cbn. destruct (Z.eqb_spec s 8) as [->|_]; [destruct (Hs eq_refl)|reflexivity].
  - vm_compute. split; [reflexivity|]. split; [reflexivity|]. split; [reflexivity|]. split; [eexists; reflexivity|].
    split; [eexists; split; reflexivity|]. split; [eexists; split; reflexivity|]. split; [eexists; split; reflexivity|].
    repeat constructor; eexists; split; reflexivity.
Qed.

(** Bit strings of three cells, of which each is flipped with probability 1/2. *)
Definition flip_each : oper := mkOper (OVecMut (MBitNFlip (Fin (1 # 2))) 3) (Fin 1) 1 5.
Definition flip_sub : subpop :=
  mkSub [CVector 3 (BPair (Fin 0) (Fin 1)) KBit KSimple false] [Fin 1] [cut; flip_each] [SelTournament 2 false 1] 2 (HB true) 0 None.

Example C98_bits_example :
  configured true (two_generations flip_sub) nothing flip_sub /\ Forall (bit_operator 3) (sp_ops flip_sub) /\
  (forall c, In c (sp_creators flip_sub) -> exists fc upd, c = CVector 3 (BPair (Fin 0) (Fin 1)) KBit fc upd) /\
  sp_ops flip_sub = [cut] ++ [flip_each] /\ can_happen (op_prob flip_each) /\ can_happen (Fin (1 # 2)) /\ can_fail (Fin (1 # 2)) /\
  a_random_seed (two_generations flip_sub) <> seed_at (two_generations flip_sub) 1 /\
  Forall (fun c => is_bits c /\ length c = 3) [row [1; 0; 1]%Z; row [0; 0; 0]%Z].
Proof.
  split; [|split; [|split; [|split; [|split; [|split; [|split; [|split]]]]]]]; try reflexivity.
  - constructor; try reflexivity; try (cbn; auto with arith; fail).
    + cbn. intros n [<-|[<-|[<-|[]]]]; (split; [discriminate|]); [exists 2|exists 1|exists 2]; reflexivity.
    + exists (SelTournament 2 false 1), []. split; [reflexivity|]. cbn. auto with arith.
    + cbn. split; [reflexivity|]. split; [exists 1%Q; split; reflexivity|]. intros c [<-|[]]. split; [reflexivity|exact I].
  - repeat constructor.
  - intros c [<-|[]]. do 2 eexists. reflexivity.
  - discriminate.
  - repeat (apply Forall_cons || apply Forall_nil || split); try reflexivity; (left; reflexivity) || (right; reflexivity).
Qed.

(** Programs of one untyped function and two variables, subtree mutation last: x or plus(y, x). *)
Definition plus : func := mkFunc 1 "plus" [None; None] None.
Definition gp_plain : gp_params := mkGP 0 2 [plus] [(TVar "x", None); (TVar "y", None)] false None (Fin 0) None false (Fin (1 # 2)).
Definition plain : tree := blank_tree gp_plain (g_terms gp_plain).
Definition plain_sub : subpop :=
  mkSub [CGP Grow gp_plain] [Fin 1] [mkOper OSubtreeXO (Fin 1) 2 5; mkOper (OSubtreeMut 0 2) (Fin 1) 1 5] [SelTournament 2 true 1] 2 (HB false) 0 None.
Definition var (s : string) : rtree := Rose (TNode (TVar s) None) [].
Definition progs : list rtree := [var "x"; Rose (FNode plus) [var "y"; var "x"]].

Example C98_programs_example :
  configured false (two_generations plain_sub) nothing plain_sub /\ supplied plain (t_root_type plain) /\ typed_terminals plain (t_root_type plain) /\
  Forall tree_operator (sp_ops plain_sub) /\ node_kind plain (sp_ops plain_sub) (program_node plain) /\ Forall (tree_creator plain (sp_size plain_sub)) (sp_creators plain_sub) /\
  printable_terminals plain /\ clear_terminals plain None /\ (forall e, t_erc plain = Some e -> erc_proper e) /\
  untyped plain /\ length progs = sp_size plain_sub /\ Forall (fun c => can_make plain c progs) (sp_creators plain_sub) /\
  Forall (program plain 0 (Nat.max 0 2) 0 None) progs.
Proof.
  assert (Hr : forall a, requested plain None a -> a = None).
  { intros a [->|(f & [<-|[]] & [Ha|Ha])]; [reflexivity|symmetry; exact Ha|cbn in Ha; intuition]. }
  assert (Ht : forall k a, In (k, a) (t_tset plain) -> a = None) by (intros k a [E|[E|[]]]; injection E as _ <-; reflexivity).
  assert (Hh : hinted plus) by (right; cbn; intros a [<-|[<-|[<-|[]]]]; reflexivity).
  assert (L : forall lo hi d s, In s ["x"; "y"] -> lo <= d -> program plain lo hi d None (var s)).
  { intros lo hi d s Hs Hd. apply Terminal; [|exact Hd]. apply Listed. destruct Hs as [<-|[<-|[]]]; [left|right; left]; reflexivity. }
  assert (P : Forall (program plain 0 2 0 None) progs).
  { apply Forall_cons; [apply L; cbn; auto|]. apply Forall_cons; [|apply Forall_nil]. apply Call; [left; reflexivity|exact Hh|reflexivity|auto with arith|].
    repeat (apply Forall2_cons || apply Forall2_nil); apply L; cbn; auto with arith. }
  split; [|split; [|split; [|split; [|split; [|split; [|split; [|split; [|split; [|split; [|split; [|split]]]]]]]]]]]; try reflexivity.
  - constructor; try reflexivity; try (cbn; auto with arith; fail).
    + cbn. intros n [<-|[<-|[<-|[]]]]; (split; [discriminate|]); [exists 2|exists 1|exists 2]; reflexivity.
    + exists (SelTournament 2 true 1), []. split; [reflexivity|]. cbn. auto with arith.
    + cbn. split; [reflexivity|]. split; [exists 1%Q; split; reflexivity|]. intros c [<-|[]]. repeat split.
  - split; [intros f [<-|[]]; exact Hh|]. split; [intros e [=]|]. intros a Ha. rewrite (Hr a Ha). split; [exists plus; cbn; auto|]. left. exists (TVar "x"). cbn. auto.
  - left. split; [exact Hr|exact Ht].
  - repeat constructor.
  - split; [|intros op mu sigma [<-|[<-|[]]] [=]]. intros [f|[v|b x tag] a] Hn; [exact Hn| |]; cbn in Hn |- *.
    + destruct Hn as [(c & [E|[E|[]]])|(e & [=] & _)]; injection E as <- _; auto.
    + destruct Hn as [(c & [E|[E|[]]])|(e & [=] & _)]; discriminate E.
  - repeat constructor.
  - split; [|intros H; exfalso; apply H; exists (TVar "x"); left; reflexivity]. intros _ k ty [E|[E|[]]]; injection E as <- <-; eexists; reflexivity.
  - left. split; [exact Hr|exact Ht].
  - intros e [=].
  - split; [reflexivity|]. intros f [<-|[]]. reflexivity.
  - constructor; [|constructor]. split; [intros _; exists (1 # 2); repeat split; discriminate|exact P].
  - exact P.
Qed.
