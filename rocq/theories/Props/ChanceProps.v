(** What the first generation can be, and that no optimum is out of reach of a run: C95. *)
From Coq Require Import Permutation QArith Lia.
From Verif.Model Require Import Num Rng Vector Tree World Creators Evolution.
From Verif.Spec Require Import WorldSpec FitnessSpec VectorSpec TreeSpec EvoSpec CompleteSpec ShowSpec ReachSpec MoveSpec RegSpec.
From Verif.Proofs Require Import ProgramP ChanceP.
From Verif.Props Require Import CompleteProps.
From Verif.Model Require Import Num Rng Vector Tree World Creators Evolution.
Open Scope string_scope.
Open Scope nat_scope.
Open Scope list_scope.

(** ** C95 *)

(** For every population of vectors of the search space there are draws, obtainable after the seeding, with which the run evaluates
    exactly this population first; the run completes. *)
Theorem C95_first_vectors : forall k b len ev sched h s n a w cs,
  gives_numbers ev -> total_on (vectors k b len) ev -> fair sched -> a_trace a = [] -> configured h a w s ->
  Forall (vector_operator k b len) (sp_ops s) -> sp_inds s = None -> Forall (vector_creator k b len) (sp_creators s) -> (k = KFloat -> wide b) ->
  length cs = sp_size s -> Forall (search_space k b len) cs ->
  exists g a' w' l rest, evolve ev sched n (a, with_rng w g) = (Ok tt, (a', w')) /\ evals (a_trace a') = l :: rest /\
    Forall2 (fun o c => vec_at w' o (mkVec k b len c)) l cs.
Proof. exact C95_vectors. Qed.
Print Assumptions C95_first_vectors.

(** If some vector of the search space is optimal, then there are draws with which the run ends with an optimal best individual,
    whatever the operators do. *)
Theorem C95_optimal_vector : forall k b len ev sched h s n a w c x,
  gives_numbers ev -> total_on (vectors k b len) ev -> fair sched -> a_trace a = [] -> configured h a w s ->
  Forall (vector_operator k b len) (sp_ops s) -> sp_inds s = None -> Forall (vector_creator k b len) (sp_creators s) -> (k = KFloat -> wide b) ->
  all_kinds no_penalty w -> Forall (made_with no_penalty) (sp_creators s) ->
  search_space k b len c -> ev (GVec (mkVec k b len c)) = Ok (VNum x) ->
  (forall g y, vectors k b len g -> ev g = Ok (VNum y) -> ~ better_score h y x) ->
  exists g a' w' o i y, evolve ev sched n (a, with_rng w g) = (Ok tt, (a', w')) /\ a_best_run a' = Some o /\ at_ w' o = Some i /\
    ev (i_genome i) = Ok (VNum y) /\ get_pure_fitness (i_fit i) = Ok (VNum y) /\ neq_num y x = true.
Proof. exact C95_best_vector. Qed.
Print Assumptions C95_optimal_vector.

(** The same for trees: every population of programs that all the creators promise to be able to make. *)
Theorem C95_first_programs : forall t0 Q ev sched h s n a w rs,
  gives_numbers ev -> total_on (trees_of t0 Q) ev -> fair sched -> a_trace a = [] -> configured h a w s ->
  supplied t0 (t_root_type t0) -> typed_terminals t0 (t_root_type t0) -> Forall tree_operator (sp_ops s) -> node_kind t0 (sp_ops s) Q ->
  sp_inds s = None -> Forall (tree_creator t0 (sp_size s)) (sp_creators s) -> printable_terminals t0 ->
  clear_terminals t0 (t_root_type t0) -> (forall e, t_erc t0 = Some e -> erc_proper e) ->
  length rs = sp_size s -> Forall (fun c => can_make t0 c rs) (sp_creators s) ->
  exists g a' w' l rest, evolve ev sched n (a, with_rng w g) = (Ok tt, (a', w')) /\ evals (a_trace a') = l :: rest /\
    Forall2 (fun o r => has_nodes w' o (flatten r)) l rs.
Proof. exact C95_programs. Qed.
Print Assumptions C95_first_programs.

Theorem C95_optimal_program : forall t0 Q ev sched h s n a w rs r x,
  gives_numbers ev -> total_on (trees_of t0 Q) ev -> fair sched -> a_trace a = [] -> configured h a w s ->
  supplied t0 (t_root_type t0) -> typed_terminals t0 (t_root_type t0) -> Forall tree_operator (sp_ops s) -> node_kind t0 (sp_ops s) Q ->
  sp_inds s = None -> Forall (tree_creator t0 (sp_size s)) (sp_creators s) -> printable_terminals t0 ->
  clear_terminals t0 (t_root_type t0) -> (forall e, t_erc t0 = Some e -> erc_proper e) ->
  all_kinds no_penalty w -> Forall (made_with no_penalty) (sp_creators s) ->
  length rs = sp_size s -> Forall (fun c => can_make t0 c rs) (sp_creators s) -> In r rs ->
  (forall t, trees_of t0 Q (GTree t) -> t_nodes t = flatten r -> ev (GTree t) = Ok (VNum x)) ->
  (forall g y, trees_of t0 Q g -> ev g = Ok (VNum y) -> ~ better_score h y x) ->
  exists g a' w' o i y, evolve ev sched n (a, with_rng w g) = (Ok tt, (a', w')) /\ a_best_run a' = Some o /\ at_ w' o = Some i /\
    ev (i_genome i) = Ok (VNum y) /\ get_pure_fitness (i_fit i) = Ok (VNum y) /\ neq_num y x = true.
Proof. exact C95_best_program. Qed.
Print Assumptions C95_optimal_program.

(** *** Examples *)

(** Bit vectors of three cells, scored by their first cell; crossover only; the population 100, 010. *)
Definition bits : bounds := BPair (nof_Z 0) (nof_Z 1).
Definition first_bit (g : genome) : res fval :=
  match g with
  | GVec v => match v_cells v with x :: _ => Ok (VNum (if nlt (Fin 0) x then Fin 1 else Fin 0)) | _ => Ok (VNum (Fin 0)) end
  | GTree t => Ok (VNum (if length (t_nodes t) =? 3 then Fin 0 else Fin 1))
  end.
Definition bit_sub : subpop :=
  mkSub [CVector 3 bits KBit KSimple false] [Fin 1] [mkOper (OKPoint 1) (Fin (1 # 2)) 2 5] [SelTournament 2 false 1] 2 (HB true) 0 None.
Definition two_generations (s : subpop) : algo := mkAlgo [s] 2 [] 7 7 ByMap true None None None 0 None 0 [].
Definition nothing : world := mkWorld [] 1 (tape []).

Example first_bit_total G : gives_numbers first_bit /\ total_on G first_bit.
Proof.
  split.
  - intros [v|t] x H; cbn -[nlt] in H; [destruct (v_cells v) as [|q c]; [|destruct (nlt _ q)]|destruct (_ =? _)]; injection H as <-; eexists; split; reflexivity.
  - intros [v|t] _; cbn -[nlt]; [destruct (v_cells v) as [|q c]|]; eexists; reflexivity.
Qed.

Definition row (l : list Z) : list num := map nof_Z l.

Example C95_vectors_example :
  fair in_turn /\ configured true (two_generations bit_sub) nothing bit_sub /\ Forall (vector_operator KBit bits 3) (sp_ops bit_sub) /\
  Forall (vector_creator KBit bits 3) (sp_creators bit_sub) /\ all_kinds no_penalty nothing /\ Forall (made_with no_penalty) (sp_creators bit_sub) /\
  Forall (search_space KBit bits 3) [row [1; 0; 0]%Z; row [0; 1; 0]%Z] /\ first_bit (GVec (mkVec KBit bits 3 (row [1; 0; 0]%Z))) = Ok (VNum (Fin 1)) /\
  (forall g y, vectors KBit bits 3 g -> first_bit g = Ok (VNum y) -> ~ better_score true y (Fin 1)).
Proof.
  split; [intros n; apply Permutation_sym, Permutation_rev|]. split; [|split; [|split; [|split; [|split; [|split; [|split]]]]]].
  - constructor; try reflexivity; try (cbn; auto with arith; fail).
    + cbn. intros n [<-|[<-|[]]]; (split; [discriminate|]); [exists 2|exists 1]; reflexivity.
    + exists (SelTournament 2 false 1), []. split; [reflexivity|]. cbn. auto with arith.
    + cbn. split; [reflexivity|]. split; [exists 1%Q; split; reflexivity|]. intros c [<-|[]]. split; [reflexivity|exact I].
  - constructor; [cbn; auto with arith|constructor].
  - constructor; [|constructor]. cbn. split; [reflexivity|]. split; [reflexivity|]. split; [reflexivity|]. split; [|exact I].
    split; [exists 0%Q, 1%Q; split; [reflexivity|discriminate]|]. split; [intros _; repeat split; eexists; reflexivity|intros _; do 2 eexists; reflexivity].
  - intros i [].
  - repeat constructor.
  - repeat constructor; intros [|[|[|i]]] x H; try discriminate; try (destruct i; discriminate); injection H as <-; cbn [bound_at bits]; do 2 eexists; (split; [reflexivity|]); exists 0%Z, 1%Z;
      eexists; (split; [reflexivity|]; split; [reflexivity|]; split; [|reflexivity]); lia.
  - reflexivity.
  - intros g y (v & -> & _) E. cbn -[nlt] in E. unfold better_score. destruct (v_cells v) as [|q c]; [injection E as <-|destruct (nlt _ q); injection E as <-]; vm_compute; discriminate.
Qed.

(** Such draws: the creator, then the six bits. *)
Example C95_vectors_run :
  let d n := mkDraw n 0 in
  let r := evolve first_bit in_turn 1 (two_generations bit_sub, with_rng nothing (tape (map d [0; 1; 0; 0; 0; 1; 0]%N))) in
  fst r = Ok tt /\ exists rest, evals (a_trace (fst (snd r))) = [0; 1] :: rest /\
  vec_at (snd (snd r)) 0 (mkVec KBit bits 3 (row [1; 0; 0]%Z)) /\ vec_at (snd (snd r)) 1 (mkVec KBit bits 3 (row [0; 1; 0]%Z)).
Proof. vm_compute. split; [reflexivity|]. eexists. split; [reflexivity|]. split; eexists; split; reflexivity. Qed.

(** The typed primitives and the ramped half-and-half creator of the C63 example: plus(x, x) for Grow, and the trees Full makes. *)
Definition leaf : rtree := Rose (TNode (TVar "x") flt) [].
Definition sum_of (l r : rtree) : rtree := Rose (FNode plus2) [l; r].
Definition four : list rtree := [sum_of leaf leaf; sum_of leaf leaf; sum_of leaf leaf; sum_of (sum_of leaf leaf) (sum_of leaf leaf)].

Example C95_programs_example :
  clear_terminals primitives (t_root_type primitives) /\ (forall e, t_erc primitives = Some e -> erc_proper e) /\
  all_kinds no_penalty nothing /\ Forall (made_with no_penalty) (sp_creators tree_sub) /\
  length four = sp_size tree_sub /\ Forall (fun c => can_make primitives c four) (sp_creators tree_sub) /\ In (sum_of leaf leaf) four /\
  (forall t, t_nodes t = flatten (sum_of leaf leaf) -> first_bit (GTree t) = Ok (VNum (Fin 0))) /\
  (forall g y, trees_of primitives (program_node primitives) g -> first_bit g = Ok (VNum y) -> ~ better_score false y (Fin 0)).
Proof.
  assert (Hh : hinted plus2) by (left; cbn; intros a [<-|[<-|[<-|[]]]]; discriminate).
  assert (L : forall lo hi d, lo <= d -> program primitives lo hi d flt leaf) by (intros; apply Terminal; [apply Listed; left; reflexivity|assumption]).
  assert (P : forall lo hi d l r, d < hi -> program primitives lo hi (S d) flt l -> program primitives lo hi (S d) flt r -> program primitives lo hi d flt (sum_of l r)).
  { intros. apply Call; [left; reflexivity|exact Hh|reflexivity|assumption|]. repeat constructor; assumption. }
  split; [|split; [|split; [|split; [|split; [|split; [|split; [|split]]]]]]].
  - right. split.
    + intros k a [E|[E|[]]]; injection E as <- <-; (split; [reflexivity|]); intros k b [E|[E|[]]]; injection E as <- <-; cbn; intros H; congruence.
    + intros _ k a [E|[E|[]]]; injection E as <- <-; reflexivity.
  - intros e [= <-]. split; reflexivity.
  - intros i [].
  - repeat constructor.
  - reflexivity.
  - constructor; [|constructor]. split; [exists (1 # 2); repeat split; discriminate|]. change (half_plan 1 2 (length four)) with [(Grow, 1); (Full, 1); (Grow, 2); (Full, 2)].
    unfold four. repeat (apply Forall2_cons; [cbn; repeat (apply P; [auto with arith| |]); apply L; auto with arith|]). apply Forall2_nil.
  - left. reflexivity.
  - intros t E. cbn. rewrite E. reflexivity.
  - intros g y ((t & rt & -> & _) & _) E. cbn in E. unfold better_score. destruct (_ =? _); injection E as <-; vm_compute; discriminate.
Qed.
