(** Properties of the result of a run: C74. *)
From Coq Require Import Permutation QArith Qabs.
From Verif.Model Require Import Nsga2 Execute.
From Verif.Spec Require Import WorldSpec FitnessSpec VectorSpec TreeSpec EvoSpec Nsga2Spec CompleteSpec BaseSpec RegSpec ShowSpec ExecuteSpec.
From Verif.Proofs Require Import ProgramP ExecuteP.
From Verif.Model Require Import Tree World Creators Evolution BaseFns Nsga2 Execute.
Open Scope string_scope.
Open Scope nat_scope.
Open Scope list_scope.

(** If the fitness function judges individuals by their results on some cases, then after a run the algorithm gives the
    results of one evaluated individual, and no evaluated individual has results that are judged better.  There must be no
    size penalty. *)
Theorem C74_best : forall val (fsem : func -> list val -> res val) const cases score ev sched n a w a' w' h,
  judged_by fsem const cases score ev -> gives_numbers ev -> fair sched -> a_trace a = [] -> a_method a = ByMap ->
  scalar_population w h (a_pop a) -> all_kinds no_penalty w ->
  (forall s, In s (a_pop a) -> forall c, In c (sp_creators s) -> made_with no_penalty c) ->
  evolve ev sched n (a, w) = (Ok tt, (a', w')) ->
  exists b i m, In b (concat (evals (a_trace a'))) /\ at_ w' b = Some i /\
    (forall kw, algorithm_execute val fsem const kw a' w' = ind_execute val fsem const (i_genome i) kw) /\
    score (map (fun kw => algorithm_execute val fsem const kw a' w') cases) = Ok m /\
    forall o, In o (concat (evals (a_trace a'))) ->
      exists j k, at_ w' o = Some j /\ score (map (ind_execute val fsem const (i_genome j)) cases) = Ok k /\ ~ better_score h k m.
Proof. exact execute_best. Qed.
Print Assumptions C74_best.

(** After a run on vectors the result is an in-bounds vector of the given kind and length, for all arguments. *)
Theorem C74_vector : forall val (fsem : func -> list val -> res val) const k b len ev sched h s n a w,
  gives_numbers ev -> total_on (vectors k b len) ev -> fair sched -> a_trace a = [] -> configured h a w s ->
  Forall (vector_operator k b len) (sp_ops s) ->
  match sp_inds s with
  | Some l => genomes_in (vectors k b len) l w
  | None => Forall (vector_creator k b len) (sp_creators s)
  end ->
  exists a' w' v, evolve ev sched n (a, w) = (Ok tt, (a', w')) /\ vectors k b len (GVec v) /\
    forall kw, algorithm_execute val fsem const kw a' w' = Ok (OVector (v_cells v)).
Proof. exact execute_vector. Qed.
Print Assumptions C74_vector.

(** After a run on trees of numeric functions there is one program tree such that the result, for numbers given to exactly
    the variables, is a finite number, namely the value of the program; otherwise ValueError is raised. *)
Theorem C74_program : forall us ul usin ucos utan t0 ev sched h s n a w,
  finite_functions us ul usin ucos utan -> numeric_functions (t_fset t0) ->
  gives_numbers ev -> total_on (trees_of t0 (program_node t0)) ev -> fair sched -> a_trace a = [] -> configured h a w s ->
  supplied t0 (t_root_type t0) -> typed_terminals t0 (t_root_type t0) -> printable_terminals t0 ->
  Forall tree_operator (sp_ops s) -> node_kind t0 (sp_ops s) (program_node t0) ->
  match sp_inds s with
  | Some l => genomes_in (trees_of t0 (program_node t0)) l w
  | None => Forall (tree_creator t0 (sp_size s)) (sp_creators s)
  end ->
  exists a' w' rt, evolve ev sched n (a, w) = (Ok tt, (a', w')) /\ saturated rt /\ (forall nd, In nd (flatten rt) -> program_node t0 nd) /\
    forall kw,
      (exact_arguments t0 kw -> Forall (fun e => number (snd e)) kw ->
       exists v, algorithm_execute el (base_sem us ul usin ucos utan) el_const kw a' w' = Ok (OValue v) /\ number v /\
         forall env, (forall f, In f (t_fset t0) -> exists g, meaning (f_name f) = Some (arity f, g)) ->
           (forall x u, argument kw x = Some u -> is_number u (env x)) -> is_number v (worth env rt)) /\
      (~ exact_arguments t0 kw -> algorithm_execute el (base_sem us ul usin ucos utan) el_const kw a' w' = Raise ValueError).
Proof. exact execute_program. Qed.
Print Assumptions C74_program.

(** With a number among the terminals, as the documentation of [execute] has it, [execute] raises ValueError after every run,
    whatever the arguments. *)
Theorem C74_number_terminals : forall val (fsem : func -> list val -> res val) const t0 Q ev sched h s n a w b x tag ty,
  gives_numbers ev -> total_on (trees_of t0 Q) ev -> fair sched -> a_trace a = [] -> configured h a w s ->
  supplied t0 (t_root_type t0) -> typed_terminals t0 (t_root_type t0) -> Forall tree_operator (sp_ops s) -> node_kind t0 (sp_ops s) Q ->
  match sp_inds s with
  | Some l => genomes_in (trees_of t0 Q) l w
  | None => Forall (tree_creator t0 (sp_size s)) (sp_creators s)
  end ->
  In (TNum b x tag, ty) (t_tset t0) ->
  exists r a' w', evolve ev sched n (a, w) = (r, (a', w')) /\ forall kw, algorithm_execute val fsem const kw a' w' = Raise ValueError.
Proof. exact execute_numbers. Qed.
Print Assumptions C74_number_terminals.

(** Before a run there is nothing to execute. *)
Theorem C74_before : forall val (fsem : func -> list val -> res val) const kw a w,
  a_best_run a = None -> algorithm_execute val fsem const kw a w = Raise AttributeError.
Proof. intros val fsem const kw a w E. unfold algorithm_execute. rewrite E. reflexivity. Qed.
Print Assumptions C74_before.

(** x * x + x from three points; the error of a program that fails or gives no finite number counts as 1000. *)
Definition add2 : func := mkFunc 1 "f_add" [None; None] None.
Definition mul2 : func := mkFunc 2 "f_mul" [None; None] None.
Definition same (x : num) : num := x.
Definition base_fns := base_sem same same same same same.
Definition points : list (list (string * el)) := [[("x", EInt 1)]; [("x", EInt 2)]; [("x", EFloat (Fin (1 # 2)))]].
Definition wanted : list Q := [2; 6; 3 # 4]%Q.
Definition miss (p : Q * res (outcome el)) : Q :=
  match snd p with Ok (OValue v) => match el_num v with Fin q => Qabs (q - fst p) | _ => 1000 end | _ => 1000 end.
Definition misses (rs : list (res (outcome el))) : res num := Ok (Fin (fold_left Qplus (map miss (combine wanted rs)) 0%Q)).
Definition fitting (g : genome) : res fval := rbind (misses (map (ind_execute el base_fns el_const g) points)) (fun x => Ok (VNum x)).
Definition gp_x : gp_params := mkGP 1 2 [add2; mul2] [(TVar "x", None)] false None (Fin 0) None false (Fin (1 # 2)).
Definition x_sub : subpop :=
  mkSub [CGP Grow gp_x] [Fin 1] [mkOper OSubtreeXO (Fin 1) 2 5; mkOper (OSubtreeMut 1 2) (Fin 1) 1 5] [SelTournament 2 true 1] 4 (HB false) 0 None.
Definition x_tree : tree := blank_tree gp_x (g_terms gp_x).
Definition x_algo (s : subpop) : algo := mkAlgo [s] 2 [] 7 7 ByMap true None None None 0 None 0 [].
Definition x_world : world := mkWorld [] 1 (tape [mkDraw 0 (1 # 2); mkDraw 1 (1 # 4); mkDraw 3 (3 # 4); mkDraw 5 (1 # 8)]).
Definition in_turn (n : nat) : list nat := rev (seq 0 n).

Example C74_hypotheses :
  judged_by base_fns el_const points misses fitting /\ gives_numbers fitting /\ (forall G, total_on G fitting) /\ fair in_turn /\
  scalar_population x_world false [x_sub] /\ all_kinds no_penalty x_world /\ Forall (made_with no_penalty) (sp_creators x_sub) /\
  finite_functions same same same same same /\ numeric_functions (t_fset x_tree) /\ configured false (x_algo x_sub) x_world x_sub /\
  supplied x_tree (t_root_type x_tree) /\ typed_terminals x_tree (t_root_type x_tree) /\ printable_terminals x_tree /\
  Forall tree_operator (sp_ops x_sub) /\ node_kind x_tree (sp_ops x_sub) (program_node x_tree) /\
  Forall (tree_creator x_tree (sp_size x_sub)) (sp_creators x_sub) /\ exact_arguments x_tree [("x", EInt 3)].
Proof.
  assert (Hr : forall a, requested x_tree None a -> a = None).
  { intros a [->|(f & [<-|[<-|[]]] & Ha)]; auto; cbn in Ha; intuition. }
  assert (Su : supplied x_tree (t_root_type x_tree)).
  { split; [|split; [discriminate|]].
    + intros f [<-|[<-|[]]]; right; cbn; intuition.
    + intros a Ha. rewrite (Hr a Ha). split; [exists add2; cbn; auto|]. left. exists (TVar "x"). cbn. auto. }
  split; [intros g; reflexivity|]. split; [intros g v [= <-]; eexists; split; reflexivity|]. split; [intros G g _; eexists; reflexivity|].
  split; [intros n; apply Permutation_sym, Permutation_rev|].
  split; [exists x_sub; split; [reflexivity|]; cbn; split; [reflexivity|]; intros c [<-|[]]; reflexivity|].
  split; [intros i []|]. split; [repeat constructor|]. split; [constructor; intros; eexists; reflexivity|].
  split; [intros f [<-|[<-|[]]]; cbn; auto|]. split.
  { constructor; try reflexivity; try (cbn; auto with arith; fail).
    + cbn. intros n [<-|[<-|[<-|[]]]]; (split; [discriminate|]); [exists 4|exists 2|exists 4]; reflexivity.
    + exists (SelTournament 2 true 1), []. split; [reflexivity|]. cbn. auto with arith.
    + cbn. split; [reflexivity|]. split; [exists 1%Q; split; reflexivity|]. intros c [<-|[]]. repeat split. }
  split; [exact Su|]. split; [|split; [|split; [|split; [|split]]]].
  - left. split; [exact Hr|]. cbn. intros k a [[= <- <-]|[]]. reflexivity.
  - split.
    + intros _ k t [[= <- <-]|[]]. eexists; reflexivity.
    + intros H. exfalso. apply H. exists (TVar "x"). cbn. auto.
  - repeat constructor.
  - apply program_kind; [exact Su| | |].
    + intros v a [[= <- <-]|[]] b x tag [=].
    + discriminate.
    + intros op mu sigma [<-|[<-|[]]] [=].
  - repeat constructor.
  - split; cbn; [intros s [<-|[]]; auto|intros v [<-|[]]; exists "x"; auto].
Qed.

Definition x_run := evolve fitting in_turn 0 (x_algo x_sub, x_world).
Definition x_result (kw : list (string * el)) := algorithm_execute el base_fns el_const kw (fst (snd x_run)) (snd (snd x_run)).

(** The run finds x + x; the variable must be given. *)
Example C74_example :
  fst x_run = Ok tt /\ map x_result points = [Ok (OValue (EInt 2)); Ok (OValue (EInt 4)); Ok (OValue (EFloat (Fin (4 # 4))))] /\
  x_result [("x", EInt 3)] = Ok (OValue (EInt 6)) /\ x_result [] = Raise ValueError.
Proof. vm_compute. repeat split. Qed.

(** Float vectors of two cells. *)
Definition unit2 : bounds := BPair (Fin (-1)) (Fin 1).
Definition pair_sub : subpop :=
  mkSub [CVector 2 unit2 KFloat KSimple false] [Fin 1] [mkOper (OVecMut MUniformOne 1) (Fin 1) 1 5] [SelTournament 2 false 1] 2 (HB true) 0 None.
Definition first_cell (g : genome) : res fval :=
  Ok (VNum (match g with GVec v => match v_cells v with Fin x :: _ => Fin x | _ => Fin 0 end | GTree _ => Fin 0 end)).
Definition pair_run := evolve first_cell in_turn 0 (x_algo pair_sub, x_world).
Example C74_vector_example : fst pair_run = Ok tt /\
  match algorithm_execute el base_fns el_const [("x", EInt 3)] (fst (snd pair_run)) (snd (snd pair_run)) with Ok (OVector l) => length l = 2 | _ => False end.
Proof. vm_compute. split; reflexivity. Qed.

(** The result of a multi-objective run can be worse in all objectives than an individual of the final population: it is an
    individual of the initial population, modified since. *)
Definition both (g : genome) : res fval :=
  match g with GVec v => match v_cells v with [x] => Ok (VList [x; x]) | _ => Raise ValueError end | GTree _ => Raise TypeError end.
Definition bit_ind (x : num) (id : Z) : ind :=
  mkInd id 0 (mkFit KNSGA2 VNone false (HL [true; true]) false false (Fin 0) PInf) (-1)%Z [] [] false []
    (GVec (mkVec KBit (BPair (Fin 0) (Fin 1)) 1 [x])).
Definition bits_world : world := mkWorld [bit_ind (Fin 1) 1; bit_ind (Fin 0) 2] 3 (tape (repeat (mkDraw 0 0) 40)).
Definition bits_sub : subpop :=
  mkSub [] [] [mkOper (OVecMut MBitFlip 1) (Fin 1) 1 5] [SelTournament 2 true 1] 2 (HL [true; true]) 0 (Some [0; 1]).
Definition keeps (r : nat) (l : list nat) : list nat := l.
Definition bits_algo : algo := mkAlgo [bits_sub] 1 [] 7 7 ByMap true None None None 0 None 0 [].
Theorem C74_multi_objective_refuted : exists ev sched so n a w a' w' c o i l k,
  any_order so /\ fair sched /\ a_trace a = [] /\ a_method a = ByMap /\
  nsga2_evolve ev sched so true n (a, w) = (Ok tt, (a', w')) /\
  (forall val fsem const kw, algorithm_execute val fsem const kw a' w' = Ok (OVector c)) /\
  In o (concat (map inds_of (a_pop a'))) /\ at_ w' o = Some i /\ ft_hib (i_fit i) = HL [true; true] /\ ft_value (i_fit i) = VList l /\
  ev (GVec (mkVec KBit (BPair (Fin 0) (Fin 1)) 1 c)) = Ok (VList k) /\ Forall2 (fun x y => nlt x y = true) k l.
Proof.
  exists both, in_turn, keeps, 0, bits_algo, bits_world. eexists _, _, [Fin 0], 1, _, _, _.
  split; [intros r l; apply Permutation_refl|]. split; [intros n; apply Permutation_sym, Permutation_rev|].
  split; [reflexivity|]. split; [reflexivity|]. split; [vm_compute; reflexivity|]. split; [intros; reflexivity|].
  split; [right; left; reflexivity|]. split; [reflexivity|]. split; [reflexivity|]. split; [reflexivity|]. split; [reflexivity|].
  repeat constructor.
Qed.
Print Assumptions C74_multi_objective_refuted.
