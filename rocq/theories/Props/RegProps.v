(** Properties of regression with program trees: C67. *)
From Coq Require Import Permutation QArith Qabs.
From Verif.Model Require Import Regressor World Evolution.
From Verif.Spec Require Import WorldSpec FitnessSpec TreeSpec EvoSpec CompleteSpec BaseSpec ShowSpec RegSpec.
From Verif.Proofs Require Import RegP.
From Verif.Model Require Import Tree Creators Evolution Regressor.
Open Scope string_scope.
Open Scope nat_scope.
Open Scope list_scope.

(** ** C67 *)

(** The error is the mean of the absolute differences; it is zero exactly for the right values. *)
Theorem C67_error : forall y p, y <> [] -> length y = length p ->
  exists m, mean_absolute_error (map Fin y) (map Fin p) = Ok (Fin m) /\ mean_of (total_difference y p) (length y) m /\
    (0 <= m)%Q /\ ((m == 0)%Q <-> Forall2 Qeq y p).
Proof. exact error_value. Qed.
Print Assumptions C67_error.

Theorem C67_error_rejects : forall y p, length y <> length p \/ y = [] \/ (exists x, In x (y ++ p) /\ is_fin x = false) ->
  mean_absolute_error y p = Raise ValueError.
Proof. exact error_rejects. Qed.
Print Assumptions C67_error_rejects.

Example C67_error_example :
  mean_absolute_error [Fin 1; Fin 2; Fin 4; Fin 0] [Fin 1; Fin 0; Fin 5; Fin 0] = Ok (Fin (3 # 4)) /\
  mean_absolute_error [Fin 1] [PInf] = Raise ValueError.
Proof. split; vm_compute; reflexivity. Qed.

(** A fitted regressor predicts by one of the programs that were evaluated, and no evaluated program has a better value of
    the metric on the training data, whatever the metric and the direction.  There must be no size penalty. *)
Theorem C67_fit_best : forall fsem const unspecified metric sched n X y s s' h,
  (forall p m, metric y p = Ok m -> is_nan m = false) -> fair sched ->
  a_trace (fst (rg_algo s)) = [] -> a_method (fst (rg_algo s)) = ByMap ->
  scalar_population (snd (rg_algo s)) h (a_pop (fst (rg_algo s))) -> all_kinds no_penalty (snd (rg_algo s)) ->
  (forall sp, In sp (a_pop (fst (rg_algo s))) -> forall c, In c (sp_creators sp) -> made_with no_penalty c) ->
  fit fsem const unspecified metric sched n X y s = (Ok tt, s') ->
  exists b t p m, In b (concat (evals (a_trace (fst (rg_algo s'))))) /\ tree_at (snd (rg_algo s')) b t /\
    (forall X', predict fsem const unspecified X' s' = outputs fsem const unspecified t X') /\
    predict fsem const unspecified X s' = Ok p /\ metric y p = Ok m /\
    forall o, In o (concat (evals (a_trace (fst (rg_algo s'))))) ->
      exists u q k, tree_at (snd (rg_algo s')) o u /\ outputs fsem const unspecified u X = Ok q /\ metric y q = Ok k /\ ~ better_score h k m.
Proof. exact fit_best. Qed.
Print Assumptions C67_fit_best.

(** With numeric functions, one variable for each column, finite constants and a consistent configuration fitting on finite
    floats ends without an exception, whatever is drawn; afterwards there is a program tree such that the prediction for any
    table of finite floats with these columns is, row by row, the finite number that the program computes from the row. *)
Theorem C67_fit_completes : forall us ul usin ucos utan unspecified sched h t0 sp n X y f0 a w,
  finite_functions us ul usin ucos utan -> fair sched -> float_table X -> targets X y -> a_trace a = [] -> configured h a w sp ->
  numeric_functions (t_fset t0) -> map fst (t_tset t0) = create_terminal_set X ->
  supplied t0 (t_root_type t0) -> typed_terminals t0 (t_root_type t0) -> printable_terminals t0 ->
  (forall lo hi, t_erc t0 = Some (ErcFloat lo hi) -> exists a b, lo = Fin a /\ hi = Fin b /\ (a <= b)%Q) ->
  Forall tree_operator (sp_ops sp) ->
  (forall op mu sigma, In op (sp_ops sp) -> op_kind op = OErc mu sigma -> is_fin mu = true /\ is_fin sigma = true) ->
  match sp_inds sp with
  | Some l => genomes_in (trees_of t0 (program_node t0)) l w
  | None => Forall (tree_creator t0 (sp_size sp)) (sp_creators sp)
  end ->
  exists s', fit (base_array us ul usin ucos utan) (fun v => Scalar (number_const v)) unspecified mean_absolute_error sched n X y (mkReg f0 (a, w)) = (Ok tt, s') /\
    exists rt, saturated rt /\ (forall nd, In nd (flatten rt) -> program_node t0 nd) /\
      forall X', float_table X' -> length (a_cols X') = length (a_cols X) ->
      exists p, predict (base_array us ul usin ucos utan) (fun v => Scalar (number_const v)) unspecified X' s' = Ok p /\ length p = a_rows X' /\
        forall r, r < a_rows X' -> exists q, nth_error p r = Some (Fin q) /\
          eval num (fun f xs => Ok (base_scalar us ul usin ucos utan f xs)) number_const (row_env X' r) rt = Ok (Fin q).
Proof. exact fit_completes. Qed.
Print Assumptions C67_fit_completes.

(** Prediction before fitting, and fitting on bad data, are refused; the latter changes nothing. *)
Theorem C67_unfitted : forall fsem const unspecified X s, rg_fitted s = false -> predict fsem const unspecified X s = Raise ValueError.
Proof. exact predict_unfitted. Qed.
Print Assumptions C67_unfitted.

Theorem C67_bad_data : forall fsem const unspecified metric sched n X y s,
  a_rows X = 0 \/ a_cols X = [] \/ (exists c x, In c (a_cols X) /\ In x c /\ is_fin x = false) \/
    length y <> a_rows X \/ (exists x, In x y /\ is_fin x = false) ->
  fit fsem const unspecified metric sched n X y s = (Raise ValueError, s).
Proof. exact fit_bad. Qed.
Print Assumptions C67_bad_data.

(** A regressor whose first fitting fails, whatever the reason, is still not fitted: it refuses to predict. *)
Theorem C67_failed_fit : forall fsem const unspecified metric sched n X y s e s',
  fit fsem const unspecified metric sched n X y s = (Raise e, s') ->
  rg_fitted s' = rg_fitted s /\ (rg_fitted s = false -> forall X', predict fsem const unspecified X' s' = Raise ValueError).
Proof. exact failed_fit. Qed.
Print Assumptions C67_failed_fit.

(** A regressor can be fitted only once: a second call with good data raises RuntimeError, and predictions stay as they were. *)
Theorem C67_fit_again : forall fsem const unspecified metric sched n X y s s',
  fit fsem const unspecified metric sched n X y s = (Ok tt, s') -> forall n' X' y', check_X_y X' y' = Ok tt ->
  exists s2, fit fsem const unspecified metric sched n' X' y' s' = (Raise RuntimeError, s2) /\
    forall X2, predict fsem const unspecified X2 s2 = predict fsem const unspecified X2 s'.
Proof. exact fit_again. Qed.
Print Assumptions C67_fit_again.

(** x0 * x1 in four rows; programs of additions and multiplications. *)
Definition add2 : func := mkFunc 1 "f_add" [None; None] None.
Definition mul2 : func := mkFunc 2 "f_mul" [None; None] None.
Definition gp_reg : gp_params :=
  mkGP 1 2 [add2; mul2] [(TVar "x0", None); (TVar "x1", None)] false (Some (ErcFloat (Fin (-1)) (Fin 1))) (Fin 0) None false (Fin (1 # 2)).
Definition reg_sub : subpop :=
  mkSub [CGP Full gp_reg] [Fin 1] [mkOper OSubtreeXO (Fin 1) 2 5; mkOper (OSubtreeMut 1 2) (Fin 1) 1 5; mkOper (OErc (Fin 0) (Fin 1)) (Fin 1) 1 5]
    [SelTournament 2 true 1] 4 (HB false) 0 None.
Definition reg_primitives : tree := blank_tree gp_reg (g_terms gp_reg).
Definition reg_algo0 : algo := mkAlgo [reg_sub] 2 [CkThreshold (Fin 0) (Fin 0)] 7 7 ByMap true None None None 0 None 0 [].
Definition reg_world : world := mkWorld [] 1 (tape [mkDraw 0 (1 # 2); mkDraw 1 (1 # 4); mkDraw 3 (3 # 4)]).
Definition in_turn (n : nat) : list nat := rev (seq 0 n).
Definition same (x : num) : num := x.
Definition X4 : array := mkArray true 4 [[Fin 1; Fin 2; Fin 3; Fin (1 # 2)]; [Fin 1; Fin (-1); Fin 4; Fin 6]].
Definition y4 : list num := [Fin 1; Fin (-2); Fin 12; Fin 3].
Definition base_fns := base_array same same same same same.
Definition number_scalar (v : tval) : nval := Scalar (number_const v).
Definition reg_fit := fit base_fns number_scalar same mean_absolute_error in_turn 1 X4 y4 (mkReg false (reg_algo0, reg_world)).

Example C67_hypotheses :
  finite_functions same same same same same /\ fair in_turn /\ float_table X4 /\ targets X4 y4 /\ configured false reg_algo0 reg_world reg_sub /\
  numeric_functions (t_fset reg_primitives) /\ map fst (t_tset reg_primitives) = create_terminal_set X4 /\
  supplied reg_primitives (t_root_type reg_primitives) /\ typed_terminals reg_primitives (t_root_type reg_primitives) /\
  printable_terminals reg_primitives /\
  (forall lo hi, t_erc reg_primitives = Some (ErcFloat lo hi) -> exists a b, lo = Fin a /\ hi = Fin b /\ (a <= b)%Q) /\
  Forall tree_operator (sp_ops reg_sub) /\
  (forall op mu sigma, In op (sp_ops reg_sub) -> op_kind op = OErc mu sigma -> is_fin mu = true /\ is_fin sigma = true) /\
  Forall (tree_creator reg_primitives (sp_size reg_sub)) (sp_creators reg_sub) /\
  scalar_population reg_world false [reg_sub] /\ all_kinds no_penalty reg_world /\ Forall (made_with no_penalty) (sp_creators reg_sub) /\
  (forall p m, mean_absolute_error y4 p = Ok m -> is_nan m = false).
Proof.
  assert (Hr : forall a, requested reg_primitives None a -> a = None).
  { intros a [->|(f & [<-|[<-|[]]] & Ha)]; auto; cbn in Ha; intuition. }
  split; [constructor; intros; eexists; reflexivity|]. split; [intros n; apply Permutation_sym, Permutation_rev|].
  repeat match goal with |- _ /\ _ => split end.
  - split; [reflexivity|]. split; [discriminate|]. split; [cbn; auto with arith|]. intros c [<-|[<-|[]]]; (split; [reflexivity|]); repeat constructor.
  - split; [reflexivity|]. repeat constructor.
  - constructor; try reflexivity; try (cbn; auto with arith; fail).
    + cbn. intros n [<-|[<-|[<-|[<-|[]]]]]; (split; [discriminate|]); [exists 4|exists 2|exists 4|exists 4]; reflexivity.
    + exists (SelTournament 2 true 1), []. split; [reflexivity|]. cbn. auto with arith.
    + cbn. split; [reflexivity|]. split; [exists 1%Q; split; reflexivity|]. intros c [<-|[]]. repeat split.
    + repeat constructor.
  - intros f [<-|[<-|[]]]; cbn; auto.
  - reflexivity.
  - split; [|split; [intros e [= <-]; exact I|]].
    + intros f [<-|[<-|[]]]; right; cbn; intuition.
    + intros a Ha. rewrite (Hr a Ha). split; [exists add2; cbn; auto|]. left. exists (TVar "x0"). cbn. auto.
  - left. split; [exact Hr|]. cbn. intros k a H. repeat (destruct H as [[= <- <-]|H]; [reflexivity|]). destruct H.
  - split.
    + intros _ k t H. cbn in H. repeat (destruct H as [[= <- <-]|H]; [eexists; reflexivity|]). destruct H.
    + intros H. exfalso. apply H. exists (TVar "x0"). cbn. auto.
  - intros lo hi [= <- <-]. exists (-1)%Q, 1%Q. split; [reflexivity|]. split; [reflexivity|discriminate].
  - repeat constructor.
  - intros op mu sigma [<-|[<-|[<-|[]]]] [= <- <-]. split; reflexivity.
  - repeat constructor.
  - exists reg_sub. split; [reflexivity|]. cbn. split; [reflexivity|]. intros c [<-|[]]. reflexivity.
  - intros i [].
  - repeat constructor.
  - intros p m H. destruct (error_number _ _ _ H) as (q & -> & _). reflexivity.
Qed.

Example C67_example :
  fst reg_fit = Ok tt /\ rg_fitted (snd reg_fit) = true /\ map (@length oid) (evals (a_trace (fst (rg_algo (snd reg_fit))))) = [4; 4; 4] /\
  exists p, predict base_fns number_scalar same (mkArray true 2 [[Fin 1; Fin 5]; [Fin 2; Fin (-3)]]) (snd reg_fit) = Ok p /\ length p = 2.
Proof. repeat split; try (vm_compute; reflexivity). eexists. split; vm_compute; reflexivity. Qed.

(** A metric that raises during the evaluation of the first population. *)
Example C67_failed_example :
  let r := fit base_fns number_scalar same (fun _ _ => Raise KeyError) in_turn 0 X4 y4 (mkReg false (reg_algo0, reg_world)) in
  fst r = Raise KeyError /\ rg_fitted (snd r) = false /\ length (w_heap (snd (rg_algo (snd r)))) = 4.
Proof. vm_compute. repeat split. Qed.

(** The same whole numbers as integers and as floats: a program that is a constant predicts different values, as the results
    are given the element type of the table. *)
Definition half_tree : tree := mkTree [add2] [(TVar "x0", None)] None None [TNode (TNum true (Fin (1 # 2)) 1) None].
Definition half_world : world := mkWorld [plain_ind 1 (GTree half_tree)] 2 (tape []).
Definition half_algo : algo :=
  mkAlgo [mkSub [] [] [] [SelTournament 1 true 1] 1 (HB true) 0 (Some [0])] 0 [] 7 7 ByMap true None None None 0 None 0 [].
Theorem C67_integer_table_refuted : exists fsem const unspecified metric sched n X Xi y s s' p,
  fit fsem const unspecified metric sched n X y s = (Ok tt, s') /\ a_cols Xi = a_cols X /\ a_rows Xi = a_rows X /\
  predict fsem const unspecified X s' = Ok p /\ predict fsem const unspecified Xi s' <> Ok p /\
  (forall t, tree_at (snd (rg_algo s')) 0 t -> t_nodes t = [TNode (TNum true (Fin (1 # 2)) 1) None]).
Proof.
  exists base_fns, number_scalar, same, mean_absolute_error, in_turn, 0, (mkArray true 2 [[Fin 3; Fin 4]]), (mkArray false 2 [[Fin 3; Fin 4]]),
    [Fin 0; Fin 1], (mkReg false (half_algo, half_world)).
  eexists _, _. split; [vm_compute; reflexivity|]. split; [reflexivity|]. split; [reflexivity|]. split; [vm_compute; reflexivity|].
  split; [vm_compute; discriminate|]. intros t (i & [= <-] & [= <-]). reflexivity.
Qed.
Print Assumptions C67_integer_table_refuted.
