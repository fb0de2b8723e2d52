(** * Properties of program trees in double precision (C94). *)
From Coq Require Import QArith Qabs Permutation String Lia.
From Verif.Spec Require Import WorldSpec FitnessSpec SelSpec EvoSpec TreeSpec CompleteSpec ShowSpec StatSpec BaseSpec RegSpec ClassSpec SkClassifierSpec FloatSpec.
From Verif.Proofs Require Import FloatP.
From Verif.Model Require Import Double Num Rng Fitness Tree World Creators Evolution Statistics Setup Make BaseFns SkClassifier SkRegressor Float Regressor.
Open Scope string_scope.
Open Scope nat_scope.
Open Scope list_scope.

(** A rounded number is a double; doubles stay as they are; the error is at most half a unit in the last place; and only
    numbers from 2^1024 - 2^970 on become infinite. *)
Theorem C94_rounded : forall x, is_double (rounded x) /\ (is_double x -> neq_num (rounded x) x = true \/ rounded x = x).
Proof. exact (fun x => conj (rounded_double x) (rounded_exact x)). Qed.
Print Assumptions C94_rounded.

Theorem C94_error : forall q r, rounded (Fin q) = Fin r -> (Qabs (r - q) <= Qabs q * 2 ^ (-53) + 2 ^ (-1075))%Q.
Proof. exact rounded_near. Qed.
Print Assumptions C94_error.

Theorem C94_range : forall q, (Qabs q < 2 ^ 1024 - 2 ^ 970)%Q -> exists r, rounded (Fin q) = Fin r.
Proof. exact rounded_finite. Qed.
Print Assumptions C94_range.

Example C94_rounded_example :
  rounded (Fin (1 # 3)) = Fin (double (1 # 3)) /\ ~ (double (1 # 3) == 1 # 3)%Q /\ rounded (Fin (2 ^ 1024 - 2 ^ 970)) = PInf /\
  rounded (Fin (- (2 ^ 1024))) = NInf /\ is_double (Fin (- (5 # 8))) /\ is_double NaN.
Proof.
  split; [vm_compute; reflexivity|]. split; [intros E; vm_compute in E; discriminate|]. split; [vm_compute; reflexivity|]. split; [vm_compute; reflexivity|].
  split; [|intros q [=]]. intros q [= <-]. exists 5%Z, (-3)%Z. split; [lia|]. split; [lia|]. split; [right; reflexivity|vm_compute; reflexivity].
Qed.

(** The numeric functions of the library on columns of doubles: row by row the exact result, rounded.  So what a program
    computes from doubles is a double. *)
Theorem C94_functions : forall us ul usin ucos utan fset, numeric_functions fset ->
  row_functions fset (double_array us ul usin ucos utan) (double_scalar us ul usin ucos utan).
Proof. exact double_rows. Qed.
Print Assumptions C94_functions.

Theorem C94_doubles : forall us ul usin ucos utan env rt x, saturated rt -> (forall s y, env s = Some y -> is_double y) ->
  (forall b y tag a, In (TNode (TNum b y tag) a) (flatten rt) -> is_double y) -> (forall s a, In (TNode (TVar s) a) (flatten rt) -> env s <> None) ->
  eval num (fun f xs => Ok (double_scalar us ul usin ucos utan f xs)) number_const env rt = Ok x -> is_double x.
Proof. exact eval_doubles. Qed.
Print Assumptions C94_doubles.

Definition as_is (x : num) : num := x.
Definition tenth : num := Fin (double (1 # 10)).
Definition three_tenths : rtree :=
  Rose (FNode (mkFunc 1 "f_add" [None; None] None)) [Rose (TNode (TVar "x0") None) []; Rose (FNode (mkFunc 1 "f_add" [None; None] None)) [Rose (TNode (TVar "x0") None) []; Rose (TNode (TVar "x0") None) []]].
Example C94_doubles_example :
  exists q, eval num (fun f xs => Ok (double_scalar as_is as_is as_is as_is as_is f xs)) number_const (fun s => if s =? "x0" then Some tenth else None)%string three_tenths = Ok (Fin q) /\
    ~ (q == double (3 # 10))%Q /\ ~ (q == double (1 # 10) + (double (1 # 10) + double (1 # 10)))%Q.
Proof. eexists. split; [vm_compute; reflexivity|]. split; intros E; vm_compute in E; discriminate. Qed.

(** In double precision too, fitting a classifier completes, whatever is drawn; the individual that predicts has the highest
    accuracy of all that were evaluated; up to 2^50 rows rounding cannot hide a difference: none has more right answers. *)
Theorem C94_classifier : forall us ul usin ucos utan unspecified t0, numeric_functions (t_fset t0) ->
  forall sched stats sp X a w, fair sched -> float_table X ->
  a_trace a = [] -> a_stats a = 0 -> a_final a = None -> w_heap w = [] -> configured true a w sp -> sp_inds sp = None ->
  map fst (t_tset t0) = create_terminal_set X ->
  supplied t0 (t_root_type t0) -> typed_terminals t0 (t_root_type t0) -> printable_terminals t0 ->
  (forall lo hi, t_erc t0 = Some (ErcFloat lo hi) -> exists a b, lo = Fin a /\ hi = Fin b /\ (a <= b)%Q) ->
  Forall tree_operator (sp_ops sp) ->
  (forall op mu sigma, In op (sp_ops sp) -> op_kind op = OErc mu sigma -> is_fin mu = true /\ is_fin sigma = true) ->
  Forall (tree_creator t0 (sp_size sp)) (sp_creators sp) -> Forall (made_with no_penalty) (sp_creators sp) ->
  forall sg n X0 y0 ys f0, sigmoid_like sg -> 0 < n -> length ys = a_rows X ->
  exists s' b rt l m k,
    clf_fit sg (double_array us ul usin ucos utan) (fun v => Scalar (number_const v)) unspecified rounded_accuracy sched stats X (map label ys)
      (mkClassifier f0 (mkClf Sigmoid n X0 y0) (a, w) []) = (Ok tt, s') /\
    evolve (evaluate_with sg (double_array us ul usin ucos utan) (fun v => Scalar (number_const v)) unspecified rounded_accuracy
              (mkClf Sigmoid n (Some X) (Some (map label ys)))) sched (length stats) (a, w) = (Ok tt, cl_algo s') /\
    a_best_run (fst (cl_algo s')) = Some b /\ In b (concat (evals (a_trace (fst (cl_algo s'))))) /\
    judged_rounded sg n (double_scalar us ul usin ucos utan) t0 X ys (snd (cl_algo s')) b rt l m /\
    fst (clf_predict sg (double_array us ul usin ucos utan) (fun v => Scalar (number_const v)) unspecified X s') = Ok (map nof_nat l) /\
    (forall X', float_table X' -> length (a_cols X') = length (a_cols X) ->
       exists l', fst (clf_predict sg (double_array us ul usin ucos utan) (fun v => Scalar (number_const v)) unspecified X' s') = Ok (map nof_nat l') /\
         classes sg n (double_scalar us ul usin ucos utan) rt X' l') /\
    length (evals (a_trace (fst (cl_algo s')))) = S k /\ (a_final (fst (cl_algo s')) = Some k \/ k = a_max_gen a /\ a_final (fst (cl_algo s')) = None) /\
    forall g, In g (evals (a_trace (fst (cl_algo s')))) -> length g = sp_size sp /\
      forall o, In o g -> exists rt' l' m', judged_rounded sg n (double_scalar us ul usin ucos utan) t0 X ys (snd (cl_algo s')) o rt' l' m' /\ (m' <= m)%Q /\
        ((Z.of_nat (length ys) <= 2 ^ 50)%Z -> hits ys l' <= hits ys l).
Proof. exact double_classifier. Qed.
Print Assumptions C94_classifier.

(** Measures of errors: the mean absolute error, exact or in doubles. *)
Theorem C94_measures : forall y, y <> [] -> Forall (fun x => is_fin x = true) y ->
  error_measure mean_absolute_error y /\ summation rounded_sum /\ forall sum, summation sum -> error_measure (rounded_error sum) y.
Proof. exact measures. Qed.
Print Assumptions C94_measures.

(** Fitting a regressor, with any functions that work row by row and any measure of errors: either it completes, and the
    individual that predicts has finite answers for the training table and no evaluated one has a better measure; or it raises
    ValueError, the wrapper is no more fitted than before, and there is a program of the primitives with an answer that is not
    finite. *)
Theorem C94_regressor : forall fsem fs unspecified t0, row_functions (t_fset t0) fsem fs ->
  forall h sched (stats : list stat) sp X a w, fair sched -> float_table X ->
  a_trace a = [] -> a_stats a = 0 -> a_final a = None -> w_heap w = [] -> configured h a w sp -> sp_inds sp = None ->
  map fst (t_tset t0) = create_terminal_set X ->
  supplied t0 (t_root_type t0) -> typed_terminals t0 (t_root_type t0) -> printable_terminals t0 ->
  (forall lo hi, t_erc t0 = Some (ErcFloat lo hi) -> exists a b, lo = Fin a /\ hi = Fin b /\ (a <= b)%Q) ->
  Forall tree_operator (sp_ops sp) ->
  (forall op mu sigma, In op (sp_ops sp) -> op_kind op = OErc mu sigma -> is_fin mu = true /\ is_fin sigma = true) ->
  Forall (tree_creator t0 (sp_size sp)) (sp_creators sp) -> Forall (made_with no_penalty) (sp_creators sp) ->
  forall metric y f0, targets X y -> error_measure metric y ->
  (exists s' b rt p m k,
     fit fsem (fun v => Scalar (number_const v)) unspecified metric sched (length stats) X y (mkReg f0 (a, w)) = (Ok tt, s') /\
     evolve (regression_evaluate fsem (fun v => Scalar (number_const v)) unspecified metric X y) sched (length stats) (a, w) = (Ok tt, rg_algo s') /\
     a_best_run (fst (rg_algo s')) = Some b /\ In b (concat (evals (a_trace (fst (rg_algo s'))))) /\
     trained fs t0 metric X y (snd (rg_algo s')) b rt p m /\ predict fsem (fun v => Scalar (number_const v)) unspecified X s' = Ok p /\
     (forall X', float_table X' -> length (a_cols X') = length (a_cols X) ->
        exists p', predict fsem (fun v => Scalar (number_const v)) unspecified X' s' = Ok p' /\ answers fs rt X' p') /\
     length (evals (a_trace (fst (rg_algo s')))) = S k /\ (a_final (fst (rg_algo s')) = Some k \/ k = a_max_gen a /\ a_final (fst (rg_algo s')) = None) /\
     forall g, In g (evals (a_trace (fst (rg_algo s')))) -> length g = sp_size sp /\
       forall o, In o g -> exists rt' p' m', trained fs t0 metric X y (snd (rg_algo s')) o rt' p' m' /\ ~ better_score h m' m) \/
  (exists s' rt p,
     fit fsem (fun v => Scalar (number_const v)) unspecified metric sched (length stats) X y (mkReg f0 (a, w)) = (Raise ValueError, s') /\ rg_fitted s' = f0 /\
     saturated rt /\ (forall nd, In nd (flatten rt) -> program_node t0 nd) /\ answers fs rt X p /\ exists x, In x p /\ is_fin x = false).
Proof. exact float_reg. Qed.
Print Assumptions C94_regressor.

(** So does the regression program in double precision, however numpy orders the sum of the errors. *)
Theorem C94_program : forall us ul usin ucos utan unspecified summed max_gen sum stamp sched w X y,
  summation summed -> sum = sum_plain \/ sum = sum_compensated -> fair sched -> w_heap w = [] -> float_table X -> targets X y ->
  let t0 := mkTree regression_functions (column_terminals false (length (a_cols X))) (Some (ErcFloat (Fin (-100)) (Fin 100))) None [] in
  let fs := double_scalar us ul usin ucos utan in
  exists su, regression_program (length (a_cols X)) max_gen sum stamp = Ok su /\
    ((exists s' b rt p m k,
        fit (double_array us ul usin ucos utan) (fun v => Scalar (number_const v)) unspecified (rounded_error summed) sched 1 X y (mkReg false (su_algo su, w)) = (Ok tt, s') /\
        a_best_run (fst (rg_algo s')) = Some b /\ In b (concat (evals (a_trace (fst (rg_algo s'))))) /\
        trained fs t0 (rounded_error summed) X y (snd (rg_algo s')) b rt p m /\
        predict (double_array us ul usin ucos utan) (fun v => Scalar (number_const v)) unspecified X s' = Ok p /\
        (forall X', float_table X' -> length (a_cols X') = length (a_cols X) ->
           exists p', predict (double_array us ul usin ucos utan) (fun v => Scalar (number_const v)) unspecified X' s' = Ok p' /\ answers fs rt X' p') /\
        length (evals (a_trace (fst (rg_algo s')))) = S k /\
        (forall g, In g (evals (a_trace (fst (rg_algo s')))) -> length g = 1000 /\ forall o, In o g -> exists rt' p' m',
           trained fs t0 (rounded_error summed) X y (snd (rg_algo s')) o rt' p' m' /\ nlt m' m = false) /\
        ((exists q, m = Fin q /\ (Qabs q <= double (1 # 100))%Q) /\ a_final (fst (rg_algo s')) = Some k \/
         ~ (exists q, m = Fin q /\ (Qabs q <= double (1 # 100))%Q) /\ a_final (fst (rg_algo s')) = None /\ k = max_gen)) \/
     (exists s' rt p,
        fit (double_array us ul usin ucos utan) (fun v => Scalar (number_const v)) unspecified (rounded_error summed) sched 1 X y (mkReg false (su_algo su, w)) = (Raise ValueError, s') /\
        rg_fitted s' = false /\ saturated rt /\ (forall nd, In nd (flatten rt) -> program_node t0 nd) /\ answers fs rt X p /\ exists x, In x p /\ is_fin x = false)).
Proof. exact double_program. Qed.
Print Assumptions C94_program.

(** The second case occurs: the program, with a smaller population, on a table of one row.  In exact arithmetic the same
    fit completes. *)
Definition huge : array := mkArray true 1 [[Fin (inject_Z (2 ^ 600))]].
Definition draws : world := mkWorld [] 1 (tape [mkDraw 0 (1 # 2); mkDraw 3 (1 # 4); mkDraw 1 (3 # 4); mkDraw 7 (1 # 8)]).
Definition small (a : algo) : algo :=
  mkAlgo (map (fun s => mkSub (sp_creators s) (sp_pcr s) (sp_ops s) (sp_sels s) 6 (sp_hib s) 1 None) (a_pop a))
    0 (a_checkers a) (a_random_seed a) (a_gen_seed a) (a_method a) (a_alive a) None None None 0 None 0 [].
Theorem C94_overflow_refuted : exists sched X y su s' s2, fair sched /\ float_table X /\ targets X y /\
  (forall c x, In c (a_cols X) -> In x c -> is_double x) /\ regression_program 1 1000 sum_plain 1700000000 = Ok su /\
  fit (double_array as_is as_is as_is as_is as_is) (fun v => Scalar (number_const v)) as_is (rounded_error rounded_sum) sched 1 X y
    (mkReg false (small (su_algo su), draws)) = (Raise ValueError, s') /\
  fit (base_array as_is as_is as_is as_is as_is) (fun v => Scalar (number_const v)) as_is mean_absolute_error sched 1 X y
    (mkReg false (small (su_algo su), draws)) = (Ok tt, s2).
Proof.
  exists (fun n => rev (seq 0 n)), huge, [Fin 0]. eexists _, _, _. split; [intros n; apply Permutation_sym, Permutation_rev|]. split.
  { split; [reflexivity|]. split; [discriminate|]. split; [cbn; lia|]. intros c [<-|[]]. split; [reflexivity|repeat constructor]. }
  split; [split; [reflexivity|repeat constructor]|]. split.
  { intros c x [<-|[]] [<-|[]] q [= <-]. exists 1%Z, 600%Z. split; [lia|]. split; [lia|]. split; [left; reflexivity|reflexivity]. }
  split; [vm_compute; reflexivity|]. split; vm_compute; reflexivity.
Qed.
Print Assumptions C94_overflow_refuted.

(** A fit in doubles that completes. *)
Definition thirds : array := mkArray true 2 [[Fin (double (1 # 3)); tenth]].
Definition completed_fit : res unit * regressor :=
  match regression_program 1 1000 sum_plain 1700000000 with
  | Ok su => fit (double_array as_is as_is as_is as_is as_is) (fun v => Scalar (number_const v)) as_is (rounded_error rounded_sum) (fun n => rev (seq 0 n)) 1
               thirds [Fin 1; Fin 2] (mkReg false (small (su_algo su), draws))
  | Raise e => (Raise e, mkReg false (mkAlgo [] 0 [] 7 7 ByMap true None None None 0 None 0 [], draws))
  end.
Example C94_example :
  float_table thirds /\ targets thirds [Fin 1; Fin 2] /\ fst completed_fit = Ok tt /\
  (exists p, predict (double_array as_is as_is as_is as_is as_is) (fun v => Scalar (number_const v)) as_is thirds (snd completed_fit) = Ok p /\ length p = 2 /\
     forallb is_fin p = true) /\ error_measure (rounded_error rounded_sum) [Fin 1; Fin 2].
Proof.
  split. { split; [reflexivity|]. split; [discriminate|]. split; [cbn; lia|]. intros c [<-|[]]. split; [reflexivity|repeat constructor]. }
  split; [split; [reflexivity|repeat constructor]|]. split; [vm_compute; reflexivity|]. split; [eexists; split; [vm_compute; reflexivity|split; reflexivity]|].
  apply C94_measures; [discriminate|repeat constructor|]. apply (C94_measures [Fin 1]); [discriminate|repeat constructor].
Qed.
