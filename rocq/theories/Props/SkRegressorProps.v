(** * Properties of fitted regressors and of the regression programs (C93). *)
From Coq Require Import QArith Permutation String Lia.
From Verif.Spec Require Import WorldSpec EvoSpec TreeSpec CompleteSpec ShowSpec StatSpec BaseSpec RegSpec SkRegressorSpec.
From Verif.Proofs Require Import SkRegressorP.
From Verif.Model Require Import Double Num Rng Fitness Tree World Creators Evolution Statistics Setup Make BaseFns Regressor SkRegressor.
Open Scope string_scope.
Open Scope nat_scope.
Open Scope list_scope.

(** With numeric functions, one variable for each column and a consistent configuration, fitting a regressor on a table of finite
    floats ends without an exception, with the printing of the statistics too.  Each individual's fitness is the mean absolute
    error of its program; the one that predicts has the lowest, or the highest if that is said to be better, of all evaluated. *)
Theorem C93_fit : forall us ul usin ucos utan unspecified t0, finite_functions us ul usin ucos utan -> numeric_functions (t_fset t0) ->
  forall h sched stats sp X ys f0 a w, fair sched -> float_table X -> length ys = a_rows X ->
  a_trace a = [] -> a_stats a = 0 -> a_final a = None -> w_heap w = [] -> configured h a w sp -> sp_inds sp = None ->
  map fst (t_tset t0) = create_terminal_set X ->
  supplied t0 (t_root_type t0) -> typed_terminals t0 (t_root_type t0) -> printable_terminals t0 ->
  (forall lo hi, t_erc t0 = Some (ErcFloat lo hi) -> exists a b, lo = Fin a /\ hi = Fin b /\ (a <= b)%Q) ->
  Forall tree_operator (sp_ops sp) ->
  (forall op mu sigma, In op (sp_ops sp) -> op_kind op = OErc mu sigma -> is_fin mu = true /\ is_fin sigma = true) ->
  Forall (tree_creator t0 (sp_size sp)) (sp_creators sp) -> Forall (made_with no_penalty) (sp_creators sp) ->
  exists s' ls b rt p m k,
    fit (base_array us ul usin ucos utan) (fun v => Scalar (number_const v)) unspecified mean_absolute_error sched (length stats) X (map Fin ys)
      (mkReg f0 (a, w)) = (Ok tt, s') /\
    evolve (regression_evaluate (base_array us ul usin ucos utan) (fun v => Scalar (number_const v)) unspecified mean_absolute_error X (map Fin ys))
      sched (length stats) (a, w) = (Ok tt, rg_algo s') /\
    evolve_all (regression_evaluate (base_array us ul usin ucos utan) (fun v => Scalar (number_const v)) unspecified mean_absolute_error X (map Fin ys))
      sched (fun _ => []) stats ((a, w), []) = (Ok tt, (rg_algo s', ls)) /\
    a_best_run (fst (rg_algo s')) = Some b /\ In b (concat (evals (a_trace (fst (rg_algo s'))))) /\
    fits_data (base_scalar us ul usin ucos utan) t0 X ys (snd (rg_algo s')) b rt p m /\
    predict (base_array us ul usin ucos utan) (fun v => Scalar (number_const v)) unspecified X s' = Ok (map Fin p) /\
    (forall X', float_table X' -> length (a_cols X') = length (a_cols X) ->
       exists p', predict (base_array us ul usin ucos utan) (fun v => Scalar (number_const v)) unspecified X' s' = Ok (map Fin p') /\
         computes (base_scalar us ul usin ucos utan) rt X' p') /\
    length (evals (a_trace (fst (rg_algo s')))) = S k /\ (a_final (fst (rg_algo s')) = Some k \/ k = a_max_gen a /\ a_final (fst (rg_algo s')) = None) /\
    forall g, In g (evals (a_trace (fst (rg_algo s')))) -> length g = sp_size sp /\
      forall o, In o g -> exists rt' p' m', fits_data (base_scalar us ul usin ucos utan) t0 X ys (snd (rg_algo s')) o rt' p' m' /\
        (if h then (m' <= m)%Q else (m <= m')%Q).
Proof. exact regressor_runs. Qed.
Print Assumptions C93_fit.

(** The three regression programs: fitting completes on any table, and stops early exactly if the error of the predictions for
    the training table is at most 0.01, as far as this is a double. *)
Theorem C93_program : forall us ul usin ucos utan unspecified max_gen sum stamp sched w X ys,
  finite_functions us ul usin ucos utan -> sum = sum_plain \/ sum = sum_compensated -> fair sched -> w_heap w = [] -> float_table X -> length ys = a_rows X ->
  let t0 := mkTree regression_functions (column_terminals false (length (a_cols X))) (Some (ErcFloat (Fin (-100)) (Fin 100))) None [] in
  exists su s' ls b rt p m k, regression_program (length (a_cols X)) max_gen sum stamp = Ok su /\ su_stats su = 1 /\
    fit (base_array us ul usin ucos utan) (fun v => Scalar (number_const v)) unspecified mean_absolute_error sched 1 X (map Fin ys)
      (mkReg false (su_algo su, w)) = (Ok tt, s') /\
    evolve_all (regression_evaluate (base_array us ul usin ucos utan) (fun v => Scalar (number_const v)) unspecified mean_absolute_error X (map Fin ys))
      sched (fun _ => []) [SBestAverageWorst] ((su_algo su, w), []) = (Ok tt, (rg_algo s', ls)) /\
    a_best_run (fst (rg_algo s')) = Some b /\ In b (concat (evals (a_trace (fst (rg_algo s'))))) /\
    fits_data (base_scalar us ul usin ucos utan) t0 X ys (snd (rg_algo s')) b rt p m /\
    predict (base_array us ul usin ucos utan) (fun v => Scalar (number_const v)) unspecified X s' = Ok (map Fin p) /\
    (forall X', float_table X' -> length (a_cols X') = length (a_cols X) ->
       exists p', predict (base_array us ul usin ucos utan) (fun v => Scalar (number_const v)) unspecified X' s' = Ok (map Fin p') /\
         computes (base_scalar us ul usin ucos utan) rt X' p') /\
    length (evals (a_trace (fst (rg_algo s')))) = S k /\
    (forall g, In g (evals (a_trace (fst (rg_algo s')))) -> length g = 1000 /\ forall o, In o g -> exists rt' p' m',
       fits_data (base_scalar us ul usin ucos utan) t0 X ys (snd (rg_algo s')) o rt' p' m' /\ (m <= m')%Q) /\
    ((m <= double (1 # 100))%Q /\ a_final (fst (rg_algo s')) = Some k \/
     (double (1 # 100) < m)%Q /\ a_final (fst (rg_algo s')) = None /\ k = max_gen).
Proof. exact regression_fits. Qed.
Print Assumptions C93_program.

(** What they predict is a polynomial of the columns, the same for all rows and tables. *)
Theorem C93_polynomial : forall us ul usin ucos utan unspecified max_gen sum stamp sched w X ys,
  finite_functions us ul usin ucos utan -> sum = sum_plain \/ sum = sum_compensated -> fair sched -> w_heap w = [] -> float_table X -> length ys = a_rows X ->
  exists su s' P, regression_program (length (a_cols X)) max_gen sum stamp = Ok su /\
    fit (base_array us ul usin ucos utan) (fun v => Scalar (number_const v)) unspecified mean_absolute_error sched 1 X (map Fin ys)
      (mkReg false (su_algo su, w)) = (Ok tt, s') /\ polynomial (length (a_cols X)) P /\
    forall X', float_table X' -> length (a_cols X') = length (a_cols X) ->
      exists p, predict (base_array us ul usin ucos utan) (fun v => Scalar (number_const v)) unspecified X' s' = Ok p /\ length p = a_rows X' /\
        forall r v, r < a_rows X' -> row_values X' r v -> nth_error p r = Some (Fin (P v)).
Proof. exact regression_polynomial. Qed.
Print Assumptions C93_polynomial.

(** The program as configured for five columns, and a smaller population fitted to x0 * x1 + x1. *)
Definition as_is (x : num) : num := x.
Definition two_columns : array := mkArray true 3 [[Fin 1; Fin (-2); Fin 3]; [Fin (1 # 2); Fin 0; Fin (-1)]].
Definition wanted : list Q := [1; 0; -4]%Q.
Definition small (a : algo) : algo :=
  mkAlgo (map (fun s => mkSub (sp_creators s) (sp_pcr s) (sp_ops s) (sp_sels s) 8 (sp_hib s) 1 None) (a_pop a))
    2 (a_checkers a) (a_random_seed a) (a_gen_seed a) (a_method a) (a_alive a) None None None 0 None 0 [].
Definition draws : world := mkWorld [] 1 (tape [mkDraw 0 (1 # 2); mkDraw 3 (1 # 4); mkDraw 1 (3 # 4); mkDraw 7 (1 # 8)]).
Definition smaller : res unit * regressor :=
  match regression_program 2 2 sum_plain 1700000000 with
  | Ok su => fit (base_array as_is as_is as_is as_is as_is) (fun v => Scalar (number_const v)) as_is mean_absolute_error (fun n => rev (seq 0 n)) 1
               two_columns (map Fin wanted) (mkReg false (small (su_algo su), draws))
  | Raise e => (Raise e, mkReg false (mkAlgo [] 0 [] 7 7 ByMap true None None None 0 None 0 [], draws))
  end.
Example C93_example :
  finite_functions as_is as_is as_is as_is as_is /\ fair (fun n => rev (seq 0 n)) /\ float_table two_columns /\ length wanted = a_rows two_columns /\
  row_values two_columns 2 (fun i => if i =? 0 then 3%Q else (-1)%Q) /\ polynomial 2 (fun v => v 0%nat * v 1%nat + v 1%nat)%Q /\
  fst smaller = Ok tt /\ map (@length oid) (evals (a_trace (fst (rg_algo (snd smaller))))) = [8; 8; 8] /\
  (exists p, predict (base_array as_is as_is as_is as_is as_is) (fun v => Scalar (number_const v)) as_is two_columns (snd smaller) = Ok p /\ length p = 3) /\
  match regression_program 5 1000 sum_compensated 1700000000 with
  | Ok su => a_max_gen (su_algo su) = 1000 /\ map sp_size (a_pop (su_algo su)) = [1000] /\ map sp_n_elite (a_pop (su_algo su)) = [50] /\
      map sp_hib (a_pop (su_algo su)) = [HB false]
  | Raise _ => False
  end.
Proof.
  split; [constructor; intros; eexists; reflexivity|]. split; [intros n; apply Permutation_sym, Permutation_rev|]. split.
  { split; [reflexivity|]. split; [discriminate|]. split; [cbn; lia|]. intros c [<-|[<-|[]]]; (split; [reflexivity|repeat constructor]). }
  split; [reflexivity|]. split.
  { intros [|[|i]] L; [eexists; split; reflexivity|eexists; split; reflexivity|cbn in L; lia]. }
  split; [repeat constructor|]. split; [vm_compute; reflexivity|]. split; [vm_compute; reflexivity|]. split; [eexists; split; vm_compute; reflexivity|].
  vm_compute. repeat split.
Qed.
