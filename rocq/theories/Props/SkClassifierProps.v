(** * Properties of fitted classifiers and of the classification programs (C92). *)
From Coq Require Import QArith Permutation String Lia.
From Verif.Spec Require Import WorldSpec EvoSpec TreeSpec CompleteSpec ShowSpec StatSpec BaseSpec RegSpec ClassSpec SkClassifierSpec.
From Verif.Proofs Require Import SkClassifierP.
From Verif.Model Require Import Double Num Rng Fitness Tree World Creators Evolution Statistics Setup Make BaseFns Regressor SkClassifier.
Open Scope string_scope.
Open Scope nat_scope.
Open Scope list_scope.

(** The accuracy is the share of right answers; it is 1 exactly if all are right. *)
Theorem C92_accuracy : forall ys l, ys <> [] -> length ys = length l ->
  exists m, accuracy_score (Some (map label ys)) (map nof_nat l) = Ok (Fin m) /\ share (hits ys l) (length ys) m /\ (0 <= m <= 1)%Q /\
    ((m == 1)%Q <-> ys = map Z.of_nat l).
Proof. exact accuracy_value. Qed.
Print Assumptions C92_accuracy.

Theorem C92_accuracy_rejects : forall y p,
  (forall ys, y = Some ys -> length ys <> length p \/ ys = [] \/ exists x, In x (ys ++ p) /\ forall z, ~ (exists q, x = Fin q /\ (q == inject_Z z)%Q)) ->
  accuracy_score y p = Raise ValueError.
Proof. exact accuracy_rejects. Qed.
Print Assumptions C92_accuracy_rejects.

Example C92_accuracy_example :
  (exists m, accuracy_score (Some (map label [0; 2; 1; -1]%Z)) (map nof_nat [0; 1; 1; 1]) = Ok (Fin m) /\ (m == 1 # 2)%Q) /\
  hits [0; 2; 1; -1]%Z [0; 1; 1; 1] = 2 /\ known 2 [0; 2; 1; -1]%Z = 2 /\
  accuracy_score (Some [Fin (1 # 2)]) [Fin 0] = Raise ValueError /\ accuracy_score None [Fin 0] = Raise ValueError.
Proof. split; [eexists; split; vm_compute; reflexivity|]. repeat split. Qed.

(** With numeric functions, one variable for each column and a consistent configuration, fitting a classifier of [n] classes on
    a table of floats ends without an exception, whatever is drawn; the functions may even give infinities and NaN.  The
    individual that predicts has the highest accuracy on the training table of all that were evaluated, and its fitness is the
    accuracy of the predictions for this table.  It does not exceed the share of the labels from 0 to n-1. *)
Theorem C92_fit : forall us ul usin ucos utan unspecified sg n t0, sigmoid_like sg -> 0 < n -> numeric_functions (t_fset t0) ->
  forall X0 y0 sched stats sp X ys f0 a w, fair sched -> float_table X -> length ys = a_rows X ->
  a_trace a = [] -> a_stats a = 0 -> a_final a = None -> w_heap w = [] -> configured true a w sp -> sp_inds sp = None ->
  map fst (t_tset t0) = create_terminal_set X ->
  supplied t0 (t_root_type t0) -> typed_terminals t0 (t_root_type t0) -> printable_terminals t0 ->
  (forall lo hi, t_erc t0 = Some (ErcFloat lo hi) -> exists a b, lo = Fin a /\ hi = Fin b /\ (a <= b)%Q) ->
  Forall tree_operator (sp_ops sp) ->
  (forall op mu sigma, In op (sp_ops sp) -> op_kind op = OErc mu sigma -> is_fin mu = true /\ is_fin sigma = true) ->
  Forall (tree_creator t0 (sp_size sp)) (sp_creators sp) -> Forall (made_with no_penalty) (sp_creators sp) ->
  exists s' b rt l m k,
    clf_fit sg (base_array us ul usin ucos utan) (fun v => Scalar (number_const v)) unspecified accuracy_score sched stats X (map label ys)
      (mkClassifier f0 (mkClf Sigmoid n X0 y0) (a, w) []) = (Ok tt, s') /\
    evolve (evaluate_with sg (base_array us ul usin ucos utan) (fun v => Scalar (number_const v)) unspecified accuracy_score
              (mkClf Sigmoid n (Some X) (Some (map label ys)))) sched (length stats) (a, w) = (Ok tt, cl_algo s') /\
    a_best_run (fst (cl_algo s')) = Some b /\ In b (concat (evals (a_trace (fst (cl_algo s'))))) /\
    judged sg n (base_scalar us ul usin ucos utan) t0 X ys (snd (cl_algo s')) b rt l m /\
    (m * inject_Z (Z.of_nat (length ys)) <= inject_Z (Z.of_nat (known n ys)))%Q /\
    fst (clf_predict sg (base_array us ul usin ucos utan) (fun v => Scalar (number_const v)) unspecified X s') = Ok (map nof_nat l) /\
    (forall X', float_table X' -> length (a_cols X') = length (a_cols X) ->
       exists l', fst (clf_predict sg (base_array us ul usin ucos utan) (fun v => Scalar (number_const v)) unspecified X' s') = Ok (map nof_nat l') /\
         classes sg n (base_scalar us ul usin ucos utan) rt X' l') /\
    length (evals (a_trace (fst (cl_algo s')))) = S k /\ (a_final (fst (cl_algo s')) = Some k \/ k = a_max_gen a /\ a_final (fst (cl_algo s')) = None) /\
    forall g, In g (evals (a_trace (fst (cl_algo s')))) -> length g = sp_size sp /\
      forall o, In o g -> exists rt' l' m', judged sg n (base_scalar us ul usin ucos utan) t0 X ys (snd (cl_algo s')) o rt' l' m' /\ (m' <= m)%Q.
Proof. exact fit_runs. Qed.
Print Assumptions C92_fit.

(** The breast cancer program and the two searches: fitting completes on any table with whole labels, and stops early exactly
    if the accuracy of the predictions for the training table is at least 0.97, as far as 0.03 is a double. *)
Theorem C92_breast : forall us ul usin ucos utan unspecified sg sum stamp sched w X ys,
  sigmoid_like sg -> sum = sum_plain \/ sum = sum_compensated -> fair sched -> w_heap w = [] -> float_table X -> length ys = a_rows X ->
  let t0 := mkTree breast_functions (column_terminals false (length (a_cols X))) None None [] in
  exists su s' b rt l m k, breast_program (length (a_cols X)) sum stamp = Ok su /\ su_stats su = 1 /\
    clf_fit sg (base_array us ul usin ucos utan) (fun v => Scalar (number_const v)) unspecified accuracy_score sched [SSizeTree] X (map label ys)
      (mkClassifier false default_evaluator (su_algo su, w) []) = (Ok tt, s') /\
    a_best_run (fst (cl_algo s')) = Some b /\ In b (concat (evals (a_trace (fst (cl_algo s'))))) /\
    judged sg 2 (base_scalar us ul usin ucos utan) t0 X ys (snd (cl_algo s')) b rt l m /\
    (m * inject_Z (Z.of_nat (length ys)) <= inject_Z (Z.of_nat (known 2 ys)))%Q /\
    fst (clf_predict sg (base_array us ul usin ucos utan) (fun v => Scalar (number_const v)) unspecified X s') = Ok (map nof_nat l) /\
    (forall X', float_table X' -> length (a_cols X') = length (a_cols X) ->
       exists l', fst (clf_predict sg (base_array us ul usin ucos utan) (fun v => Scalar (number_const v)) unspecified X' s') = Ok (map nof_nat l') /\
         classes sg 2 (base_scalar us ul usin ucos utan) rt X' l') /\
    length (evals (a_trace (fst (cl_algo s')))) = S k /\
    (forall g, In g (evals (a_trace (fst (cl_algo s')))) -> length g = 100 /\ forall o, In o g -> exists rt' l' m',
       judged sg 2 (base_scalar us ul usin ucos utan) t0 X ys (snd (cl_algo s')) o rt' l' m' /\ (m' <= m)%Q) /\
    ((1 - double (3 # 100) <= m)%Q /\ a_final (fst (cl_algo s')) = Some k \/
     (m < 1 - double (3 # 100))%Q /\ a_final (fst (cl_algo s')) = None /\ k = 100).
Proof. exact breast_fits. Qed.
Print Assumptions C92_breast.

Theorem C92_search : forall us ul usin ucos utan unspecified sg typed max_gen sum stamp sched w X ys,
  sigmoid_like sg -> sum = sum_plain \/ sum = sum_compensated -> fair sched -> w_heap w = [] -> float_table X -> length ys = a_rows X ->
  let t0 := mkTree (search_functions typed) (column_terminals typed (length (a_cols X))) None (float_type typed) [] in
  exists su s' b rt l m k, search_program typed (length (a_cols X)) max_gen sum stamp = Ok su /\ su_stats su = 1 /\
    clf_fit sg (base_array us ul usin ucos utan) (fun v => Scalar (number_const v)) unspecified accuracy_score sched [SBestAverageWorst] X (map label ys)
      (mkClassifier false default_evaluator (su_algo su, w) []) = (Ok tt, s') /\
    a_best_run (fst (cl_algo s')) = Some b /\ In b (concat (evals (a_trace (fst (cl_algo s'))))) /\
    judged sg 2 (base_scalar us ul usin ucos utan) t0 X ys (snd (cl_algo s')) b rt l m /\
    (m * inject_Z (Z.of_nat (length ys)) <= inject_Z (Z.of_nat (known 2 ys)))%Q /\
    fst (clf_predict sg (base_array us ul usin ucos utan) (fun v => Scalar (number_const v)) unspecified X s') = Ok (map nof_nat l) /\
    (forall X', float_table X' -> length (a_cols X') = length (a_cols X) ->
       exists l', fst (clf_predict sg (base_array us ul usin ucos utan) (fun v => Scalar (number_const v)) unspecified X' s') = Ok (map nof_nat l') /\
         classes sg 2 (base_scalar us ul usin ucos utan) rt X' l') /\
    length (evals (a_trace (fst (cl_algo s')))) = S k /\
    (forall g, In g (evals (a_trace (fst (cl_algo s')))) -> length g = 10 /\ forall o, In o g -> exists rt' l' m',
       judged sg 2 (base_scalar us ul usin ucos utan) t0 X ys (snd (cl_algo s')) o rt' l' m' /\ (m' <= m)%Q) /\
    ((1 - double (3 # 100) <= m)%Q /\ a_final (fst (cl_algo s')) = Some k \/
     (m < 1 - double (3 # 100))%Q /\ a_final (fst (cl_algo s')) = None /\ k = max_gen).
Proof. exact search_fits. Qed.
Print Assumptions C92_search.

(** The two searches have data of three classes, but an evaluator of two: label 2 is never predicted, so that with at least
    4 labels in 100 of this class no fit stops early. *)
Theorem C92_third_class : forall us ul usin ucos utan unspecified sg typed max_gen sum stamp sched w X ys,
  sigmoid_like sg -> sum = sum_plain \/ sum = sum_compensated -> fair sched -> w_heap w = [] -> float_table X -> length ys = a_rows X ->
  (forall y, In y ys -> y = 0 \/ y = 1 \/ y = 2)%Z -> 4 * length ys <= 100 * count_occ Z.eq_dec ys 2%Z ->
  exists su s' m, search_program typed (length (a_cols X)) max_gen sum stamp = Ok su /\
    clf_fit sg (base_array us ul usin ucos utan) (fun v => Scalar (number_const v)) unspecified accuracy_score sched [SBestAverageWorst] X (map label ys)
      (mkClassifier false default_evaluator (su_algo su, w) []) = (Ok tt, s') /\
    length (evals (a_trace (fst (cl_algo s')))) = S max_gen /\ a_final (fst (cl_algo s')) = None /\
    (forall o, In o (concat (evals (a_trace (fst (cl_algo s'))))) -> exists m', pure_at (snd (cl_algo s')) o (VNum (Fin m')) /\ (m' <= m)%Q) /\
    (m * inject_Z (Z.of_nat (length ys)) <= inject_Z (Z.of_nat (length ys - count_occ Z.eq_dec ys 2%Z)))%Q /\
    forall X' l, float_table X' -> length (a_cols X') = length (a_cols X) ->
      fst (clf_predict sg (base_array us ul usin ucos utan) (fun v => Scalar (number_const v)) unspecified X' s') = Ok l -> ~ In (Fin 2) l.
Proof. exact third_class. Qed.
Print Assumptions C92_third_class.

(** A fitted classifier need not predict labels that it has seen: trained with 1 and 2 it answers 0 and 1. *)
Definition as_is (x : num) : num := x.
Definition one_program : world := mkWorld [mkInd 1 0 (mkFit (KGP (Fin 0)) VNone false (HB true) false false (Fin 0) PInf) 0 [] [] false []
  (GTree (mkTree breast_functions (column_terminals false 1) None None [TNode (TVar "x0") None]))] 2 (tape []).
Definition one_algo : algo :=
  mkAlgo [mkSub [] [] [] [SelTournament 1 true 1] 1 (HB true) 0 (Some [0])] 0 [] 7 7 ByMap true None None None 0 None 0 [].
Theorem C92_labels_refuted : exists sg fsem const unspecified sched X y s s' p, sigmoid_like sg /\ fair sched /\
  clf_fit sg fsem const unspecified accuracy_score sched [] X y s = (Ok tt, s') /\ c_classes (cl_eval s) = 2 /\ (forall z, In z y -> z = Fin 1 \/ z = Fin 2) /\
  fst (clf_predict sg fsem const unspecified X s') = Ok p /\ In (Fin 0) p /\ ~ In (Fin 2) p /\
  forall k, k < length y -> nth k y NaN <> nth k p NaN.
Proof.
  exists step, (base_array as_is as_is as_is as_is as_is), (fun v => Scalar (number_const v)), as_is, (fun n => rev (seq 0 n)), (mkArray true 2 [[Fin (-1); Fin 1]]),
    [Fin 1; Fin 2], (mkClassifier false default_evaluator (one_algo, one_program) []). eexists _, _. split; [exact step_sigmoid|].
  split; [intros n; apply Permutation_sym, Permutation_rev|]. split; [vm_compute; reflexivity|]. split; [reflexivity|]. split; [intros z [<-|[<-|[]]]; auto|].
  split; [vm_compute; reflexivity|]. split; [left; reflexivity|]. split; [intros [H|[H|[]]]; discriminate|].
  intros [|[|k]] H; [discriminate|discriminate|cbn in H; lia].
Qed.
Print Assumptions C92_labels_refuted.

(** A search on three rows, with labels 0, 2 and 1. *)
Definition three_rows : array := mkArray true 3 [[Fin 1; Fin (-2); Fin 3]; [Fin (1 # 2); Fin 0; Fin (-1)]].
Definition draws : world := mkWorld [] 1 (tape [mkDraw 0 (1 # 2); mkDraw 3 (1 # 4); mkDraw 1 (3 # 4); mkDraw 7 (1 # 8)]).
Definition searched : res unit * classifier :=
  match search_program true 2 1 sum_plain 1700000000 with
  | Ok su => clf_fit step (base_array as_is as_is as_is as_is as_is) (fun v => Scalar (number_const v)) as_is accuracy_score (fun n => rev (seq 0 n))
               [SBestAverageWorst] three_rows (map label [0; 2; 1]%Z) (mkClassifier false default_evaluator (su_algo su, draws) [])
  | Raise e => (Raise e, mkClassifier false default_evaluator (one_algo, draws) [])
  end.
Example C92_example :
  sigmoid_like step /\ fair (fun n => rev (seq 0 n)) /\ float_table three_rows /\ 4 * 3 <= 100 * count_occ Z.eq_dec [0; 2; 1]%Z 2%Z /\
  fst searched = Ok tt /\ map (@length oid) (evals (a_trace (fst (cl_algo (snd searched))))) = [10; 10] /\
  match breast_program 30 sum_compensated 1700000000 with
  | Ok su => a_max_gen (su_algo su) = 100 /\ map sp_size (a_pop (su_algo su)) = [100] /\ map sp_n_elite (a_pop (su_algo su)) = [5] /\
      map sp_hib (a_pop (su_algo su)) = [HB true]
  | Raise _ => False
  end.
Proof.
  split; [exact step_sigmoid|]. split; [intros n; apply Permutation_sym, Permutation_rev|]. split.
  { split; [reflexivity|]. split; [discriminate|]. split; [cbn; lia|]. intros c [<-|[<-|[]]]; (split; [reflexivity|repeat constructor]). }
  split; [cbn; lia|]. split; [vm_compute; reflexivity|]. split; [vm_compute; reflexivity|]. vm_compute. repeat split.
Qed.

(** *** The calls *)

(** [fit] refuses an empty table, infinities and NaN, and another number of labels than rows; the classifier stays as it was. *)
Theorem C92_bad_data : forall sg fsem const unspecified metric sched stats X y s,
  a_rows X = 0 \/ a_cols X = [] \/ (exists c x, In c (a_cols X) /\ In x c /\ is_fin x = false) \/ length y <> a_rows X \/ (exists x, In x y /\ is_fin x = false) ->
  clf_fit sg fsem const unspecified metric sched stats X y s = (Raise ValueError, s).
Proof. exact clf_bad_data. Qed.
Print Assumptions C92_bad_data.

(** A failed [fit] does not make the classifier fitted. *)
Theorem C92_failed_fit : forall sg fsem const unspecified metric sched stats X y s e s',
  clf_fit sg fsem const unspecified metric sched stats X y s = (Raise e, s') -> cl_fitted s' = cl_fitted s.
Proof. exact clf_failed_fit. Qed.
Print Assumptions C92_failed_fit.

Theorem C92_unfitted : forall sg fsem const unspecified X s, cl_fitted s = false -> clf_predict sg fsem const unspecified X s = (Raise ValueError, s).
Proof. exact clf_unfitted. Qed.
Print Assumptions C92_unfitted.

(** [predict] may be called again and again: each call answers what it would have answered first.  It leaves its table in the evaluator, and
    forgets the labels of the training. *)
Theorem C92_predict_again : forall sg fsem const unspecified X s r s', cl_fitted s = true -> clf_predict sg fsem const unspecified X s = (r, s') ->
  cl_fitted s' = true /\ cl_algo s' = cl_algo s /\ cl_lines s' = cl_lines s /\
  c_method (cl_eval s') = c_method (cl_eval s) /\ c_classes (cl_eval s') = c_classes (cl_eval s) /\ c_X (cl_eval s') = Some X /\ c_y (cl_eval s') = None /\
  forall X2, clf_predict sg fsem const unspecified X2 s' = clf_predict sg fsem const unspecified X2 s.
Proof. exact clf_predict_keeps. Qed.
Print Assumptions C92_predict_again.

(** The names under which the functions of the searches are printed. *)
Theorem C92_search_names :
  map f_name (search_functions false) = ["f_abs"; "f_add"; "f_div"; "f_inv"; "f_log"; "f_max"; "f_min"; "f_mul"; "f_neg"; "f_sqrt"; "f_sub"] /\
  map f_name (search_functions true) =
    ["abs_float"; "add2floats"; "div2floats"; "inv_float"; "log_float"; "max2floats"; "min2floats"; "mul2floats"; "neg_float"; "sqrt_float"; "sub2floats"].
Proof. split; reflexivity. Qed.
Print Assumptions C92_search_names.

(** A failing and a refused fit; a fitted classifier that predicts twice. *)
Example C92_calls_example :
  let fit y s := clf_fit step (base_array as_is as_is as_is as_is as_is) (fun v => Scalar (number_const v)) as_is accuracy_score (fun n => rev (seq 0 n)) [] (mkArray true 2 [[Fin (-1); Fin 1]]) y s in
  let predict X s := clf_predict step (base_array as_is as_is as_is as_is as_is) (fun v => Scalar (number_const v)) as_is X s in
  let new := mkClassifier false default_evaluator (one_algo, one_program) [] in
  fit [NaN; Fin 1] new = (Raise ValueError, new) /\ fst (fit [Fin (1 # 2); Fin 1] new) = Raise ValueError /\ cl_fitted (snd (fit [Fin (1 # 2); Fin 1] new)) = false /\
  let s := snd (fit [Fin 0; Fin 1] new) in
  cl_fitted s = true /\ fst (predict (mkArray true 1 [[Fin 5]]) s) = Ok [Fin 1] /\ fst (predict (mkArray true 1 [[Fin (-5)]]) (snd (predict (mkArray true 1 [[Fin 5]]) s))) = Ok [Fin 0].
Proof. vm_compute. repeat split. Qed.
