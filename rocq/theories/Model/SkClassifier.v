(** * A classifier with its evolutionary run, and the classification example programs.

    Cites: eckity/sklearn_compatible/sklearn_wrapper.py 22-48, sk_classifier.py 11-37, classification_evaluator.py 23-94;
    sklearn's [accuracy_score]; examples/treegp/sklearn_mode/breast_cancer.py 44-90, classification_gridsearch.py 62-111,
    typed_classification_gridsearch.py 61-111.

    [Classifier] has the wrapper around an arbitrary run; here the run is that of [Statistics].  Simplifications: there is one
    subpopulation; class labels are numbers.  The programs: the table is an argument, of which only the number of columns is
    used; the generation limit of the two searches is an argument, as the search sets it. *)
From Verif.Model Require Export Classifier Statistics Make Setup.
From Verif.Model Require Regressor.
From Verif.Model Require Import World Evolution Double Num.
Open Scope string_scope.
Open Scope nat_scope.
Open Scope list_scope.

(** sklearn.metrics.accuracy_score: as many predictions as labels, at least one, all of them whole. *)
Definition whole (x : num) : bool := match num_to_Z x with Some _ => true | None => false end.
Definition accuracy_score (y : option (list num)) (p : list num) : res num :=
  match y with
  | None => Raise ValueError
  | Some y =>
      if negb (length y =? length p) || (length y =? 0) || negb (forallb whole y) || negb (forallb whole p) then Raise ValueError
      else ndiv (nof_nat (length (filter (fun e => neq_num (fst e) (snd e)) (combine y p)))) (nof_nat (length y))
  end.

Section Classification.
  Variable sg : num -> num.
  Variable fsem : func -> list nval -> res nval.
  Variable const : tval -> nval.
  Variable unspecified : num -> num.
  Variable metric : option (list num) -> list num -> res num.
  Variable sched : nat -> list nat.
  Variable stats : list stat.

  (** The wrapper: does it have the attribute [is_fitted_], the evaluator, the wrapped algorithm, and the printed lines. *)
  Record classifier := mkClassifier { cl_fitted : bool; cl_eval : clf_eval; cl_algo : est; cl_lines : list line }.

  (** classification_evaluator.py 60-78 *)
  Definition evaluate_with (c : clf_eval) (g : genome) : res fval :=
    match g with
    | GTree t => rbind (clf_evaluate sg fsem const unspecified metric t c) (fun m => Ok (VNum m))
    | GVec _ => Raise AttributeError
    end.

  (** sklearn_wrapper.py 25-48 *)
  Definition clf_fit (X : array) (y : list num) (s : classifier) : res unit * classifier :=
    match Regressor.check_X_y X y with
    | Raise e => (Raise e, s)
    | Ok _ =>
        let c := set_context X (Some y) (cl_eval s) in
        match evolve_all (evaluate_with c) sched (fun _ => []) stats (cl_algo s, cl_lines s) with
        | (Ok _, (st, ls)) => (Ok tt, mkClassifier true c st ls)
        | (Raise e, (st, ls)) => (Raise e, mkClassifier (cl_fitted s) c st ls)
        end
    end.

  (** sk_classifier.py 11-37 *)
  Definition clf_predict (X : array) (s : classifier) : res (list num) * classifier :=
    if negb (cl_fitted s) then (Raise ValueError, s)
    else
      (match a_best_run (fst (cl_algo s)) with
       | None => Raise AttributeError
       | Some o => match nth_error (w_heap (snd (cl_algo s))) o with
                   | Some i => match i_genome i with
                               | GTree t => classify_individual sg fsem const unspecified (c_method (cl_eval s)) (c_classes (cl_eval s)) t X
                               | GVec _ => Raise AttributeError
                               end
                   | None => Raise AttributeError
                   end
       end,
       mkClassifier true (set_context X None (cl_eval s)) (cl_algo s) (cl_lines s)).
End Classification.

(** classification_evaluator.py 23-41: two classes and the logistic function unless told otherwise *)
Definition default_evaluator : clf_eval := mkClf Sigmoid 2 None None.

(** [create_terminal_set]: a variable for each column *)
Definition float_type (typed : bool) : option ty := if typed then Some TyFloat else None.
Definition column_terminals (typed : bool) (columns : nat) : list (tval * option ty) :=
  map (fun i => (TVar (column_name i), float_type typed)) (seq 0 columns).

(** breast_cancer.py 47-52 *)
Definition breast_functions : list func :=
  let f n s := mkFunc n s [None; None] None in [f 1 "f_add"; f 2 "f_sub"; f 3 "f_mul"; f 4 "f_div"].

(** classification_gridsearch.py 65-77, typed_classification_gridsearch.py 64-76 *)
Definition search_functions (typed : bool) : list func :=
  let t := float_type typed in
  let f n s u k := mkFunc n (if typed then u else s) (repeat t k) t in
  [f 1 "f_abs" "abs_float" 1; f 2 "f_add" "add2floats" 2; f 3 "f_div" "div2floats" 2; f 4 "f_inv" "inv_float" 1;
   f 5 "f_log" "log_float" 1; f 6 "f_max" "max2floats" 2; f 7 "f_min" "min2floats" 2; f 8 "f_mul" "mul2floats" 2;
   f 9 "f_neg" "neg_float" 1; f 10 "f_sqrt" "sqrt_float" 1; f 11 "f_sub" "sub2floats" 2].

(** breast_cancer.py 55-90, classification_gridsearch.py 80-111, typed_classification_gridsearch.py 79-111.  The evaluator
    is not part of the algorithm here; no random seed is given: it is taken from the clock. *)
Definition classification_program (functions : list func) (typed : bool) (columns size max_gen : nat) (sum : list Q -> Q) (stamp : Z) : res setup :=
  rbind (new_half (mkGA (Some (2, 4)) (Some functions) (Some (column_terminals typed columns, typed)) (Some (Fin (double (1 # 10000))))
                     None (float_type typed) None None)) (fun c =>
  rbind (new_operators
    [(NSubtreeXO, mkOA (Some (Fin (9 # 10))) (Some 2) None None None None None None None);
     (NSubtreeMut, mkOA (Some (Fin (1 # 5))) (Some 1) None None None None None None None)]) (fun ops =>
  rbind (new_subpopulation sum (CrOne c) None (Some ops) (Some [new_tournament 4 None]) (double (1 # 20)) size None (HB true)) (fun s =>
  simple_evolution_init stamp
    (mkArgs (PoOne s) StOne BrSimple EvNone max_gen None None [CkThreshold (Fin 1) (Fin (double (3 # 100)))] "thread"
       None None None None None 0)))).

Definition breast_program (columns : nat) := classification_program breast_functions false columns 100 100.
Definition search_program (typed : bool) (columns max_gen : nat) := classification_program (search_functions typed) typed columns 10 max_gen.
