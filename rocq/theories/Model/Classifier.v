(** * Classification by program trees, and the sklearn wrapper around it.

    Cites: eckity/sklearn_compatible/classification_evaluator.py 23-108, sklearn_wrapper.py 25-48, sk_classifier.py 11-37,
    [np.digitize], [np.linspace].

    The logistic function [sg] is a parameter.  Simplification: the thresholds i/n are exact. *)
From Verif.Model Require Export BaseFns.
Open Scope nat_scope.
Open Scope list_scope.

Inductive clf_method := Sigmoid | RootFunction (name : string).

(** classification_evaluator.py 14, 37-41: the accepted names *)
Definition clf_method_of (s : string) : res clf_method :=
  if String.eqb s "sigmoid" then Ok Sigmoid
  else if String.eqb s "argmax" || String.eqb s "softmax" then Ok (RootFunction s)
  else Raise ValueError.

(** line 93: [np.linspace(0, 1, n+1)[1:-1]], the values i/n for 0 < i < n *)
Definition linspace01 (points : nat) : list num :=
  map (fun i => Fin (Z.of_nat i # Pos.of_nat (points - 1))) (seq 0 points).
Definition thresholds (n : nat) : list num := tl (removelast (linspace01 (n + 1))).

(** [np.digitize(x, bins)] for increasing bins: the number of bins that are not above x; NaN is sorted behind all. *)
Definition digitize (bins : list num) (x : num) : nat := length (filter (fun b => negb (nlt x b)) bins).

Section Classify.
  Variable sg : num -> num.
  Variable fsem : func -> list nval -> res nval.
  Variable const : tval -> nval.
  Variable unspecified : num -> num.

  (** lines 89-94, one sample *)
  Definition classify (n : nat) (score : num) : nat := digitize (thresholds n) (sg score).

  (** lines 80-108: the result of [execute] is a column *)
  Definition classify_individual (m : clf_method) (n : nat) (t : tree) (X : array) : res (list num) :=
    let run := rbind (execute_array fsem const unspecified t X) (fun v =>
                 Ok (match v with Column l => l | Scalar x => [x] end)) in
    match m with
    | Sigmoid => rbind run (fun l => Ok (map (fun x => nof_nat (classify n x)) l))
    | RootFunction name =>
        match t_nodes t with
        | [] => Raise IndexError
        | FNode f :: _ => if match String.index 0 name (f_name f) with Some _ => true | None => false end
                          then run else Raise ValueError
        | TNode _ _ :: _ => Raise AttributeError
        end
    end.

  (** An evaluator: method, number of classes, and the data it was given last. *)
  Record clf_eval := mkClf { c_method : clf_method; c_classes : nat; c_X : option array; c_y : option (list num) }.

  (** lines 43-58 *)
  Definition set_context (X : array) (y : option (list num)) (c : clf_eval) : clf_eval :=
    mkClf (c_method c) (c_classes c) (Some X) y.

  (** A wrapped algorithm: the evaluators of its subpopulations, and [best_of_run_]. *)
  Record sk := mkSk { k_fitted : bool; k_evals : list clf_eval; k_best : option tree }.

  (** sklearn_wrapper.py 25-48.  [evolve] is the evolutionary run; shape checks of [check_X_y] are left out. *)
  Definition fit (evolve : list clf_eval -> res tree) (X : array) (y : list num) (s : sk) : res unit * sk :=
    let es := map (set_context X (Some y)) (k_evals s) in
    match evolve es with
    | Ok t => (Ok tt, mkSk true es (Some t))
    | Raise e => (Raise e, mkSk (k_fitted s) es (k_best s))
    end.

  (** sk_classifier.py 11-37, simple_evolution.py 227-228.  NotFittedError is a subclass of ValueError. *)
  Definition predict (X : array) (s : sk) : res (list num) * sk :=
    if negb (k_fitted s) then (Raise ValueError, s)
    else match k_evals s with
         | [] => (Raise IndexError, s)
         | c :: es =>
             let s' := mkSk (k_fitted s) (set_context X None c :: es) (k_best s) in
             match k_best s with
             | None => (Raise AttributeError, s')
             | Some t => (classify_individual (c_method c) (c_classes c) t X, s')
             end
         end.
End Classify.

(** lines 60-78: the metric is handed whatever target values the evaluator holds. *)
Definition clf_evaluate sg fsem const unspecified (metric : option (list num) -> list num -> res num) (t : tree) (c : clf_eval) : res num :=
  match c_X c with
  | None => Raise TypeError
  | Some X => rbind (classify_individual sg fsem const unspecified (c_method c) (c_classes c) t X) (metric (c_y c))
  end.
