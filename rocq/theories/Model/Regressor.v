(** * Regression by program trees, and the sklearn wrapper around it.

    Cites: eckity/sklearn_compatible/regression_evaluator.py 30-78, sklearn_wrapper.py 22-67, sk_regressor.py 6-7,
    eckity/base/untyped_functions.py 9-118; sklearn's [mean_absolute_error], [check_X_y], [check_is_fitted].

    Simplifications: the values of programs are floats, so that integers among constants and results of functions are
    taken for floats; arithmetic is exact; numpy columns of length 1 are not broadcast against longer ones. *)
From Verif.Model Require Export BaseFns.
From Verif.Model Require Import World Evolution.
Open Scope nat_scope.
Open Scope list_scope.

(** The value of an argument in row [r]. *)
Definition cell (r : nat) (v : nval) : num := match v with Scalar x => x | Column l => nth r l NaN end.

(** A numpy function of several arguments: it works row by row if some argument is a column. *)
Definition of_rows (g : list num -> res num) (args : list nval) : res nval :=
  match flat_map (fun v => match v with Column l => [length l] | Scalar _ => [] end) args with
  | [] => rbind (g (map (cell 0) args)) (fun x => Ok (Scalar x))
  | n :: rest =>
      if forallb (Nat.eqb n) rest
      then rbind (rmap (fun r => g (map (cell r) args)) (seq 0 n)) (fun l => Ok (Column l))
      else Raise ValueError
  end.

(** The functions of [base_table] on scalars and columns of floats. *)
Definition base_array (us ul usin ucos utan : num -> num) (f : func) (args : list nval) : res nval :=
  of_rows (fun xs => rbind (base_sem us ul usin ucos utan f (map EFloat xs)) (fun e => Ok (el_num e))) args.

(** A number in a tree. *)
Definition number_const (v : tval) : num := match v with TNum _ x _ => x | TVar _ => NaN end.

(** sklearn.metrics.mean_absolute_error: finite values of the same, positive number. *)
Definition mean_absolute_error (y p : list num) : res num :=
  if negb (length y =? length p) || (length y =? 0) || negb (forallb is_fin y) || negb (forallb is_fin p) then Raise ValueError
  else ndiv (nsum (map (fun e => nabs (nsub (fst e) (snd e))) (combine y p))) (nof_nat (length y)).

(** sklearn.utils.check_X_y *)
Definition check_X_y (X : array) (y : list num) : res unit :=
  if (a_rows X =? 0) || (length (a_cols X) =? 0) || negb (forallb (forallb is_fin) (a_cols X)) ||
     negb (length y =? a_rows X) || negb (forallb is_fin y)
  then Raise ValueError else Ok tt.

Section Regression.
  Variable fsem : func -> list nval -> res nval.
  Variable const : tval -> nval.
  Variable unspecified : num -> num.
  Variable metric : list num -> list num -> res num.
  Variable sched : nat -> list nat.

  (** [individual.execute(X)]: the result is a column. *)
  Definition outputs (t : tree) (X : array) : res (list num) :=
    rbind (execute_array fsem const unspecified t X) (fun v => Ok (match v with Column l => l | Scalar x => [x] end)).

  (** regression_evaluator.py 60-78, with the data given by [set_context] *)
  Definition regression_evaluate (X : array) (y : list num) (g : genome) : res fval :=
    match g with
    | GTree t => rbind (outputs t X) (fun p => rbind (metric y p) (fun m => Ok (VNum m)))
    | GVec _ => Raise AttributeError
    end.

  (** The wrapper: does it have the attribute [is_fitted_], and the wrapped algorithm with its individuals. *)
  Record regressor := mkReg { rg_fitted : bool; rg_algo : est }.

  (** sklearn_wrapper.py 25-48 *)
  Definition fit (n_stats : nat) (X : array) (y : list num) (s : regressor) : res unit * regressor :=
    match check_X_y X y with
    | Raise e => (Raise e, s)
    | Ok _ => match evolve (regression_evaluate X y) sched n_stats (rg_algo s) with
              | (Ok _, st) => (Ok tt, mkReg true st)
              | (Raise e, st) => (Raise e, mkReg (rg_fitted s) st)
              end
    end.

  (** sklearn_wrapper.py 50-69; NotFittedError is a subclass of ValueError *)
  Definition predict (X : array) (s : regressor) : res (list num) :=
    if negb (rg_fitted s) then Raise ValueError
    else match a_best_run (fst (rg_algo s)) with
         | None => Raise AttributeError
         | Some o => match nth_error (w_heap (snd (rg_algo s))) o with
                     | Some i => match i_genome i with GTree t => outputs t X | GVec _ => Raise AttributeError end
                     | None => Raise AttributeError
                     end
         end.
End Regression.
