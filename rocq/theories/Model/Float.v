(** * Program trees in double precision.

    Cites: eckity/base/untyped_functions.py 9-118, eckity/base/typed_functions.py 11-160 as numpy computes them on float64;
    sklearn's [mean_absolute_error] and [accuracy_score].

    On floats each numeric function of [BaseFns] does at most one operation that rounds, so that its result is the exact one,
    rounded.  Simplifications: one zero; square root, logarithm and the trigonometric functions are parameters. *)
From Verif.Model Require Export Regressor SkClassifier.
From Verif.Model Require Import Double Num.
Open Scope nat_scope.
Open Scope list_scope.

(** Rounding to the nearest double.  From 2^1024 on, after rounding, it is an infinity. *)
Definition too_large : Q := inject_Z (2 ^ 1024).
Definition rounded (x : num) : num :=
  match x with
  | Fin q => if Qle_bool too_large (double q) then PInf else if Qle_bool (double q) (- too_large) then NInf else Fin (double q)
  | _ => x
  end.

(** The functions of [base_table] on scalars and columns of doubles. *)
Definition double_array (us ul usin ucos utan : num -> num) (f : func) (args : list nval) : res nval :=
  of_rows (fun xs => rbind (base_sem us ul usin ucos utan f (map EFloat xs)) (fun e => Ok (rounded (el_num e)))) args.

(** sklearn.metrics.mean_absolute_error, with [sum] for the order in which numpy adds. *)
Definition rounded_error (sum : list num -> num) (y p : list num) : res num :=
  if negb (length y =? length p) || (length y =? 0) || negb (forallb is_fin y) || negb (forallb is_fin p) then Raise ValueError
  else rbind (ndiv (sum (map (fun e => nabs (rounded (nsub (fst e) (snd e)))) (combine y p))) (nof_nat (length y))) (fun m => Ok (rounded m)).

(** One addition after the other. *)
Definition rounded_sum (l : list num) : num := fold_left (fun s x => rounded (nadd s x)) l (Fin 0).

(** sklearn.metrics.accuracy_score *)
Definition rounded_accuracy (y : option (list num)) (p : list num) : res num :=
  rbind (accuracy_score y p) (fun m => Ok (rounded m)).
