(** * The symbolic regression example programs.

    Cites: examples/treegp/basic_mode/symbolic_regression.py 31-81, 103-162,
    examples/treegp/basic_mode/typed_symbolic_regression.py 31-81, 103-163.

    Simplifications: a tree is executed on each row of the table instead of on whole columns (its functions work elementwise, see
    [BaseFns]).  Arithmetic is exact, so that no value overflows.  The probabilities are exact decimals.  The table is an argument:
    200 rows of [np.random.uniform], which is not the random number generator of the run. *)
From Verif.Model Require Export Make Setup BaseFns.
From Verif.Model Require Import Double Num.
Open Scope string_scope.
Open Scope nat_scope.
Open Scope list_scope.

Definition row3 : Type := Q * Q * Q.

(** symbolic_regression.py 46-61 *)
Definition sr_target (r : row3) : num :=
  match r with (x, y, z) => nadd (nadd (Fin x) (nmul (Fin 2) (Fin y))) (nmul (Fin 3) (Fin z)) end.

(** The keyword arguments x, y, z of [execute] *)
Definition sr_arguments (r : row3) : list (string * el) :=
  match r with (x, y, z) => [("x", EFloat (Fin x)); ("y", EFloat (Fin y)); ("z", EFloat (Fin z))] end.

Section Evaluator.
  Variables (u_sqrt u_log u_sin u_cos u_tan : num -> num).
  Variable data : list row3.

  (** symbolic_regression.py 63-81: the mean of no rows is not modelled by a NaN, but by an exception. *)
  Definition sr_row (t : tree) (r : row3) : res num :=
    rbind (execute el (base_sem u_sqrt u_log u_sin u_cos u_tan) el_const t (sr_arguments r)) (fun v =>
    Ok (nabs (nsub (el_num v) (sr_target r)))).
  Definition sr_evaluator (g : genome) : res fval :=
    match g with
    | GTree t => rbind (rmap (sr_row t) data) (fun l => rbind (ndiv (nsum l) (nof_nat (length data))) (fun m => Ok (VNum m)))
    | GVec _ => Raise AttributeError
    end.
End Evaluator.

(** symbolic_regression.py 105-117, typed_symbolic_regression.py 105-117; the types are those of typed_functions.py 11-65. *)
Definition sr_type (typed : bool) : option ty := if typed then Some TyFloat else None.
Definition sr_functions (typed : bool) : list func :=
  let t := sr_type typed in
  let f n s u k := mkFunc n (if typed then u else s) (repeat t k) t in
  [f 1 "f_add" "add2floats" 2; f 2 "f_mul" "mul2floats" 2; f 3 "f_sub" "sub2floats" 2; f 4 "f_div" "div2floats" 2;
   f 5 "f_sqrt" "sqrt_float" 1; f 6 "f_log" "log_float" 1; f 7 "f_abs" "abs_float" 1; f 8 "f_max" "max2floats" 2;
   f 9 "f_min" "min2floats" 2; f 10 "f_inv" "inv_float" 1; f 11 "f_neg" "neg_float" 1].

(** symbolic_regression.py 120 *)
Definition sr_terminals (typed : bool) : list (tval * option ty) := map (fun s => (TVar s, sr_type typed)) ["x"; "y"; "z"].

(** symbolic_regression.py 123-162, typed_symbolic_regression.py 123-163; no random seed is given: it is taken from the clock. *)
Definition sr_program (typed : bool) (sum : list Q -> Q) (stamp : Z) : res setup :=
  rbind (new_half (mkGA (Some (2, 4)) (Some (sr_functions typed)) (Some (sr_terminals typed, typed)) (Some (Fin (double (1 # 10000))))
                     (Some (ErcFloat (Fin (-1)) (Fin 1))) (sr_type typed) None None)) (fun c =>
  rbind (new_operators
    [(NSubtreeXO, mkOA (Some (Fin (9 # 10))) None None None None None None None None);
     (NSubtreeMut, mkOA (Some (Fin (1 # 5))) None None None None None None None None);
     (NErc, mkOA (Some (Fin (1 # 20))) None None None None None None None None)]) (fun ops =>
  rbind (new_subpopulation sum (CrOne c) None (Some ops) (Some [new_tournament 4 None]) (double (1 # 20)) 200 None (HB false)) (fun s =>
  simple_evolution_init stamp
    (mkArgs (PoOne s) StOne BrSimple EvNone 40 None None [CkThreshold (Fin 0) (Fin (double (1 # 1000)))] "thread"
       None None None None None 0)))).
