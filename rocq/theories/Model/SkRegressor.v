(** * The regression example programs.

    Cites: examples/treegp/sklearn_mode/symbolic_regression.py 46-102, regression_pipeline.py 34-98,
    regression_gridsearch.py 31-94.

    Simplifications: the table is an argument, of which only the number of columns is used; so is the generation limit, which
    the grid search sets. *)
From Verif.Model Require Export SkClassifier Regressor.
From Verif.Model Require Import Double Num.
Open Scope string_scope.
Open Scope nat_scope.
Open Scope list_scope.

(** symbolic_regression.py 62 *)
Definition regression_functions : list func :=
  let f n s := mkFunc n s [None; None] None in [f 1 "f_add"; f 2 "f_mul"; f 3 "f_sub"].

(** symbolic_regression.py 65-102; no random seed is given: it is taken from the clock. *)
Definition regression_program (columns max_gen : nat) (sum : list Q -> Q) (stamp : Z) : res setup :=
  rbind (new_half (mkGA (Some (2, 4)) (Some regression_functions) (Some (column_terminals false columns, false)) (Some (Fin (double (1 # 10000))))
                     (Some (ErcFloat (Fin (-100)) (Fin 100))) None None None)) (fun c =>
  rbind (new_operators
    [(NSubtreeXO, mkOA (Some (Fin (9 # 10))) (Some 2) None None None None None None None);
     (NSubtreeMut, mkOA (Some (Fin (1 # 5))) (Some 1) None None None None None None None);
     (NErc, mkOA (Some (Fin (1 # 20))) (Some 1) None None None None None None None)]) (fun ops =>
  rbind (new_subpopulation sum (CrOne c) None (Some ops) (Some [new_tournament 4 None]) (double (1 # 20)) 1000 None (HB false)) (fun s =>
  simple_evolution_init stamp
    (mkArgs (PoOne s) StOne BrSimple EvNone max_gen None None [CkThreshold (Fin 0) (Fin (double (1 # 100)))] "thread"
       None None None None None 0)))).
