(** * The multi-objective example programs.

    Cites: examples/multi_objective/zdt/nsga2zdt1.py 20-82, nsga2zdt2.py, nsga2zdt3.py,
    examples/multi_objective/moe_base_example/nsga2_basic_example.py 40-120.

    Simplifications: arithmetic is exact; math.sqrt, math.sin, math.exp and math.pi are parameters on finite numbers; the
    probabilities are exact decimals.  The plot of the basic example (matplotlib) and the printing are left out; its evaluation in
    processes is that of [Evolution] (the evaluator returns a list, so it makes no difference where it runs). *)
From Verif.Model Require Export Make Setup Nsga2 MooStat.
From Verif.Model Require Import Double Num.
Open Scope string_scope.
Open Scope nat_scope.
Open Scope list_scope.

Section Evaluators.
  Variables (sqrt sin exp : Q -> Q) (pi : Q).

  Definition math_sqrt (x : num) : res num :=
    match x with
    | Fin q => if Qle_bool 0 q then Ok (Fin (sqrt q)) else Raise ValueError
    | NInf => Raise ValueError
    | _ => Ok x
    end.
  Definition math_sin (x : num) : res num :=
    match x with Fin q => Ok (Fin (sin q)) | NaN => Ok NaN | _ => Raise ValueError end.
  Definition math_exp (x : num) : num :=
    match x with Fin q => Fin (exp q) | PInf => PInf | NInf => Fin 0 | NaN => NaN end.

  (** The second objective, from the first one and [f1 / g]: nsga2zdt1.py 38, nsga2zdt2.py 38, nsga2zdt3.py 37. *)
  Inductive zdt_name := Zdt1 | Zdt2 | Zdt3.
  Definition zdt_second (z : zdt_name) (f1 r : num) : res num :=
    match z with
    | Zdt1 => rbind (math_sqrt r) (fun y => Ok (nsub (Fin 1) y))
    | Zdt2 => Ok (nsub (Fin 1) (nmul r r))
    | Zdt3 => rbind (math_sqrt r) (fun y => rbind (math_sin (nmul (nmul (Fin 10) (Fin pi)) f1)) (fun t =>
              Ok (nsub (nsub (Fin 1) y) (nmul r t))))
    end.

  (** nsga2zdt1.py 35-39 *)
  Definition zdt (z : zdt_name) (g : genome) : res fval :=
    match g with
    | GVec v =>
        match v_cells v with
        | [] => Raise IndexError
        | f1 :: rest =>
            rbind (ndiv (Fin 9) (nof_nat (length rest))) (fun c =>
            rbind (ndiv f1 (nadd (Fin 1) (nmul c (nsum rest)))) (fun r =>
            rbind (zdt_second z f1 r) (fun f2 => Ok (VList [f1; f2]))))
        end
    | GTree _ => Raise AttributeError
    end.

  (** nsga2_basic_example.py 54-61; [1 / math.sqrt(n)] is computed for each cell. *)
  Definition basic_part (op : num -> num -> num) (n : nat) (cells : list num) : res num :=
    rbind (rmap (fun x => rbind (math_sqrt (nof_nat n)) (fun y => rbind (ndiv (Fin 1) y) (fun u => let d := op x u in Ok (nmul d d)))) cells) (fun l =>
    Ok (nsub (Fin 1) (math_exp (nneg (nsum l))))).
  Definition basic (g : genome) : res fval :=
    match g with
    | GVec v =>
        rbind (basic_part nsub (length (v_cells v)) (v_cells v)) (fun f1 =>
        rbind (basic_part nadd (length (v_cells v)) (v_cells v)) (fun f2 => Ok (VList [f1; f2])))
    | GTree _ => Raise AttributeError
    end.
End Evaluators.

(** All four programs differ in the evaluator, the bounds, the executor and the statistics. *)
Definition moo_program (sum : list Q -> Q) (stamp : Z) (b : bounds) (stats : statistics_arg) (executor : string) : res setup :=
  rbind (new_operators
    [(NKPoints, mkOA (Some (Fin (7 # 10))) None None (Some 1) None None None None None);
     (NUniformN, mkOA (Some (Fin (3 # 10))) None (Some 3) None None None None None None)]) (fun ops =>
  rbind (new_subpopulation sum (CrOne (CVector 3 b KFloat KNSGA2 false)) None (Some ops) (Some [new_tournament 3 None])
           (double (1 # 300)) 150 None (HB false)) (fun s =>
  nsga2_evolution_init stamp
    (mkArgs (PoPopulation [s]) stats BrOther EvNone 150 None None [CkUser (crowding_checker (Fin (1 # 100))) 0] executor
       None None None None None 0))).

(** nsga2zdt1.py 44-69 (the others are the same) *)
Definition zdt_program (sum : list Q -> Q) (stamp : Z) : res setup := moo_program sum stamp (BPair (Fin 0) (Fin 1)) StOne "thread".

(** nsga2_basic_example.py 66-110; the first statistics object is the one of [MooStat]. *)
Definition basic_program (sum : list Q -> Q) (stamp : Z) : res setup :=
  moo_program sum stamp (BPair (Fin (-4)) (Fin 4)) (StList [true; true]) "process".
