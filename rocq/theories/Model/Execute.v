(** * Using the result of a run: [algorithm.execute].

    Cites: eckity/algorithms/simple_evolution.py 198-217, eckity/multi_objective_evolution/nsga2_evolution.py 132-150,
    eckity/genetic_encodings/ga/vector_individual.py 142-151, 285-303.

    Simplification: only keyword arguments are passed, as both [execute] methods of algorithms do. *)
From Verif.Model Require Import Base Num Vector Tree World Evolution.
Open Scope list_scope.

(** What an individual computes: a vector is its own result. *)
Inductive outcome (val : Type) := OVector (cells : list num) | OValue (v : val).
Arguments OVector {val} cells.
Arguments OValue {val} v.

Section Execute.
  Variable val : Type.
  Variable fsem : func -> list val -> res val.
  Variable const : tval -> val.

  (** vector_individual.py 285-303 (the arguments are ignored); tree_individual.py 227-283 *)
  Definition ind_execute (g : genome) (kw : list (string * val)) : res (outcome val) :=
    match g with
    | GVec v => Ok (OVector (v_cells v))
    | GTree t => rbind (execute val fsem const t kw) (fun v => Ok (OValue v))
    end.

  (** simple_evolution.py 217, nsga2_evolution.py 150: [self.best_of_run_.execute(...)] *)
  Definition algorithm_execute (kw : list (string * val)) (a : algo) (w : world) : res (outcome val) :=
    match a_best_run a with
    | None => Raise AttributeError
    | Some o => match nth_error (w_heap w) o with
                | Some i => ind_execute (i_genome i) kw
                | None => Raise AttributeError
                end
    end.
End Execute.
