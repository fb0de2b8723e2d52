(** * The example programs.

    Cites: examples/vectorga/one_max/one_max_evaluator.py 4-19, one_max_problem.py 15-52, one_max_problem_float.py 16-53,
    examples/vectorga/knapsack/knapsack_evaluator.py 6-71, knapsack_main.py 14-60.

    Simplifications: sums are exact (they are rounded in Python if they are of floats); the probabilities are exact decimals;
    the elitism rate 1/300 is a double.  [sum] is the built-in sum, [stamp] the clock (see [Setup]).  The evaluators run inside
    [evolve]; printing the result of execute is not modelled. *)
From Verif.Model Require Export Make Setup.
From Verif.Model Require Import Double Num.
Open Scope string_scope.
Open Scope nat_scope.
Open Scope list_scope.

(** one_max_evaluator.py 5-19: [sum(individual.vector)] *)
Definition one_max (g : genome) : res fval :=
  match g with
  | GVec v => Ok (VNum (fold_left nadd (v_cells v) (Fin 0)))
  | GTree _ => Raise AttributeError
  end.

(** The three programs differ in the creator, the size, the elitism rate, the operators, the tournament and the checkers. *)
Definition vector_program (sum : list Q -> Q) (stamp : Z) (c : creator) (size : nat) (rate : Q) (calls : list (op_name * op_args))
  (tournament : nat) (checkers : list checker) : res setup :=
  rbind (new_operators calls) (fun ops =>
  rbind (new_subpopulation sum (CrOne c) None (Some ops) (Some [new_tournament tournament None]) rate size None (HB true)) (fun s =>
  simple_evolution_init stamp
    (mkArgs (PoOne s) StOne BrSimple EvNone 500 None None checkers "thread" None None None None None 0))).

(** one_max_problem.py 17-45 *)
Definition one_max_program (sum : list Q -> Q) (stamp : Z) : res setup :=
  vector_program sum stamp (new_vector_creator KBit (Some 100) None None) 300 (double (1 # 300))
    [(NKPoints, mkOA (Some (Fin (1 # 2))) None None (Some 1) None None None None None);
     (NBitNFlip, mkOA (Some (Fin (1 # 5))) None (Some 100) None None None (Some (Fin (1 # 20))) None None)]
    3 [CkThreshold (Fin 100) (Fin 0)].

(** one_max_problem_float.py 18-46 *)
Definition one_max_float_program (sum : list Q -> Q) (stamp : Z) : res setup :=
  vector_program sum stamp (new_vector_creator KFloat (Some 100) (Some (BPair (Fin 0) (Fin 1))) None) 300 (double (1 # 300))
    [(NKPoints, mkOA (Some (Fin (7 # 10))) None None (Some 1) None None None None None);
     (NUniformN, mkOA (Some (Fin (3 # 10))) None (Some 50) None None None None None None)]
    3 [CkThreshold (Fin 100) (Fin 0)].

(** knapsack_evaluator.py 22-46: the argument [items]; an item of a list is a pair or something else ([None]) that
    is not a tuple; tuples of fewer than two elements are not modelled.  The test
    [type(item[1] not in [int, float])] is a type, hence true.  The default is 20 items, drawn with the module random. *)
Inductive items_arg := ItDefault (drawn : list (num * num)) | ItList (l : list (option (num * num))) | ItDict (l : list (num * num)).

Definition items_of (a : items_arg) : res (list (num * num)) :=
  match a with
  | ItDefault l => Ok l
  | ItList [] => Ok []
  | ItList (_ :: _) => Raise ValueError
  | ItDict l => Ok l
  end.

(** knapsack_evaluator.py 48-71: the items are (weight, price); the dictionary has the keys 0, 1, ...  [individual.size()] is
    the number of cells. *)
Fixpoint fill (items : list (num * num)) (i : nat) (cells : list num) (wv : num * num) : res (num * num) :=
  match cells with
  | [] => Ok wv
  | x :: rest =>
      if neq_num x (Fin 0) then fill items (S i) rest wv
      else match nth_error items i with
           | None => Raise KeyError
           | Some it => fill items (S i) rest (nadd (fst wv) (fst it), nadd (snd wv) (snd it))
           end
  end.

Definition knapsack (items : list (num * num)) (max_weight : num) (g : genome) : res fval :=
  match g with
  | GVec v => rbind (fill items 0 (v_cells v) (Fin 0, Fin 0)) (fun wv =>
              Ok (VNum (if nlt max_weight (fst wv) then NInf else snd wv)))
  | GTree _ => Raise AttributeError
  end.

(** knapsack_main.py 28-52 *)
Definition knapsack_program (sum : list Q -> Q) (stamp : Z) : res setup :=
  vector_program sum stamp (new_vector_creator KBit (Some 20) None None) 50 0
    [(NKPoints, mkOA (Some (Fin (1 # 2))) None None (Some 2) None None None None None);
     (NBitFlip, mkOA (Some (Fin (1 # 20))) None None None None None None None None)]
    4 [].
