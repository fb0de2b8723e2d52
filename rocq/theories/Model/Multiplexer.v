(** * The multiplexer example programs.

    Cites: examples/treegp/basic_mode/multiplexer.py 37-40, 43-77, 96-148, 167-211,
    examples/treegp/basic_mode/typed_multiplexer.py 30-33, 36-70, 88-140, 155-204.

    Simplifications: a tree is executed on each row of the table instead of on whole columns (its functions work elementwise, see
    [BaseFns]); so the result of a tree without variables is a value per row, as after [np.full].  The probabilities are exact decimals.
    The runs of execute at the end are those of [Execute]; the printing is left out. *)
From Verif.Model Require Export Make Setup BaseFns.
From Verif.Model Require Import Double Num.
Open Scope string_scope.
Open Scope nat_scope.
Open Scope list_scope.

(** multiplexer.py 37-40, 43, 167-169 *)
Definition mux_names : list string := ["s0"; "s1"; "s2"; "d0"; "d1"; "d2"; "d3"; "d4"; "d5"; "d6"; "d7"].

(** [itertools.product([0, 1], repeat=n)] *)
Fixpoint product (n : nat) : list (list bool) :=
  match n with O => [[]] | S k => map (cons false) (product k) ++ map (cons true) (product k) end.

(** A table entry: 0 or 1, in the typed version False or True. *)
Definition entry (typed : bool) (b : bool) : el := if typed then EBool b else EInt (b2z b).

(** Python's [not], [and], [or]. *)
Definition py_not (a : el) : el := EBool (negb (truthy a)).
Definition py_and (a b : el) : el := if truthy a then b else a.
Definition py_or (a b : el) : el := if truthy a then a else b.

(** multiplexer.py 43-77, typed_multiplexer.py 36-70 *)
Definition target_func (x : list el) : res el :=
  match x with
  | [s0; s1; s2; d0; d1; d2; d3; d4; d5; d6; d7] =>
      Ok (py_or (py_or (py_or (py_or (py_or (py_or (py_or
        (py_and (py_and (py_and (py_not s0) (py_not s1)) (py_not s2)) d0)
        (py_and (py_and (py_and (py_not s0) (py_not s1)) s2) d1))
        (py_and (py_and (py_and (py_not s0) s1) (py_not s2)) d2))
        (py_and (py_and (py_and (py_not s0) s1) s2) d3))
        (py_and (py_and (py_and s0 (py_not s1)) (py_not s2)) d4))
        (py_and (py_and (py_and s0 (py_not s1)) s2) d5))
        (py_and (py_and (py_and s0 s1) (py_not s2)) d6))
        (py_and (py_and (py_and s0 s1) s2) d7))
  | _ => Raise TypeError
  end.

Section Evaluator.
  Variables (u_sqrt u_log u_sin u_cos u_tan : num -> num).
  Variable typed : bool.

  (** Executing a tree on one row. *)
  Definition mux_execute (t : tree) (row : list bool) : res el :=
    execute el (base_sem u_sqrt u_log u_sin u_cos u_tan) el_const t (combine mux_names (map (entry typed) row)).

  (** multiplexer.py 96-148, typed_multiplexer.py 89-140 *)
  Definition mux_row (t : tree) (row : list bool) : res bool :=
    rbind (target_func (map (entry typed) row)) (fun y =>
    rbind (mux_execute t row) (fun v => Ok (neq_num (el_num v) (el_num y)))).
  Definition mux_evaluator (g : genome) : res fval :=
    match g with
    | GTree t => rbind (rmap (mux_row t) (product 11)) (fun l =>
                 Ok (VNum (Fin (inject_Z (Z.of_nat (length (filter (fun b => b) l))) / 2048))))
    | GVec _ => Raise AttributeError
    end.
End Evaluator.

(** multiplexer.py 172, typed_multiplexer.py 158-165 *)
Definition mux_functions (typed : bool) : list func :=
  if typed
  then let b := Some TyBool in
       [mkFunc 1 "and2bools" [b; b] b; mkFunc 2 "or2bools" [b; b] b; mkFunc 3 "not2bools" [b] b; mkFunc 4 "if_then_else3bools" [b; b; b] b]
  else [mkFunc 1 "f_and" [None; None] None; mkFunc 2 "f_or" [None; None] None; mkFunc 3 "f_not" [None] None;
        mkFunc 4 "f_if_then_else" [None; None; None] None].
Definition mux_type (typed : bool) : option ty := if typed then Some TyBool else None.
Definition mux_erc (typed : bool) : option erc := if typed then None else Some (ErcInt (nof_Z 0) (nof_Z 1)).
Definition mux_weight : Q := double (1 # 100000).

(** multiplexer.py 174-211, typed_multiplexer.py 168-204 *)
Definition mux_program (typed : bool) (sum : list Q -> Q) (stamp : Z) : res setup :=
  rbind (new_full (mkGA (Some (2, 4)) (Some (mux_functions typed)) (Some (map (fun s => (TVar s, mux_type typed)) mux_names, typed))
                     (Some (Fin mux_weight)) (mux_erc typed) (mux_type typed) None None)) (fun c =>
  rbind (new_operators
    [(NSubtreeXO, mkOA (Some (Fin (4 # 5))) (Some 2) None None None None None None None);
     (NSubtreeMut, mkOA (Some (Fin (1 # 10))) (Some 1) None None None None None None None)]) (fun ops =>
  rbind (new_subpopulation sum (CrOne c) None (Some ops) (Some [new_tournament 7 None]) 0 40 None (HB true)) (fun s =>
  simple_evolution_init stamp
    (mkArgs (PoOne s) StOne BrSimple EvNone 40 None None [CkThreshold (Fin 1) (Fin (double (1 # 100)))] "thread"
       (Some 10%Z) None None None None 0)))).
