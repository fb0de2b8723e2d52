(** * Python/IEEE numbers with exact rational arithmetic on the finite ones.

    Comparisons behave as in Python: NaN compares false with everything, infinities are ordered.
    Simplification: finite arithmetic is exact (no rounding, no overflow). *)
From Coq Require Export Qabs.
From Verif.Model Require Export Base.
Local Open Scope Q_scope.

Inductive num := Fin (q : Q) | PInf | NInf | NaN.

Definition Qlt_b (x y : Q) : bool := negb (Qle_bool y x).

(** [a < b] *)
Definition nlt (a b : num) : bool :=
  match a, b with
  | NaN, _ => false
  | _, NaN => false
  | Fin x, Fin y => Qlt_b x y
  | Fin _, PInf => true
  | Fin _, NInf => false
  | NInf, NInf => false
  | NInf, _ => true
  | PInf, _ => false
  end.

(** [a == b] *)
Definition neq_num (a b : num) : bool :=
  match a, b with
  | Fin x, Fin y => Qeq_bool x y
  | PInf, PInf => true
  | NInf, NInf => true
  | _, _ => false
  end.

(** [a <= b] *)
Definition nle (a b : num) : bool := nlt a b || neq_num a b.

Definition is_nan (a : num) : bool := match a with NaN => true | _ => false end.
Definition is_fin (a : num) : bool := match a with Fin _ => true | _ => false end.

Definition nadd (a b : num) : num :=
  match a, b with
  | NaN, _ => NaN
  | _, NaN => NaN
  | Fin x, Fin y => Fin (x + y)
  | PInf, NInf => NaN
  | NInf, PInf => NaN
  | PInf, _ => PInf
  | _, PInf => PInf
  | NInf, _ => NInf
  | _, NInf => NInf
  end.

Definition nneg (a : num) : num :=
  match a with Fin x => Fin (- x) | PInf => NInf | NInf => PInf | NaN => NaN end.

Definition nsub (a b : num) : num := nadd a (nneg b).

(** Sign: -1, 0, 1 *)
Definition nsign (a : num) : Z :=
  match a with
  | Fin x => Z.sgn (Qnum x)
  | PInf => 1
  | NInf => -1
  | NaN => 0
  end.

Definition nmul (a b : num) : num :=
  match a, b with
  | NaN, _ => NaN
  | _, NaN => NaN
  | Fin x, Fin y => Fin (x * y)
  | _, _ => match (nsign a * nsign b)%Z with
            | Z0 => NaN
            | Zpos _ => PInf
            | Zneg _ => NInf
            end
  end.

Definition nabs (a : num) : num :=
  match a with Fin x => Fin (Qabs.Qabs x) | PInf => PInf | NInf => PInf | NaN => NaN end.

(** True division of Python floats: division by zero raises. *)
Definition ndiv (a b : num) : res num :=
  match b with
  | Fin y => if Qeq_bool y 0 then Raise ZeroDivisionError
             else match a with
                  | Fin x => Ok (Fin (x / y))
                  | NaN => Ok NaN
                  | _ => Ok (nmul a (Fin y))
                  end
  | NaN => Ok NaN
  | _ => match a with
         | Fin _ => Ok (Fin 0)
         | _ => Ok NaN
         end
  end.

Definition nof_nat (n : nat) : num := Fin (inject_Z (Z.of_nat n)).
Definition nof_Z (z : Z) : num := Fin (inject_Z z).

(** An integer-valued number. *)
Definition num_to_Z (a : num) : option Z :=
  match a with
  | Fin q => if Z.eqb (Qnum q mod Zpos (Qden q)) 0 then Some (Qnum q / Zpos (Qden q))%Z else None
  | _ => None
  end.

(** [sum(l)] of Python numbers, starting from 0. *)
Definition nsum (l : list num) : num := fold_left nadd l (Fin 0).

(** Lexicographic [<] of Python lists: the first position where the elements are not [==]
    decides; a proper prefix is smaller. *)
Fixpoint list_lt (a b : list num) : bool :=
  match a, b with
  | [], [] => false
  | [], _ :: _ => true
  | _ :: _, [] => false
  | x :: a', y :: b' => if neq_num x y then list_lt a' b' else nlt x y
  end.

Fixpoint list_eqn (a b : list num) : bool :=
  match a, b with
  | [], [] => true
  | x :: a', y :: b' => neq_num x y && list_eqn a' b'
  | _, _ => false
  end.
