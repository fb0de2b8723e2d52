(** * The functions offered for program trees.

    Cites: eckity/base/untyped_functions.py 9-118, eckity/base/typed_functions.py 11-160.

    The functions work elementwise, so one element is modelled: a numpy integer, float or boolean.  Square root,
    logarithm and the trigonometric functions are parameters.  Simplifications: arithmetic is exact (no overflow,
    no rounding, one zero); a Python scalar argument behaves like a numpy one. *)
From Verif.Model Require Export Tree.
Open Scope string_scope.

Inductive el := EInt (z : Z) | EFloat (x : num) | EBool (b : bool).

Definition el_num (a : el) : num :=
  match a with EInt z => nof_Z z | EFloat x => x | EBool b => nof_Z (if b then 1 else 0) end.

(** [bool(x)]: NaN is true. *)
Definition truthy (a : el) : bool :=
  match a with EInt z => negb (Z.eqb z 0) | EFloat x => negb (neq_num x (Fin 0)) | EBool b => b end.

Definition to_int (a : el) : option Z :=
  match a with EInt z => Some z | EBool b => Some (if b then 1%Z else 0%Z) | EFloat _ => None end.

(** A numpy function of two numbers: its versions for booleans, integers and floats. *)
Definition binary (fb : bool -> bool -> res el) (fi : Z -> Z -> Z) (ff : num -> num -> num) (a b : el) : res el :=
  match a, b with
  | EBool x, EBool y => fb x y
  | _, _ => match to_int a, to_int b with
            | Some x, Some y => Ok (EInt (fi x y))
            | _, _ => Ok (EFloat (ff (el_num a) (el_num b)))
            end
  end.

(** [np.add], [np.subtract], [np.multiply]: booleans are added by "or", multiplied by "and", and cannot be subtracted. *)
Definition np_add2 := binary (fun x y => Ok (EBool (x || y))) Z.add nadd.
Definition np_subtract := binary (fun _ _ => Raise TypeError) Z.sub nsub.
Definition np_multiply := binary (fun x y => Ok (EBool (x && y))) Z.mul nmul.

(** [np.maximum], [np.minimum]: NaN wins. *)
Definition nmaximum (a b : num) : num := if is_nan a then NaN else if is_nan b then NaN else if nlt a b then b else a.
Definition nminimum (a b : num) : num := if is_nan a then NaN else if is_nan b then NaN else if nlt b a then b else a.
Definition np_maximum := binary (fun x y => Ok (EBool (x || y))) Z.max nmaximum.
Definition np_minimum := binary (fun x y => Ok (EBool (x && y))) Z.min nminimum.

(** [np.divide] on floats, without warnings: division by zero gives an infinity or NaN. *)
Definition npdiv (a b : num) : num :=
  match b with
  | Fin y => if Qeq_bool y 0
             then match nsign a with Z0 => NaN | Zpos _ => PInf | Zneg _ => NInf end
             else match a with Fin x => Fin (x / y) | _ => nmul a (Fin y) end
  | NaN => NaN
  | _ => match a with Fin _ => Fin 0 | _ => NaN end
  end.

(** [np.absolute], [np.negative] *)
Definition np_absolute (a : el) : el :=
  match a with EInt z => EInt (Z.abs z) | EFloat x => EFloat (nabs x) | EBool b => EBool b end.
Definition np_negative (a : el) : res el :=
  match a with EInt z => Ok (EInt (- z)) | EFloat x => Ok (EFloat (nneg x)) | EBool _ => Raise TypeError end.

(** [np.where(c, a, b)]: the result has the common type of both alternatives. *)
Definition np_where (c : bool) (a b : el) : el :=
  let r := if c then a else b in
  match a, b with
  | EBool _, EBool _ => r
  | _, _ => match to_int a, to_int b, to_int r with
            | Some _, Some _, Some z => EInt z
            | _, _, _ => EFloat (el_num r)
            end
  end.

(** [np.bitwise_and], [np.bitwise_or]: not for floats. *)
Definition bitwise (fb : bool -> bool -> bool) (fz : Z -> Z -> Z) (a b : el) : res el :=
  match a, b with
  | EBool x, EBool y => Ok (EBool (fb x y))
  | _, _ => match to_int a, to_int b with Some x, Some y => Ok (EInt (fz x y)) | _, _ => Raise TypeError end
  end.

(** [np.argmax([a, b])]: the first of the largest; NaN counts as largest. *)
Definition np_argmax2 (a b : num) : nat := if is_nan a then 0 else if is_nan b then 1 else if nlt a b then 1 else 0.

(** The float 0.001. *)
Definition c0001 : Q := 1152921504606847 # 1152921504606846976.

Definition b2z (b : bool) : Z := if b then 1%Z else 0%Z.

Section Functions.
  Variables (u_sqrt u_log u_sin u_cos u_tan : num -> num).

  (** untyped_functions.py 24-27, 51-53; typed_functions.py 27-30, 53-55 *)
  Definition f_div (x y : el) : res el :=
    Ok (np_where (nlt (Fin c0001) (nabs (el_num y))) (EFloat (npdiv (el_num x) (el_num y))) (EFloat (Fin 0))).
  Definition f_inv (x : el) : res el := f_div (EInt 1) x.

  (** untyped 30-38; typed 33-41 *)
  Definition f_sqrt (x : el) : res el := Ok (EFloat (u_sqrt (el_num (np_absolute x)))).
  Definition f_log (x : el) : res el :=
    Ok (np_where (nlt (Fin c0001) (nabs (el_num x))) (EFloat (u_log (nabs (el_num x)))) (EFloat (Fin 0))).

  (** untyped 81-98; typed 82-99 *)
  Definition f_iflte0 (x y z : el) : res el := Ok (np_where (nle (el_num x) (Fin 0)) y z).
  Definition f_ifgt0 (x y z : el) : res el := Ok (np_where (nlt (Fin 0) (el_num x)) y z).
  Definition f_iflte (x y z w : el) : res el := Ok (np_where (nle (el_num x) (el_num y)) z w).
  Definition f_ifgt (x y z w : el) : res el := Ok (np_where (nlt (el_num y) (el_num x)) z w).

  (** untyped 101-118 *)
  Definition f_and := bitwise andb Z.land.
  Definition f_or := bitwise orb Z.lor.
  Definition f_not (x : el) : res el := Ok (EInt (b2z (negb (truthy x)))).
  Definition f_if_then_else (t a b : el) : res el := Ok (np_where (truthy t) a b).

  (** typed 102-119, 127-160.  The functions that end in [2floats], [2ints] are annotated to return floats and
      integers; "and" and "or" return booleans. *)
  Definition and2 (x y : el) : res el := Ok (EBool (truthy x && truthy y)).
  Definition or2 (x y : el) : res el := Ok (EBool (truthy x || truthy y)).
  Definition not2floats (x : el) : res el := Ok (EFloat (nof_Z (b2z (negb (truthy x))))).
  Definition not2bools (x : el) : res el := Ok (EBool (negb (truthy x))).
  Definition argmax2floats (x y : el) : res el := Ok (EInt (Z.of_nat (np_argmax2 (el_num x) (el_num y)))).

  Definition ap1 (g : el -> res el) (args : list el) : res el := match args with [x] => g x | _ => Raise TypeError end.
  Definition ap2 (g : el -> el -> res el) (args : list el) : res el := match args with [x; y] => g x y | _ => Raise TypeError end.
  Definition ap3 (g : el -> el -> el -> res el) (args : list el) : res el := match args with [x; y; z] => g x y z | _ => Raise TypeError end.
  Definition ap4 (g : el -> el -> el -> el -> res el) (args : list el) : res el := match args with [x; y; z; w] => g x y z w | _ => Raise TypeError end.
  Definition un (u : num -> num) : list el -> res el := ap1 (fun x => Ok (EFloat (u (el_num x)))).

  (** Names of the functions: untyped and typed. *)
  Definition base_table : list (string * (list el -> res el)) :=
    [ ("f_add", ap2 np_add2); ("f_sub", ap2 np_subtract); ("f_mul", ap2 np_multiply); ("f_div", ap2 f_div);
      ("f_sqrt", ap1 f_sqrt); ("f_log", ap1 f_log); ("f_abs", ap1 (fun x => Ok (np_absolute x))); ("f_neg", ap1 np_negative);
      ("f_inv", ap1 f_inv); ("f_max", ap2 np_maximum); ("f_min", ap2 np_minimum);
      ("f_sin", un u_sin); ("f_cos", un u_cos); ("f_tan", un u_tan);
      ("f_iflte0", ap3 f_iflte0); ("f_ifgt0", ap3 f_ifgt0); ("f_iflte", ap4 f_iflte); ("f_ifgt", ap4 f_ifgt);
      ("f_and", ap2 f_and); ("f_or", ap2 f_or); ("f_not", ap1 f_not); ("f_if_then_else", ap3 f_if_then_else);
      ("add2floats", ap2 np_add2); ("sub2floats", ap2 np_subtract); ("mul2floats", ap2 np_multiply); ("div2floats", ap2 f_div);
      ("sqrt_float", ap1 f_sqrt); ("log_float", ap1 f_log); ("abs_float", ap1 (fun x => Ok (np_absolute x))); ("neg_float", ap1 np_negative);
      ("inv_float", ap1 f_inv); ("max2floats", ap2 np_maximum); ("min2floats", ap2 np_minimum);
      ("sin_float", un u_sin); ("cos_float", un u_cos); ("tan_float", un u_tan);
      ("iflte0_floats", ap3 f_iflte0); ("ifgt0_floats", ap3 f_ifgt0); ("iflte_floats", ap4 f_iflte); ("ifgt_floats", ap4 f_ifgt);
      ("and2floats", ap2 and2); ("or2floats", ap2 or2); ("not2floats", ap1 not2floats); ("if_then_else", ap3 f_if_then_else);
      ("argmax2floats", ap2 argmax2floats);
      ("and2ints", ap2 and2); ("or2ints", ap2 or2); ("not2ints", ap1 f_not); ("if_then_else3ints", ap3 f_if_then_else);
      ("and2bools", ap2 f_and); ("or2bools", ap2 f_or); ("not2bools", ap1 not2bools); ("if_then_else3bools", ap3 f_if_then_else) ].

  (** What a function of a tree computes, by its name. *)
  Fixpoint lookup (s : string) (l : list (string * (list el -> res el))) : option (list el -> res el) :=
    match l with
    | [] => None
    | (k, g) :: r => if String.eqb s k then Some g else lookup s r
    end.
  Definition base_sem (f : func) (args : list el) : res el :=
    match lookup (f_name f) base_table with
    | Some g => g args
    | None => Raise TypeError
    end.
End Functions.

(** The value of a number in a tree. *)
Definition el_const (v : tval) : el :=
  match v with
  | TNum true x _ => EFloat x
  | TNum false x _ => match num_to_Z x with Some z => EInt z | None => EFloat x end
  | TVar _ => EFloat NaN
  end.
