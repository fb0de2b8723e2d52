(** * IEEE 754 double precision: rounding of exact results.

    A finite double is a rational; each operation gives the exact result rounded to the nearest double, ties to even
    significands, as CPython's float operations do.  Simplifications: no overflow (there is no largest double), no infinities
    and NaN, no negative zero. *)
From Verif.Model Require Export Base.
From Coq Require Export QArith Qround Qabs.
Local Open Scope Q_scope.

(** Exponent of the leading binary digit of a positive number. *)
Definition ilog2 (q : Q) : Z :=
  let e := (Z.log2 (Qnum q) - Z.log2 (Zpos (Qden q)))%Z in
  if Qle_bool (2 ^ e) q then e else (e - 1)%Z.

(** Nearest integer, ties to even: Python's [round] with one argument, and the rounding of significands. *)
Definition round_even (q : Q) : Z :=
  let f := Qfloor q in
  match Qcompare (q - inject_Z f) (1 # 2) with
  | Lt => f
  | Gt => (f + 1)%Z
  | Eq => if Z.even f then f else (f + 1)%Z
  end.

(** Exponent of the last place: 53 significant digits, or the subnormal range. *)
Definition ulp_exp (a : Q) : Z := Z.max (-1074) (ilog2 a - 52).

Definition double (q : Q) : Q :=
  if Qeq_bool q 0 then 0
  else let u := 2 ^ ulp_exp (Qabs q) in inject_Z (round_even (q / u)) * u.

(** Python's [+], [-], [*], [/] on floats (divisor not 0). *)
Definition dadd (x y : Q) : Q := double (x + y).
Definition dsub (x y : Q) : Q := double (x - y).
Definition dmul (x y : Q) : Q := double (x * y).
Definition ddiv (x y : Q) : Q := double (x / y).

(** [sum(l)] of floats.  Before Python 3.12: one addition after the other. *)
Definition sum_plain (l : list Q) : Q := fold_left dadd l 0.

(** From Python 3.12 on: with Neumaier's compensation (Python/bltinmodule.c, [builtin_sum_impl] and [cs_add]). *)
Definition cs_add (s : Q * Q) (x : Q) : Q * Q :=
  let t := dadd (fst s) x in
  if Qle_bool (Qabs x) (Qabs (fst s))
  then (t, dadd (snd s) (dadd (dsub (fst s) t) x))
  else (t, dadd (snd s) (dadd (dsub x t) (fst s))).
Definition sum_compensated (l : list Q) : Q :=
  let s := fold_left cs_add l (0, 0) in dadd (fst s) (snd s).
