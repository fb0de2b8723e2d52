(** * Base vocabulary of the model: exceptions as values, state monads, Python lists.

    This file models Python's own behaviour (built-in exceptions, slices, indexing, stable
    [sorted]) as far as the library uses it.  It contains definitions only. *)
From Coq Require Export String Arith ZArith NArith QArith Bool List.
Export ListNotations.
Open Scope nat_scope.

(** Python exception classes that the library raises (explicitly or by a failing built-in).
    [UserError n] is an exception of user code; [OutOfFuel] is an artefact of the model (fuel of
    an index recursion used up) and is proved unreachable where it matters. *)
Inductive exn :=
| ValueError | TypeError | IndexError | KeyError | AttributeError | ZeroDivisionError
| RuntimeError | RecursionError | AssertionError | UserError (n : nat) | OutOfFuel.

Inductive res (A : Type) :=
| Ok (a : A)
| Raise (e : exn).
Arguments Ok {A} a.
Arguments Raise {A} e.

Definition rbind {A B} (m : res A) (k : A -> res B) : res B :=
  match m with Ok a => k a | Raise e => Raise e end.

Definition is_ok {A} (m : res A) : bool := match m with Ok _ => true | Raise _ => false end.

(** State and exception monad: an exception keeps the state reached so far, as in Python. *)
Definition SE (S A : Type) := S -> res A * S.

Definition ret {S A} (a : A) : SE S A := fun s => (Ok a, s).
Definition raise {S A} (e : exn) : SE S A := fun s => (Raise e, s).
Definition bind {S A B} (m : SE S A) (k : A -> SE S B) : SE S B :=
  fun s => match m s with
           | (Ok a, s') => k a s'
           | (Raise e, s') => (Raise e, s')
           end.
Definition lift {S A} (r : res A) : SE S A := fun s => (r, s).
Definition get {S} : SE S S := fun s => (Ok s, s).
Definition put {S} (s : S) : SE S unit := fun _ => (Ok tt, s).

Declare Scope monad_scope.
Delimit Scope monad_scope with monad.
Notation "x <- m ;; k" := (bind m (fun x => k))
  (at level 100, m at next level, right associativity) : monad_scope.
Notation "m ;;; k" := (bind m (fun _ => k))
  (at level 100, right associativity) : monad_scope.
Open Scope monad_scope.

(** [for x in l: f(x)], collecting the results. *)
Fixpoint mapM {S A B} (f : A -> SE S B) (l : list A) : SE S (list B) :=
  match l with
  | [] => ret []
  | x :: l' => y <- f x ;; ys <- mapM f l' ;; ret (y :: ys)
  end.

(** [for x in l: f(x)], without results. *)
Fixpoint iterM {S A B} (f : A -> SE S B) (l : list A) : SE S unit :=
  match l with
  | [] => ret tt
  | x :: l' => f x ;;; iterM f l'
  end.

(** [for x in l: acc = f(acc, x)]. *)
Fixpoint foldM {S A B} (f : B -> A -> SE S B) (l : list A) (acc : B) : SE S B :=
  match l with
  | [] => ret acc
  | x :: l' => a <- f acc x ;; foldM f l' a
  end.

(** [for _ in range(n): f()], collecting the results. *)
Fixpoint repeatM {S A} (n : nat) (m : SE S A) : SE S (list A) :=
  match n with
  | O => ret []
  | S n' => x <- m ;; xs <- repeatM n' m ;; ret (x :: xs)
  end.

(** [all]/comprehension over a list with a fallible element, no state. *)
Fixpoint rmap {A B} (f : A -> res B) (l : list A) : res (list B) :=
  match l with
  | [] => Ok []
  | x :: l' => rbind (f x) (fun y => rbind (rmap f l') (fun ys => Ok (y :: ys)))
  end.

(** ** Python lists *)

(** [l[i]] with a non-negative or negative index. *)
Definition py_norm (len : nat) (i : Z) : option nat :=
  if (i <? 0)%Z
  then if (i + Z.of_nat len <? 0)%Z then None else Some (Z.to_nat (i + Z.of_nat len))
  else if (i <? Z.of_nat len)%Z then Some (Z.to_nat i) else None.

Definition py_get {A} (l : list A) (i : Z) : res A :=
  match py_norm (length l) i with
  | None => Raise IndexError
  | Some n => match nth_error l n with Some x => Ok x | None => Raise IndexError end
  end.

(** A slice bound: negative bounds count from the end, all bounds are clipped to [0..len]. *)
Definition py_clip (len : nat) (i : Z) : nat :=
  if (i <? 0)%Z then Z.to_nat (Z.max 0 (i + Z.of_nat len))
  else Nat.min len (Z.to_nat i).

(** [l[i:j]] *)
Definition py_slice {A} (l : list A) (i j : Z) : list A :=
  let a := py_clip (length l) i in
  let b := py_clip (length l) j in
  firstn (b - a) (skipn a l).

(** [l[i:j] = new]; if [j] lies before [i] the new elements are inserted at [i]. *)
Definition py_slice_set {A} (l : list A) (i j : Z) (new : list A) : list A :=
  let a := py_clip (length l) i in
  let b := py_clip (length l) j in
  firstn a l ++ new ++ skipn (Nat.max a b) l.

(** Functional update of position [i]; out of range leaves the list (callers check the range). *)
Fixpoint list_set {A} (l : list A) (i : nat) (x : A) : list A :=
  match l, i with
  | [], _ => []
  | _ :: l', O => x :: l'
  | y :: l', S i' => y :: list_set l' i' x
  end.

(** [l[i] = x] for a non-negative index. *)
Definition py_set {A} (l : list A) (i : nat) (x : A) : res (list A) :=
  if i <? length l then Ok (list_set l i x) else Raise IndexError.

(** [l.index(x)] with the equality [eqb]: the first position, ValueError if there is none. *)
Fixpoint find_index {A} (p : A -> bool) (l : list A) : option nat :=
  match l with
  | [] => None
  | x :: l' => if p x then Some 0 else option_map S (find_index p l')
  end.

(** Stable insertion sort.  [before x y] says that [x] must come strictly before [y].  Python's
    [sorted] is a stable sort; for a strict weak order its result is unique and equals this one. *)
Fixpoint insert_stable {A} (before : A -> A -> bool) (x : A) (l : list A) : list A :=
  match l with
  | [] => [x]
  | y :: l' => if before y x then y :: insert_stable before x l' else x :: y :: l'
  end.

Fixpoint sort_stable {A} (before : A -> A -> bool) (l : list A) : list A :=
  match l with
  | [] => []
  | x :: l' => insert_stable before x (sort_stable before l')
  end.
