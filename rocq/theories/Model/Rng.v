(** * Random generators as oracles.

    Cites: eckity/random/rng.py lines 6-32 ([RNG.set_seed] seeds both [random] and [numpy.random]) and
    the functions of Python's [random] module used by the library.

    The stream of each seed is an arbitrary function, so a theorem about all [rng] values covers
    all outcomes of all draws. *)
From Verif.Model Require Export Base Num.

(** One draw: an unbounded integer (reduced modulo what is asked for), and an arbitrary finite number
    used for Gaussian noise. *)
Record draw := mkDraw { d_n : N; d_g : Q }.

(** [r_py]/[r_np]: the streams of [random] and of [numpy.random] for each seed;
    then the current seed and position in the stream of both generators. *)
Record rng := mkRng {
  r_py : Z -> nat -> draw;
  r_np : Z -> nat -> draw;
  r_pyseed : Z; r_pypos : nat;
  r_npseed : Z; r_nppos : nat
}.

Definition R (A : Type) := SE rng A.

(** eckity/random/rng.py 23-32: [RNG.set_seed]: seeds both generators. *)
Definition set_seed (s : Z) : R unit :=
  fun g => (Ok tt, mkRng (r_py g) (r_np g) s 0 s 0).

Definition next_draw : R draw :=
  fun g => (Ok (r_py g (r_pyseed g) (r_pypos g)),
            mkRng (r_py g) (r_np g) (r_pyseed g) (S (r_pypos g)) (r_npseed g) (r_nppos g)).

Definition next_np_draw : R draw :=
  fun g => (Ok (r_np g (r_npseed g) (r_nppos g)),
            mkRng (r_py g) (r_np g) (r_pyseed g) (r_pypos g) (r_npseed g) (S (r_nppos g))).

(** Integer in [0, n), for n > 0. *)
Definition randbelow (n : nat) : R nat :=
  d <- next_draw ;; ret (N.to_nat (N.modulo (d_n d) (N.of_nat n))).

Definition np_randbelow (n : nat) : R nat :=
  d <- next_np_draw ;; ret (N.to_nat (N.modulo (d_n d) (N.of_nat n))).

(** [random.random()]: k / 2^53 with 0 <= k < 2^53. *)
Definition two53 : positive := 9007199254740992.
Definition random_unit : R num :=
  d <- next_draw ;; ret (Fin (Z.of_N (N.modulo (d_n d) (Npos two53)) # two53)).

(** [random.choice(l)]: IndexError on an empty sequence. *)
Definition choice {A} (l : list A) : R A :=
  match l with
  | [] => raise IndexError
  | _ => i <- randbelow (length l) ;;
         match nth_error l i with Some x => ret x | None => raise IndexError end
  end.

(** [random.choices(l, k=k)] without weights: k independent choices. *)
Definition choices {A} (l : list A) (k : nat) : R (list A) := repeatM k (choice l).

(** [random.choices(l, weights=w)[0]]: the first element whose cumulative weight is above
    [random() * total]; at latest the last one.  ValueError if the numbers differ or the total is not positive and
    finite; IndexError for empty lists. *)
Fixpoint pick_weighted {A} (l : list A) (w : list num) (acc : num) (x : num) : option A :=
  match l, w with
  | [], _ => None
  | [a], _ => Some a
  | a :: l', c :: w' =>
      if nlt x (nadd acc c) then Some a else pick_weighted l' w' (nadd acc c) x
  | a :: _, [] => Some a
  end.

Definition choices_weighted {A} (l : list A) (w : list num) : R A :=
  if negb (length l =? length w) then raise ValueError
  else if length l =? 0 then raise IndexError
  else if nle (nsum w) (Fin 0) then raise ValueError
  else if negb (is_fin (nsum w)) then raise ValueError
  else u <- random_unit ;;
       match pick_weighted l w (Fin 0) (nmul u (nsum w)) with
       | Some a => ret a
       | None => raise IndexError
       end.

(** [random.sample(l, k)]: CPython's pool algorithm; ValueError if k > len(l). *)
Fixpoint sample_pool {A} (k : nat) (pool : list A) : R (list A) :=
  match k with
  | O => ret []
  | S k' =>
      j <- randbelow (length pool) ;;
      match nth_error pool j with
      | None => raise IndexError
      | Some x =>
          xs <- sample_pool k' (removelast (list_set pool j (last pool x))) ;;
          ret (x :: xs)
      end
  end.

Definition sample {A} (l : list A) (k : nat) : R (list A) :=
  if length l <? k then raise ValueError else sample_pool k l.

(** [random.randint(a, b)]: ValueError if b < a or a bound is not integral. *)
Definition randint (a b : num) : R num :=
  match num_to_Z a, num_to_Z b with
  | Some x, Some y =>
      if (y <? x)%Z then raise ValueError
      else d <- next_draw ;;
           ret (nof_Z (x + Z.of_N (N.modulo (d_n d) (Z.to_N (y - x + 1)))))
  | _, _ => raise ValueError
  end.

(** [random.uniform(a, b)]: a + (b-a) * random(). *)
Definition uniform (a b : num) : R num :=
  u <- random_unit ;; ret (nadd a (nmul (nsub b a) u)).

(** [random.gauss(mu, sigma)]: mu + z * sigma with an arbitrary z. *)
Definition gauss (mu sigma : num) : R num :=
  d <- next_draw ;; ret (nadd mu (nmul (Fin (d_g d)) sigma)).

(** [bool(random.getrandbits(1))] *)
Definition random_bool : R bool :=
  d <- next_draw ;; ret (N.odd (d_n d)).
