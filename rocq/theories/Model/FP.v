(** * The distribution of fitness proportionate selection.

    Cites: eckity/genetic_operators/selections/fp_selection.py 33-73, [scipy.special.softmax] and
    [numpy.random.choice] with [replace=True] and [p].

    The exponential function is a parameter [ex].  Simplifications: sums, differences and quotients are exact
    (the check of [numpy.random.choice] that the probabilities sum to one up to 1e-8 is then exact too);
    fitness lists (multi-objective) are a TypeError. *)
From Verif.Model Require Export Selection.
Open Scope Q_scope.
Open Scope list_scope.

(** [np.min]: NaN wins; the empty array is a ValueError (line 41). *)
Definition nmin2 (a b : num) : num := if is_nan a then a else if is_nan b then b else if nlt b a then b else a.
Definition np_min (xs : list num) : res num :=
  match xs with [] => Raise ValueError | x :: r => Ok (fold_left nmin2 r x) end.

(** numpy's [1 / x]: no exception, 1/0 is infinite (the sign of zero is not modelled: inputs are non-negative). *)
Definition np_inv (x : num) : num :=
  match x with
  | Fin q => if Qeq_bool q 0 then PInf else Fin (/ q)
  | PInf => Fin 0
  | NInf => Fin 0
  | NaN => NaN
  end.

Fixpoint Qsum (l : list Q) : Q := match l with [] => 0 | x :: r => x + Qsum r end.

(** [softmax(x)]: exp(x - max(x)) / sum. *)
Definition Qmax_of (x : Q) (l : list Q) : Q := fold_left (fun a b => if Qlt_b a b then b else a) l x.
Definition softmax (ex : Q -> Q) (l : list Q) : list Q :=
  match l with
  | [] => []
  | x :: r => let m := Qmax_of x r in
              let es := map (fun y => ex (y - m)) l in
              map (fun e => e / Qsum es) es
  end.

Definition finite (x : num) : res Q := match x with Fin q => Ok q | _ => Raise ValueError end.

(** lines 37-59.  Infinite and NaN scores give NaN probabilities, which [choice] refuses. *)
Definition fp_probs (ex : Q -> Q) (higher : bool) (xs : list num) : res (list Q) :=
  match np_min xs with
  | Raise e => Raise e
  | Ok m =>
      if nlt m (Fin 0) then Raise ValueError
      else
        let ys := if higher then xs
                  else let smoothing := if neq_num m (Fin 0) then Fin 1 else Fin 0 in
                       map (fun x => np_inv (nadd x smoothing)) xs in
        match rmap finite ys with
        | Raise e => Raise e
        | Ok qs => Ok (if Qeq_bool (Qsum qs) 1 then qs else softmax ex qs)
        end
  end.

(** [choice]: cdf = p.cumsum(); cdf /= cdf[-1]; the index is the number of entries of cdf that are <= u. *)
Fixpoint cumsum (acc : Q) (ps : list Q) : list Q :=
  match ps with [] => [] | p :: r => (acc + p) :: cumsum (acc + p) r end.
Definition cdf_index (ps : list Q) (u : Q) : nat :=
  let cs := cumsum 0 ps in
  let total := last cs 1 in
  length (filter (fun c => Qle_bool (c / total) u) cs).

(** [random_sample()] *)
Definition np_unit : R Q :=
  d <- next_np_draw ;; ret (Z.of_N (N.modulo (d_n d) (Npos two53)) # two53).

(** lines 33-73 *)
Definition fp_select_exact (ex : Q -> Q) (higher : bool) (source dest : list oid) : M (list oid) :=
  ks <- mapM augmented source ;;
  xs <- lift (rmap as_num ks) ;;
  ps <- lift (fp_probs ex higher xs) ;;
  if (length source <? length dest)%nat then raise ValueError
  else
    us <- repeatM (length source - length dest) (liftR np_unit) ;;
    chosen <- lift (rmap (fun u => match nth_error source (cdf_index ps u) with
                                   | Some o => Ok o | None => Raise IndexError end) us) ;;
    cs <- mapM (clone_selected "FitnessProportionateSelection") chosen ;;
    ret (dest ++ cs).
