(** * Selection methods.

    Cites: eckity/genetic_operators/selections/elitism_selection.py, tournament_selection.py, fp_selection.py.
    A selection appends clones to [dest] and returns it. *)
From Verif.Model Require Export World.
Open Scope nat_scope.
Open Scope list_scope.

(** [sorted(inds, key=aug, reverse=rev)]: the keys are computed first, in order.  All keys must be comparable
    (numbers, or lists); [reverse=True] keeps the order of equal keys. *)
Definition key_before (rev : bool) (a b : fval * oid) : bool :=
  match fval_lt (fst a) (fst b), fval_lt (fst b) (fst a) with
  | Ok x, Ok y => if rev then y else x
  | _, _ => false
  end.

Definition same_sort (a b : fval) : bool :=
  match a, b with VNum _, VNum _ => true | VList _, VList _ => true | _, _ => false end.

Definition keys_comparable (ks : list fval) : bool :=
  match ks with
  | [] | [_] => true
  | k :: ks' => forallb (same_sort k) ks'
  end.

Definition sorted_by_fitness (rev : bool) (inds : list oid) : M (list oid) :=
  ks <- mapM augmented inds ;;
  if keys_comparable ks
  then ret (map snd (sort_stable (key_before rev) (combine ks inds)))
  else raise TypeError.

(** clone and record the selection method (elitism_selection.py 16-18, tournament_selection.py 85-86) *)
Definition clone_selected (name : string) (o : oid) : M oid :=
  c <- clone o ;; modify c (add_selected name) ;;; ret c.

(** elitism_selection.py 10-21 *)
Definition elitism_select (n : nat) (rev : bool) (source dest : list oid) : M (list oid) :=
  sorted <- sorted_by_fitness rev source ;;
  cs <- mapM (clone_selected "ElitismSelection") (firstn n sorted) ;;
  ret (dest ++ cs).

(** tournament_selection.py 80-84 *)
Definition tournament_winner (tour : list oid) : M oid :=
  match tour with
  | [] => raise IndexError
  | w :: rest =>
      foldM (fun best p => b <- ind_better_than p best ;; ret (if b then p else best)) rest w
  end.

Inductive selection :=
| SelTournament (size : nat) (replace : bool) (sarity : nat)
| SelFP (higher : bool) (sarity : nat).

Definition sel_arity (s : selection) : nat :=
  match s with SelTournament _ _ a => a | SelFP _ a => a end.

(** tournament_selection.py 41-79; a negative number of tournaments is an empty range. *)
Definition tournament_select (size : nat) (replace : bool) (sarity : nat) (source dest : list oid)
  : M (list oid) :=
  if negb replace && (length source <? size) then raise ValueError
  else if sarity =? 0 then raise ZeroDivisionError
  else
    let n := (length source - length dest) / sarity in
    tours <- repeatM n (liftR (if replace then choices source size else sample source size)) ;;
    winners <- mapM (fun t => w <- tournament_winner t ;; clone_selected "TournamentSelection" w) tours ;;
    ret (dest ++ winners).

(** fp_selection.py 33-73.  The distribution is in [FP.v]; here the draws are over-approximated: any
    individual may be drawn.  [np.min] of an empty array, a negative score, a NaN (or, when
    higher is better, an infinite) score and a negative number of draws raise ValueError. *)
Definition as_num (v : fval) : res num := match v with VNum x => Ok x | _ => Raise TypeError end.

Definition fp_bad (higher : bool) (x : num) : bool :=
  match x with NaN => true | PInf => higher | _ => false end.

Definition fp_select (higher : bool) (source dest : list oid) : M (list oid) :=
  ks <- mapM augmented source ;;
  xs <- lift (rmap as_num ks) ;;
  if (length source =? 0) || existsb (fun x => nlt x (Fin 0)) xs || existsb (fp_bad higher) xs
     || (length source <? length dest)
  then raise ValueError
  else
    picks <- repeatM (length source - length dest) (liftR (np_randbelow (length source))) ;;
    chosen <- lift (rmap (fun i => match nth_error source i with
                                   | Some o => Ok o | None => Raise IndexError end) picks) ;;
    cs <- mapM (clone_selected "FitnessProportionateSelection") chosen ;;
    ret (dest ++ cs).

Definition select (s : selection) (source dest : list oid) : M (list oid) :=
  match s with
  | SelTournament size replace a => tournament_select size replace a source dest
  | SelFP higher _ => fp_select higher source dest
  end.
