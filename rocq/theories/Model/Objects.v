(** * Python objects as dictionaries: pickling, deep copies, and the sklearn wrapper's parameters.

    Cites: eckity/algorithms/algorithm.py 153-161, 211-218, 423-453; eckity/fitness/simple_fitness.py 152-157;
    eckity/evaluators/population_evaluator.py 30-31; eckity/sklearn_compatible/sklearn_wrapper.py 21-93;
    Python's [pickle] and [copy.deepcopy]; [sklearn.base.clone], [check_is_fitted].

    Simplifications: objects are trees, that is shared references are copied separately; an executor is its kind,
    its number of workers and a serial number that tells executors apart. *)
From Verif.Model Require Export Fitness.
Open Scope nat_scope.
Open Scope list_scope.
Open Scope string_scope.

Inductive atom := ANone | ABool (b : bool) | AStr (s : string) | ANum (x : num) | AOpaque (n : nat).

(** Classes with their own [__getstate__] or [__setstate__]; the others use the default. *)
Inductive cls := CAlgorithm | CFitness | CWrapper | COther (name : string).

Inductive obj :=
| OAtom (a : atom)
| OFun (local : bool) (n : nat)                       (* a function; [local]: a lambda or nested function *)
| OExec (thread : bool) (workers : obj) (serial : nat)  (* an executor: thread or process pool *)
| OList (l : list obj)
| OInst (c : cls) (fields : list (string * obj)).

Definition dict := list (string * obj).
Fixpoint dget (k : string) (d : dict) : option obj :=
  match d with [] => None | (k', v) :: d' => if String.eqb k k' then Some v else dget k d' end.
Fixpoint dset (k : string) (v : obj) (d : dict) : dict :=
  match d with [] => [(k, v)] | (k', v') :: d' => if String.eqb k k' then (k, v) :: d' else (k', v') :: dset k v d' end.
Definition ddel (k : string) (d : dict) : dict := filter (fun p => negb (String.eqb k (fst p))) d.
(** [d.update(new)] *)
Definition dupdate (new d : dict) : dict := fold_left (fun d p => dset (fst p) (snd p) d) new d.

Definition truthy (o : obj) : bool :=
  match o with
  | OAtom ANone => false | OAtom (ABool b) => b | OAtom (AStr s) => negb (String.eqb s "") | OAtom (ANum x) => negb (neq_num x (Fin 0))
  | OList [] => false | _ => true
  end.

(** [__getstate__] as what becomes of each field: algorithm.py 434-436, simple_fitness.py 153-157 (a fitness object has
    both overwritten fields from its constructor on), sklearn_wrapper.py 87-90. *)
Inductive action := Keep | Drop | Put (a : atom).
Definition state_action (c : cls) (d : dict) : res (string -> action) :=
  match c with
  | CAlgorithm =>
      match dget "executor" d with
      | Some _ => Ok (fun k => if String.eqb k "executor" then Drop else Keep)
      | None => Raise KeyError
      end
  | CFitness =>
      match dget "cache" d with
      | Some c => Ok (fun k => if truthy c then Keep
                               else if String.eqb k "_is_evaluated" then Put (ABool false)
                               else if String.eqb k "fitness" then Put ANone else Keep)
      | None => Raise AttributeError
      end
  | CWrapper => Ok (fun k => if String.eqb k "is_fitted_" then Drop else Keep)
  | COther _ => Ok (fun _ => Keep)
  end.

Definition getstate (c : cls) (d : dict) : res dict :=
  rbind (state_action c d) (fun act =>
  Ok (flat_map (fun p => match act (fst p) with Keep => [p] | Drop => [] | Put a => [(fst p, OAtom a)] end) d)).

(** The executor made from the fields: algorithm.py 450-453. *)
Definition is_thread (t : obj) : bool := match t with OAtom (AStr s) => String.eqb s "thread" | _ => false end.
Definition make_executor (d : dict) (serial : nat) : res obj :=
  match dget "_executor_type" d, dget "max_workers" d with
  | Some t, Some w => Ok (OExec (is_thread t) w serial)
  | _, _ => Raise AttributeError
  end.

(** [__setstate__] on an object that has the fields [d]: algorithm.py 449-453, sklearn_wrapper.py 92-93, and the
    default; the state [serial] counts executors.  The result pairs the new fields with the exception. *)
Definition setstate (c : cls) (state d : dict) : SE nat dict :=
  let d' := dupdate state d in
  match c with
  | CAlgorithm => serial <- get ;; e <- lift (make_executor d' serial) ;; put (S serial) ;;; ret (dset "executor" e d')
  | _ => ret d'
  end.

(** What is written: by [pickle.dumps] ([by_reference = false]), or by the first half of [copy.deepcopy] ([true]),
    which keeps functions by reference.  Executors hold locks, which neither accepts; a local function cannot be
    found by name when pickling. *)
Fixpoint dump (by_reference : bool) (o : obj) : res obj :=
  match o with
  | OAtom a => Ok (OAtom a)
  | OFun local n => if local && negb by_reference then Raise AttributeError else Ok (OFun local n)
  | OExec _ _ _ => Raise TypeError
  | OList l =>
      let fix items l := match l with
        | [] => Ok []
        | x :: l' => rbind (dump by_reference x) (fun y => rbind (items l') (fun ys => Ok (y :: ys)))
        end in
      rbind (items l) (fun l' => Ok (OList l'))
  | OInst c d =>
      rbind (state_action c d) (fun act =>
      let fix fields l := match l with
        | [] => Ok []
        | (k, x) :: l' =>
            match act k with
            | Keep => rbind (dump by_reference x) (fun y => rbind (fields l') (fun ys => Ok ((k, y) :: ys)))
            | Drop => fields l'
            | Put a => rbind (fields l') (fun ys => Ok ((k, OAtom a) :: ys))
            end
        end in
      rbind (fields d) (fun d' => Ok (OInst c d')))
  end.

(** Reading it back: the fields first, then [__setstate__] of a new instance without fields. *)
Fixpoint load (o : obj) : SE nat obj :=
  match o with
  | OList l =>
      let fix items l : SE nat (list obj) := match l with [] => ret [] | x :: l' => y <- load x ;; ys <- items l' ;; ret (y :: ys) end in
      l' <- items l ;; ret (OList l')
  | OInst c s =>
      let fix fields l : SE nat dict := match l with [] => ret [] | (k, x) :: l' => y <- load x ;; ys <- fields l' ;; ret ((k, y) :: ys) end in
      d <- fields s ;; d' <- setstate c d [] ;; ret (OInst c d')
  | _ => ret o
  end.

Definition copy (by_reference : bool) (o : obj) : SE nat obj := s <- lift (dump by_reference o) ;; load s.
Definition pickle_copy := copy false.
Definition deepcopy := copy true.

(** algorithm.py 218 with population_evaluator.py 30-31: [initialize] hands the executor to the population evaluator. *)
Definition attach_executor (d : dict) : res dict :=
  match dget "executor" d, dget "population_evaluator" d with
  | Some e, Some (OInst c pe) => Ok (dset "population_evaluator" (OInst c (dset "executor" e pe)) d)
  | _, _ => Raise AttributeError
  end.

(** A fitness object as a dictionary: fitness.py 34-40, simple_fitness.py 41, gp_fitness.py 49, nsga2_fitness.py 24-29. *)
Definition fval_obj (v : fval) : obj :=
  match v with VNone => OAtom ANone | VNum x => OAtom (ANum x) | VList l => OList (map (fun x => OAtom (ANum x)) l) | VObj o => OAtom (AOpaque o) end.
Definition hib_obj (h : hibv) : obj := match h with HB b => OAtom (ABool b) | HL l => OList (map (fun b => OAtom (ABool b)) l) end.
Definition fit_obj (f : fitness) : obj :=
  OInst CFitness
    ([("_is_evaluated", OAtom (ABool (ft_evaluated f))); ("is_relative_fitness", OAtom (ABool (ft_relative f)));
      ("cache", OAtom (ABool (ft_cache f))); ("higher_is_better", hib_obj (ft_hib f)); ("fitness", fval_obj (ft_value f))] ++
     match ft_class f with
     | KSimple => []
     | KGP b => [("bloat_weight", OAtom (ANum b))]
     | KNSGA2 => [("crowding", OAtom (ANum (ft_crowding f))); ("front_rank", OAtom (ANum (ft_rank f)))]
     end).

(** ** The sklearn wrapper *)

(** sklearn_wrapper.py 75-76 *)
Definition get_params (w : dict) : res dict := getstate CWrapper w.

(** lines 78-80 *)
Definition set_params (params w : dict) : SE nat dict :=
  match dget "algorithm" w with
  | Some (OInst CAlgorithm a) => a' <- setstate CAlgorithm params a ;; ret (dset "algorithm" (OInst CAlgorithm a') w)
  | _ => raise AttributeError
  end.

(** [sklearn.utils.validation.check_is_fitted]: some attribute ends with "_" and does not begin with "__". *)
Definition ends_with_underscore (k : string) : bool := String.eqb (String.substring (String.length k - 1) 1 k) "_".
Definition begins_with_two (k : string) : bool := String.prefix "__" k.
Definition is_fitted (w : dict) : bool := existsb (fun p => ends_with_underscore (fst p) && negb (begins_with_two (fst p))) w.

(** lines 43-48: [evolve] changes the algorithm in place. *)
Definition fit_wrapper (evolve : dict -> res dict) (w : dict) : res dict :=
  match dget "algorithm" w with
  | Some (OInst CAlgorithm a) => rbind (evolve a) (fun a' => Ok (dset "is_fitted_" (OAtom (ABool true)) (dset "algorithm" (OInst CAlgorithm a') w)))
  | _ => Raise AttributeError
  end.

(** [sklearn.base.clone]: a new wrapper from deep copies of the parameters; the constructor (lines 21-23) takes
    exactly [algorithm]. *)
Definition clone_wrapper (w : dict) : SE nat dict :=
  params <- lift (get_params w) ;;
  copies <- mapM (fun p => v <- deepcopy (snd p) ;; ret (fst p, v)) params ;;
  match copies with
  | [("algorithm", a)] => ret [("algorithm", a)]
  | _ => raise TypeError
  end.
