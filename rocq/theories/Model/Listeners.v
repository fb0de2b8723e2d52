(** * What the listeners of operators are told.

    Cites: eckity/before_after_publisher.py 6-44, eckity/event_based_operator.py 11-74,
    eckity/genetic_operators/genetic_operator.py 24-59, genetic_operators/selections/selection_method.py 6-25,
    eckity/creators/creator.py 9-29, creators/ga_creators/simple_vector_creator.py 17-19,
    creators/gp_creators/tree_creator.py 31-33, eckity/breeders/breeder.py 21-41, breeders/simple_breeder.py 12-18, 75-106,
    eckity/evaluators/population_evaluator.py 7-29, individual_evaluator.py 8-30.

    [Publisher] is about one publisher and forgets the data given to callbacks; here the publishers are the operators of the
    library, with the data.  Simplifications: callbacks are given numbers, only look at what they are told, and neither
    register nor unregister anything. *)
From Verif.Model Require Export Evolution Publisher.
Open Scope nat_scope.
Open Scope list_scope.

(** What is passed as [events]: None, a dictionary from names to subscribers, or a list of names. *)
Inductive events_arg := EaNone | EaDict (d : list (string * subscribers)) | EaList (names : list string).

(** The attribute [arity]: a number, or what a creator puts there. *)
Inductive arity_attr := ArNum (n : nat) | ArEvents (e : events_arg).

Inductive op_class := KGenetic | KSelection | KCreator | KBreeder | KEvaluator.

(** What the attributes applied_individuals, selected_individuals, created_individuals hold. *)
Inductive shown := ShNone | ShInds (l : list oid) | ShPop (p : list subpop).

(** An operator as a publisher.  [ob_shown]: the attribute its class announces. *)
Record op_obj := mkObj {
  ob_class : op_class;
  ob_arity : arity_attr;
  ob_events : events_arg;
  ob_next : nat;
  ob_shown : shown
}.

(** The second argument of a callback: None, or a dictionary; [DItem k v] has the only key [k], [DSelected] is what the breeder
    has for "after_selection". *)
Inductive data := DNone | DEmpty | DItem (key : string) (v : shown) | DSelected (v : shown).

(** Callback [n] was called for an event with this data. *)
Record heard := mkHeard { hd_callback : nat; hd_event : string; hd_data : data }.

Record lst := mkL { l_world : world; l_obj : op_obj; l_heard : list heard }.
Definition L (X : Type) := SE lst X.

Definition liftW {X} (m : M X) : L X :=
  fun s => match m (l_world s) with (r, w) => (r, mkL w (l_obj s) (l_heard s)) end.
Definition show_now (v : shown) : L unit :=
  fun s => let o := l_obj s in
           (Ok tt, mkL (l_world s) (mkObj (ob_class o) (ob_arity o) (ob_events o) (ob_next o) v) (l_heard s)).
Definition hear (x : heard) : L unit := fun s => (Ok tt, mkL (l_world s) (l_obj s) (l_heard s ++ [x])).

(** before_after_publisher.py 6-15 without further names, event_based_operator.py 12-15 *)
Definition operator_init (k : op_class) (ar : arity_attr) (events : events_arg) : op_obj :=
  mkObj k ar (match events with EaNone => EaDict [(before_operator, []); (after_operator, [])] | e => e end) 0 ShNone.

(** genetic_operator.py 24-26 *)
Definition genetic_init (ar : nat) (events : events_arg) : op_obj := operator_init KGenetic (ArNum ar) events.

(** selection_method.py 7-12 *)
Definition selection_init (events : events_arg) : op_obj :=
  operator_init KSelection (ArNum 1) (match events with EaNone => EaList ["after_selection"%string] | e => e end).

(** simple_vector_creator.py 17-19 and tree_creator.py 31-33, then creator.py 10-11: the events are passed as the first
    argument of [Operator.__init__], which is the arity. *)
Definition creator_init (events : events_arg) : op_obj :=
  operator_init KCreator (ArEvents (match events with EaNone => EaList ["after_creation"%string] | e => e end)) EaNone.

(** breeder.py 21-22; population_evaluator.py 7-9 (and individual_evaluator.py, which has no [__init__]) *)
Definition breeder_init (events : events_arg) : op_obj := operator_init KBreeder (ArNum 1) events.
Definition evaluator_init : op_obj := operator_init KEvaluator (ArNum 1) EaNone.

(** [self.events[event_name]]: a list has no string indices. *)
Definition subscribers_in (e : events_arg) (name : string) : res subscribers :=
  match e with
  | EaDict d => match dict_get String.eqb name d with Some l => Ok l | None => Raise KeyError end
  | _ => Raise TypeError
  end.

(** before_after_publisher.py 20-26 *)
Definition register_listener (name : string) (cb : option callback) : L nat :=
  s <- get ;;
  let o := l_obj s in
  l <- lift (subscribers_in (ob_events o) name) ;;
  let c := match cb with None => CbDefault | Some c => c end in
  let l' := dict_set Nat.eqb (ob_next o) c l in
  let events := match ob_events o with EaDict d => EaDict (dict_set String.eqb name l' d) | e => e end in
  put (mkL (l_world s) (mkObj (ob_class o) (ob_arity o) events (S (ob_next o)) (ob_shown o)) (l_heard s)) ;;;
  ret (ob_next o).

(** [event_name_to_data]: event_based_operator.py 68-74, selection_method.py 21-25, creator.py 24-29,
    simple_breeder.py 101-106 (which returns None by falling off its end) *)
Definition event_data (o : op_obj) (name : string) : data :=
  match ob_class o with
  | KGenetic | KEvaluator =>
      if String.eqb name after_operator then DItem "applied_individuals" (ob_shown o) else DEmpty
  | KSelection =>
      if String.eqb name "after_selection" then DItem "applied_individuals" (ob_shown o) else DEmpty
  | KCreator =>
      if String.eqb name after_operator then DItem "created_individuals" (ob_shown o) else DEmpty
  | KBreeder =>
      if String.eqb name "after_selection" then DSelected (ob_shown o) else DNone
  end.

(** event_based_operator.py 43-55.  [None]: the payload is not a list.  No list or dictionary equals a number. *)
Definition check_payload (ar : arity_attr) (payload : option nat) : res unit :=
  match ar with
  | ArNum n => assert_arity n payload
  | ArEvents _ => Raise ValueError
  end.

Section Listen.
  (** What callback [n] does when told [d] on event [e]: return or raise. *)
  Variable user : nat -> string -> data -> res unit.

  Definition tell (name : string) (d : data) (c : callback) : L unit :=
    match c with
    | CbDefault => raise TypeError
    | CbUser n => hear (mkHeard n name d) ;;; lift (user n name d)
    end.

  (** before_after_publisher.py 32-35: the data is made before the subscribers are looked up. *)
  Definition announce (name : string) : L unit :=
    s <- get ;;
    let d := event_data (l_obj s) name in
    l <- lift (subscribers_in (ob_events (l_obj s)) name) ;;
    iterM (fun ic => tell name d (snd ic)) l.

  (** event_based_operator.py 24-41, before_after_publisher.py 40-44 *)
  Definition act {X} (payload : option nat) (action : L X) : L X :=
    s <- get ;;
    lift (check_payload (ob_arity (l_obj s)) payload) ;;;
    announce before_operator ;;;
    v <- action ;;
    announce after_operator ;;;
    ret v.

  (** ** Genetic operators: where [apply] sets [applied_individuals]. *)

  (** vector_k_point_crossover.py 52-57, vector_n_point_mutation.py 124, subtree_crossover.py 55-63, subtree_mutation.py 43-51,
      erc_mutation.py 38-47, identity_transformation.py 18-20.  The vector mutations set it in failing attempts too; the
      fallback of a Gauss mutation is another operator, with its own attribute. *)
  Definition applying (o : oper) (inds : list oid) : L (option (list oid)) :=
    let note := show_now (ShInds inds) in
    let tree (attempt : M bool) :=
      failable_apply (op_attempts o)
        (fun _ => ok <- liftW attempt ;; (if ok then note else ret tt) ;;; ret (ok, Some inds)) (ret (Some inds)) in
    let fallback m n :=
      r <- liftW (with_probability (vmut_name m) (op_prob o) (vec_apply_plain m n 5) inds) ;; ret (Some r) in
    match op_kind o with
    | OKPoint k => r <- liftW (kpoint_apply k inds) ;; note ;;; ret (Some r)
    | OVecMut m n =>
        failable_apply (op_attempts o)
          (fun _ => ok <- liftW (vec_attempt m n inds) ;; note ;;; ret (ok, Some inds))
          (match m with
           | MGaussOne _ _ => fallback MUniformOne 1
           | MGaussN _ _ => fallback MUniformN n
           | _ => ret None
           end)
    | OSubtreeXO => tree (xo_attempt (op_arity o) inds)
    | OSubtreeMut mn mx => tree (mut_attempt mn mx inds)
    | OErc mu sigma => tree (erc_attempt mu sigma inds)
    | OIdentity => note ;;; ret (Some inds)
    end.

  (** genetic_operator.py 28-59 *)
  Definition applying_operator (o : oper) (inds : list oid) : L (list oid) :=
    u <- liftW (liftR random_unit) ;;
    if nle u (op_prob o) then
      liftW (iterM set_fitness_not_evaluated inds) ;;;
      r <- applying o inds ;;
      match r with
      | None => raise TypeError
      | Some l => liftW (iterM (record_applied (okind_name (op_kind o)) inds) l) ;;; ret l
      end
    else ret inds.

  Definition act_genetic (o : oper) (inds : list oid) : L (list oid) :=
    act (Some (length inds)) (applying_operator o inds).

  (** selection_method.py 14-15.  The payload (source, destination) may be given as a tuple or as a list. *)
  Definition act_selection (as_list : bool) (sel : selection) (source dest : list oid) : L (list oid) :=
    act (if as_list then Some 2 else None)
        (r <- liftW (select sel source dest) ;; show_now (ShInds r) ;;; ret r).

  (** creator.py 21-22: [create_individuals] lacks its second argument. *)
  Definition act_creator (payload : option nat) : L (list oid) := act payload (raise TypeError).

  (** population_evaluator.py 25-29 and simple_population_evaluator.py 24-73 *)
  Definition act_population_evaluator (ev : genome -> res fval) (sched : nat -> list nat) (m : exec_method) (alive : bool)
    (pop : list subpop) : L oid :=
    act None (show_now (ShPop pop) ;;; liftW (evaluate_population ev sched m alive pop)).

  (** simple_individual_evaluator.py 17-39 with the payload (individual, environment) *)
  Definition act_individual_evaluator (ev : genome -> res fval) (o : oid) : L oid :=
    act None (show_now (ShInds [o]) ;;;
              i <- liftW (load o) ;; v <- lift (ev (i_genome i)) ;; liftW (ind_set_fitness o v) ;;; ret o).

  (** breeder.py 24-41 *)
  Definition act_breeder (pop : list subpop) : L (list subpop) := act None (liftW (breed pop)).

  (** ** Breeding with operator objects *)

  (** simple_breeder.py 94-98 calls [apply_operator], not [act]. *)
  Fixpoint applying_chunks (fuel : nat) (o : oper) (l : list oid) : L (list oid) :=
    match fuel with
    | 0 => ret l
    | S fuel' =>
        match l with
        | [] => ret []
        | _ => r <- applying_operator o (firstn (op_arity o) l) ;;
               rest <- applying_chunks fuel' o (skipn (op_arity o) l) ;;
               ret (r ++ rest)
        end
    end.

  Definition on_object {X} (ob : op_obj) (m : L X) : SE (world * list heard) (X * op_obj) :=
    fun s => match m (mkL (fst s) ob (snd s)) with
             | (Ok x, t) => (Ok (x, l_obj t), (l_world t, l_heard t))
             | (Raise e, t) => (Raise e, (l_world t, l_heard t))
             end.

  (** simple_breeder.py 75-99: the operators in turn, each an object of its own. *)
  Fixpoint applying_operators (ops : list (op_obj * oper)) (l : list oid) : SE (world * list heard) (list oid * list op_obj) :=
    match ops with
    | [] => ret (l, [])
    | (ob, o) :: rest =>
        if op_arity o =? 0 then raise ValueError
        else r <- on_object ob (applying_chunks (length l) o l) ;;
             q <- applying_operators rest (fst r) ;;
             ret (fst q, snd r :: snd q)
    end.
End Listen.
