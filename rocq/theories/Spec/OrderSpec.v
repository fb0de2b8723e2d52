(** * Vocabulary for runs that differ in the fitness values only. *)
From Verif.Model Require Import Evolution.
Open Scope nat_scope.

(** The two fitness functions fail on the same genomes with the same exceptions, give numbers other than NaN to the others, and order them in
    the same way (with [flip]: in opposite ways). *)
Definition same_ranking (flip : bool) (ev1 ev2 : genome -> res fval) : Prop :=
  (forall g, (exists x y, ev1 g = Ok (VNum x) /\ ev2 g = Ok (VNum y) /\ x <> NaN /\ y <> NaN) \/ (exists e, ev1 g = Raise e /\ ev2 g = Raise e)) /\
  forall g h x x' y y', ev1 g = Ok (VNum x) -> ev1 h = Ok (VNum x') -> ev2 g = Ok (VNum y) -> ev2 h = Ok (VNum y') ->
    nlt y y' = if flip then nlt x' x else nlt x x'.

(** The opposite direction, if [flip]. *)
Definition turn (flip : bool) (h : hibv) : hibv := match h with HB b => HB (xorb flip b) | HL l => HL l end.
Definition turn_ind (flip : bool) (i : ind) : ind := set_fit (with_hib (i_fit i) (turn flip (ft_hib (i_fit i)))) i.
Definition turn_world (flip : bool) (w : world) : world := mkWorld (map (turn_ind flip) (w_heap w)) (w_next_id w) (w_rng w).
Definition turn_sub (flip : bool) (s : subpop) : subpop :=
  mkSub (sp_creators s) (sp_pcr s) (sp_ops s) (sp_sels s) (sp_size s) (turn flip (sp_hib s)) (sp_n_elite s) (sp_inds s).
Definition turn_algo (flip : bool) (a : algo) : algo := set_pop (map (turn_sub flip) (a_pop a)) a.

(** A fitness that is one number, without a penalty for the size. *)
Definition unpenalised (c : fclass) : Prop := match c with KSimple => True | KGP w => neq_num w (Fin 0) = true | KNSGA2 => False end.

(** No value has been stored yet. *)
Definition no_value (i : ind) : Prop :=
  unpenalised (ft_class (i_fit i)) /\ ft_value (i_fit i) = VNone /\ exists b, ft_hib (i_fit i) = HB b.

Definition plain_creator (c : creator) : Prop :=
  match c with
  | CVector _ _ _ fc _ => unpenalised fc
  | CGP _ p => neq_num (g_bloat p) (Fin 0) = true
  | CHalf _ _ p q => neq_num (g_bloat p) (Fin 0) = true /\ neq_num (g_bloat q) (Fin 0) = true
  end.

(** The same individual, up to its fitness object. *)
Definition alike (i j : ind) : Prop := i = set_fit (i_fit i) j /\ ft_evaluated (i_fit i) = ft_evaluated (i_fit j).

(** The same subpopulation, up to the direction of optimisation. *)
Definition sub_alike (s t : subpop) : Prop :=
  t = mkSub (sp_creators s) (sp_pcr s) (sp_ops s) (sp_sels s) (sp_size s) (sp_hib t) (sp_n_elite s) (sp_inds s).

(** A user's checker that looks neither at fitness values nor at the direction of optimisation. *)
Definition value_blind (f : user_checker) : Prop := forall stored p q hp hp' best gen,
  Forall2 sub_alike p q -> Forall2 alike hp hp' -> f stored p hp best gen = f stored q hp' best gen.

(** Nothing in the configuration looks at fitness values other than by comparing them. *)
Definition by_comparison (a : algo) : Prop :=
  a_method a = ByMap /\
  (forall s, In s (a_pop a) -> (exists b, sp_hib s = HB b) /\ Forall plain_creator (sp_creators s) /\
     match sp_sels s with SelFP _ _ :: _ => False | _ => True end) /\
  Forall (fun c => match c with CkUser f _ => value_blind f | _ => False end) (a_checkers a).

Definition seen_alike (x y : option ind) : Prop :=
  match x, y with Some i, Some j => alike i j | None, None => True | _, _ => False end.

Definition event_alike (x y : tev) : Prop :=
  match x, y with
  | TPublish n g b s, TPublish n' g' b' s' => n = n' /\ g = g' /\ b = b' /\ seen_alike s s'
  | _, _ => x = y
  end.

(** The same run, up to fitness values: same outcome, individuals, random draws, best and worst individuals, events. *)
Definition run_alike (r1 r2 : res unit * (algo * world)) : Prop :=
  match r1, r2 with
  | (x1, (a1, w1)), (x2, (a2, w2)) =>
      x1 = x2 /\ Forall2 alike (w_heap w1) (w_heap w2) /\ w_next_id w1 = w_next_id w2 /\ w_rng w1 = w_rng w2 /\
      map sp_inds (a_pop a1) = map sp_inds (a_pop a2) /\
      a_best_run a1 = a_best_run a2 /\ a_best_gen a1 = a_best_gen a2 /\ a_worst_gen a1 = a_worst_gen a2 /\
      a_gen_num a1 = a_gen_num a2 /\ a_final a1 = a_final a2 /\ Forall2 event_alike (a_trace a1) (a_trace a2)
  end.

(** The same values with the opposite sign. *)
Definition negated (ev : genome -> res fval) (g : genome) : res fval :=
  match ev g with Ok (VNum x) => Ok (VNum (nneg x)) | r => r end.
