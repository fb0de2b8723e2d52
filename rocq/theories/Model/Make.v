(** * Constructors of operators, selections and creators, with their default arguments.

    Cites: eckity/genetic_operators/mutations/vector_random_mutation.py 24-330, vector_n_point_mutation.py 40-70,
    subtree_mutation.py 11-24, erc_mutation.py 10-22, identity_transformation.py 4-16,
    crossovers/vector_k_point_crossover.py 10-34, subtree_crossover.py 10-20, failable_operator.py 30-42,
    selections/tournament_selection.py 10-37, creators/ga_creators/*.py, creators/gp_creators/tree_creator.py 19-50,
    grow.py 15-60, full.py 13-50, half.py 11-81.

    Simplifications: arguments are given by keyword; those that are functions (gene_creator, cell_selector, ...) are not given;
    events are the subject of [Listeners]; numbers are exact. *)
From Verif.Model Require Export Operators Selection Creators.
Open Scope nat_scope.
Open Scope string_scope.
Open Scope list_scope.

Inductive op_name :=
| NKPoints | NBase | NUniformOne | NUniformN | NGaussOne | NGaussN | NIntOne | NIntN | NBitFlip | NBitNFlip
| NSubtreeXO | NSubtreeMut | NErc | NIdentity.

(** The keyword arguments of a call; None: not given. *)
Record op_args := mkOA {
  oa_probability : option num;
  oa_arity : option nat;
  oa_n : option nat;
  oa_k : option nat;
  oa_mu : option num;
  oa_sigma : option num;
  oa_each : option num;                (* probability_for_each *)
  oa_attempts : option Z;
  oa_depth : option (nat * nat)        (* init_depth *)
}.

Definition no_args : op_args := mkOA None None None None None None None None None.

Definition or_else {X} (a : option X) (d : X) : X := match a with Some x => x | None => d end.

(** The names of the arguments that are given. *)
Definition keywords_of (a : op_args) : list string :=
  (match oa_probability a with Some _ => ["probability"] | None => [] end ++
   match oa_arity a with Some _ => ["arity"] | None => [] end ++
   match oa_n a with Some _ => ["n"] | None => [] end ++
   match oa_k a with Some _ => ["k"] | None => [] end ++
   match oa_mu a with Some _ => ["mu"] | None => [] end ++
   match oa_sigma a with Some _ => ["sigma"] | None => [] end ++
   match oa_each a with Some _ => ["probability_for_each"] | None => [] end ++
   match oa_attempts a with Some _ => ["attempts"] | None => [] end ++
   match oa_depth a with Some _ => ["init_depth"] | None => [] end).

(** The parameters of [__init__] *)
Definition parameters_of (c : op_name) : list string :=
  match c with
  | NKPoints => ["probability"; "arity"; "k"]
  | NBase => ["n"; "probability"; "arity"; "attempts"]
  | NUniformOne | NBitFlip => ["probability"; "arity"]
  | NUniformN | NIntN => ["n"; "probability"; "arity"]
  | NGaussOne => ["probability"; "arity"; "mu"; "sigma"; "attempts"]
  | NGaussN => ["n"; "probability"; "arity"; "mu"; "sigma"; "attempts"]
  | NIntOne => ["probability"; "arity"; "probability_for_each"]
  | NBitNFlip => ["probability"; "arity"; "probability_for_each"; "n"]
  | NSubtreeXO => ["probability"; "arity"; "attempts"]
  | NSubtreeMut => ["arity"; "probability"; "init_depth"; "attempts"]
  | NErc => ["probability"; "arity"; "mu"; "sigma"]
  | NIdentity => ["probability"]
  end%string.

(** A subclass of FailableOperator with this default number of attempts. *)
Definition failable_new (k : okind) (p : num) (ar : nat) (attempts : Z) : res oper :=
  rbind (failable_init attempts) (fun n => Ok (mkOper k p ar n)).

(** A call of the class.  An unknown keyword is a TypeError.  SubtreeMutation takes an arity and ignores it; the attempts of a
    k-point crossover and of the identity, which are not failable, are set to 1 and not used. *)
Definition new_operator (c : op_name) (a : op_args) : res oper :=
  if negb (forallb (fun k => existsb (String.eqb k) (parameters_of c)) (keywords_of a)) then Raise TypeError
  else
    let p := or_else (oa_probability a) (Fin 1) in
    let ar := or_else (oa_arity a) in
    let n := or_else (oa_n a) 1 in
    let mu := or_else (oa_mu a) (Fin 0) in
    let sigma := or_else (oa_sigma a) (Fin 1) in
    match c with
    | NKPoints => Ok (mkOper (OKPoint (or_else (oa_k a) 1)) p (ar 2) 1)
    | NBase => failable_new (OVecMut MBase n) p (ar 1) (or_else (oa_attempts a) 5%Z)
    | NUniformOne => failable_new (OVecMut MUniformOne 1) p (ar 1) 5
    | NUniformN => failable_new (OVecMut MUniformN n) p (ar 1) 5
    | NGaussOne => failable_new (OVecMut (MGaussOne mu sigma) 1) p (ar 1) (or_else (oa_attempts a) 5%Z)
    | NGaussN => failable_new (OVecMut (MGaussN mu sigma) n) p (ar 1) (or_else (oa_attempts a) 5%Z)
    | NIntOne => failable_new (OVecMut (MIntOne (or_else (oa_each a) (Fin (1 # 10)))) 1)
                              (or_else (oa_probability a) (Fin (1 # 2))) (ar 1) 5
    | NIntN => failable_new (OVecMut MIntN n) p (ar 1) 5
    | NBitFlip => failable_new (OVecMut MBitFlip 1) p (ar 1) 5
    | NBitNFlip => failable_new (OVecMut (MBitNFlip (or_else (oa_each a) (Fin (1 # 5)))) n) p (ar 1) 5
    | NSubtreeXO => failable_new OSubtreeXO p (ar 2) (or_else (oa_attempts a) 1%Z)
    | NSubtreeMut => match or_else (oa_depth a) (2, 4) with
                     | (mn, mx) => failable_new (OSubtreeMut mn mx) p 1 (or_else (oa_attempts a) 1%Z)
                     end
    | NErc => failable_new (OErc mu sigma) p (ar 1) 1
    | NIdentity => Ok (mkOper OIdentity p 1 1)
    end.

(** A sequence of calls; the first exception ends it. *)
Definition new_operators (calls : list (op_name * op_args)) : res (list oper) :=
  rmap (fun ca => new_operator (fst ca) (snd ca)) calls.

(** tournament_selection.py 10-37; the arity of selections is the default 1 (event_based_operator.py 12). *)
Definition new_tournament (size : nat) (replace : option bool) : selection := SelTournament size (or_else replace true) 1.

(** GABitStringVectorCreator, GAFloatVectorCreator, GAIntVectorCreator; they take no fitness_type. *)
Definition new_vector_creator (k : vkind) (length : option nat) (b : option bounds) (upd : option bool) : creator :=
  CVector (or_else length 1) (or_else b (BPair (Fin 0) (Fin 1))) k KSimple (or_else upd false).

(** The arguments of the tree creators; [ga_terminals]: with types or without. *)
Record gp_args := mkGA {
  ga_depth : option (nat * nat);
  ga_functions : option (list func);
  ga_terminals : option (list (tval * option ty) * bool);
  ga_bloat : option num;
  ga_erc : option erc;
  ga_root : option ty;
  ga_upd : option bool;
  ga_prune : option num
}.

(** tree_creator.py 31-50, grow.py 46-57 *)
Definition gp_params_of (a : gp_args) : res gp_params :=
  match ga_functions a, ga_terminals a with
  | None, _ => Raise ValueError
  | _, None => Raise ValueError
  | Some fs, Some (ts, typed) =>
      match or_else (ga_depth a) (2, 4) with
      | (mn, mx) => Ok (mkGP mn mx fs ts typed (ga_erc a) (or_else (ga_bloat a) (Fin 0)) (ga_root a)
                             (or_else (ga_upd a) false) (or_else (ga_prune a) (Fin (1 # 2))))
      end
  end.

Definition new_grow (a : gp_args) : res creator := rbind (gp_params_of a) (fun p => Ok (CGP Grow p)).

(** FullCreator has no p_prune, HalfCreator neither this nor update_parents. *)
Definition new_full (a : gp_args) : res creator :=
  match ga_prune a with Some _ => Raise TypeError | None => rbind (gp_params_of a) (fun p => Ok (CGP Full p)) end.
Definition new_half (a : gp_args) : res creator :=
  match ga_prune a, ga_upd a with
  | None, None => rbind (gp_params_of a) (fun p => Ok (half_creator p))
  | _, _ => Raise TypeError
  end.
