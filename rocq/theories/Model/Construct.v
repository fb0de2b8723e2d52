(** * Construction of subpopulations.

    Cites: eckity/subpopulation.py 64-138. *)
From Verif.Model Require Export Evolution Double.
Open Scope nat_scope.
Open Scope list_scope.

Definition of_count (n : nat) : Q := inject_Z (Z.of_nat n).

(** subpopulation.py 130: [round(elitism_rate * self.population_size)]; the integer is converted to a float first. *)
Definition n_elite_of (rate : Q) (size : nat) : Z := round_even (dmul rate (double (of_count size))).

(** subpopulation.py 96-97 *)
Definition default_pcr (cs : list creator) : list Q := map (fun _ => ddiv 1 (of_count (length cs))) cs.

(** subpopulation.py 110-119: TournamentSelection(tournament_size=10), drawing with replacement. *)
Definition default_selections : list selection := [SelTournament 10 true 1].

(** subpopulation.py 64-138.  [sum] is the built-in of the Python version; a single creator is a list of one.  Type checks of
    the arguments are not modelled.  A negative elite count is stored as 0: it is only used if positive. *)
Definition subpopulation_init (sum : list Q -> Q) (creators : option (list creator)) (pcr : option (list Q))
  (ops : option (list oper)) (sels : option (list selection)) (rate : Q) (size : nat) (inds : option (list oid)) (hib : hibv)
  : res subpop :=
  match creators with
  | None => Raise ValueError
  | Some [] => Raise ValueError
  | Some cs =>
      let p := match pcr with None => default_pcr cs | Some p => p end in
      if negb (length cs =? length p) then Raise ValueError
      else if negb (Qeq_bool (sum p) 1) then Raise ValueError
      else match ops with
           | None => Raise ValueError
           | Some ops' =>
               Ok (mkSub cs (map Fin p) ops' (match sels with None => default_selections | Some l => l end) size hib
                         (Z.to_nat (n_elite_of rate size)) inds)
           end
  end.
