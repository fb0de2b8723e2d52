(** * Vocabulary for the multi-objective statistics of a run. *)
From Verif.Spec Require Import WorldSpec Nsga2Spec CompleteSpec.
From Verif.Model Require Import Num Fitness World Statistics MooStat.
Open Scope nat_scope.
Open Scope list_scope.

(** What is written in generation [g]: between 1 and [size] members of the first front, one or two different corners of the
    first and of the last front, all of them objectives of genomes; and after it what [n] objects of the minimal statistics write. *)
Definition fronts_block (G : genome -> Prop) (ev : genome -> res fval) (size n g : nat) (ls : list line) : Prop :=
  exists rank count first lst,
    ls = [LGeneration g; LSubpop 0; LValues [VNum rank; VNum (nof_nat count)]; LValues (map VList first); LValues (map VList lst)] ++ repeat (LGeneration g) n /\
    1 <= count <= size /\ 1 <= length first <= 2 /\ 1 <= length lst <= 2 /\
    (exists k, rank = rank_number (S k)) /\
    forall p, In p first \/ In p lst -> exists x, G x /\ ev x = Ok (VList p).

(** [p] are the objectives of a member with this rank and infinite crowding distance. *)
Definition corner_of (w : world) (l : list oid) (rank : num) (p : list num) : Prop :=
  exists o i, In o l /\ at_ w o = Some i /\ ft_value (i_fit i) = VList p /\ neq_num (ft_rank (i_fit i)) rank = true /\ neq_num (ft_crowding (i_fit i)) PInf = true.

(** What is written about one subpopulation. *)
Definition fronts_lines (w : world) (index : nat) (l : list oid) (ls : list line) : Prop :=
  exists rank count first lst,
    ls = [LSubpop index; LValues [VNum rank; VNum (nof_nat count)]; LValues (map VList first); LValues (map VList lst)] /\
    (exists o i, In o l /\ at_ w o = Some i /\ ft_rank (i_fit i) = rank) /\
    1 <= length first <= 2 /\ 1 <= length lst <= 2 /\ Forall (corner_of w l (Fin 1)) first /\ Forall (corner_of w l rank) lst.
