(** * Vocabulary for identity and lineage of individuals. *)
From Verif.Model Require Import World.
Open Scope Z_scope.

Definition ids (w : world) : list Z := map i_id (w_heap w).

(** All ids differ and lie below the class counter; [cloned_from] is -1 or the smaller id of an existing individual; every
    recorded parent is an existing individual.  (The heap holds every individual ever created.) *)
Record lineage_ok (w : world) : Prop := {
  lin_unique : NoDup (ids w);
  lin_range : forall id, In id (ids w) -> 0 <= id < w_next_id w;
  lin_cloned : forall i, In i (w_heap w) ->
    i_cloned_from i = -1 \/ (i_cloned_from i < i_id i /\ In (i_cloned_from i) (ids w));
  lin_parents : forall i p, In i (w_heap w) -> In p (i_parents i) -> In p (ids w);
  lin_next : 0 <= w_next_id w
}.

(** What user code and the library do to individuals, as a sequence of calls; a call that raises does not stop the
    sequence. *)
From Verif.Model Require Import Evolution.

Inductive call :=
| CallNew (f : fitness) (upd : bool) (g : genome)
| CallCreate (c : creator) (n : nat) (h : hibv)
| CallClone (o : oid)
| CallApply (op : oper) (inds : list oid)
| CallElitism (n : nat) (rev : bool) (source dest : list oid)
| CallSelect (s : selection) (source dest : list oid)
| CallBreed (s : subpop)
| CallEvaluate (ev : genome -> res fval) (sched : nat -> list nat) (m : exec_method) (alive : bool) (inds : list oid)
| CallSetFitness (o : oid) (v : fval)
| CallReset (o : oid)
| CallSetGenome (o : oid) (g : genome)
| CallSetGen (o : oid) (n : nat).

Definition run_call (c : call) (w : world) : world :=
  match c with
  | CallNew f upd g => snd (new_individual f upd g w)
  | CallCreate c n h => snd (create_individuals c n h w)
  | CallClone o => snd (clone o w)
  | CallApply op inds => snd (apply_operator op inds w)
  | CallElitism n rev source dest => snd (elitism_select n rev source dest w)
  | CallSelect s source dest => snd (select s source dest w)
  | CallBreed s => snd (breed_subpop s w)
  | CallEvaluate ev sched m alive inds => snd (evaluate_inds ev sched m alive inds w)
  | CallSetFitness o v => snd (ind_set_fitness o v w)
  | CallReset o => snd (set_fitness_not_evaluated o w)
  | CallSetGenome o g => snd (put_genome o g w)
  | CallSetGen o n => snd (modify o (set_gen n) w)
  end.

Definition run_calls_on (cs : list call) (w : world) : world := fold_left (fun w c => run_call c w) cs w.
