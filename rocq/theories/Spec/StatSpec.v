(** * Vocabulary for subscribers and statistics. *)
From Coq Require Import QArith.
From Verif.Model Require Import Statistics.
From Verif.Spec Require Import WorldSpec FitnessSpec SelSpec EvoSpec.
Open Scope nat_scope.
Open Scope list_scope.

(** A callback that changes neither the algorithm nor an individual nor the random generators; it may write and raise. *)
Definition only_reads (cb : told -> O unit) : Prop := forall d s out, exists ls, snd (cb d (s, out)) = (s, out ++ ls).

(** In state [s] some callback of the user or some statistics object raises [e]. *)
Definition subscriber_raises (user : string -> list (told -> O unit)) (stats : list stat) (e : exn) (s : est) : Prop :=
  (exists name cb d out, In cb (user name) /\ fst (cb d (s, out)) = Raise e) \/
  (exists k out, In k stats /\ fst (write_statistics k (s, out)) = Raise e).

(** The individual has this fitness value, and this size. *)
Definition pure_at (w : world) (o : oid) (v : fval) : Prop := exists i, at_ w o = Some i /\ get_pure_fitness (i_fit i) = Ok v.
Definition size_at (w : world) (o : oid) (n : nat) : Prop := exists i, at_ w o = Some i /\ genome_size (i_genome i) = n.

(** The arithmetic mean of [q] over [l]. *)
Definition mean (q : oid -> Q) (l : list oid) (a : num) : Prop :=
  exists x, a = Fin x /\ (x * inject_Z (Z.of_nat (length l)) == fold_right (fun o y => q o + y) 0 l)%Q.

(** What a statistics object writes about the individuals [l] in generation [g]: the fitness of the first best and of the
    first worst individual by augmented fitness, the mean of the fitness values if all of them are finite, and the mean of
    the sizes. *)
Definition report (h : bool) (w : world) (g : nat) (l : list oid) (k : stat) (ls : list line) : Prop :=
  match k with
  | SMinimal => ls = [LGeneration g]
  | _ => exists score b c vb vc avg sizes,
      (forall o, In o l -> scored w o (score o)) /\
      first_best h score l b /\ pure_at w b vb /\
      first_best (negb h) score l c /\ pure_at w c vc /\
      (forall q, (forall o, In o l -> pure_at w o (VNum (Fin (q o)))) -> mean q l avg) /\
      match k with
      | SSizeTree => exists x, sizes = [VNum x] /\
          forall n, (forall o, In o l -> size_at w o (n o)) -> mean (fun o => inject_Z (Z.of_nat (n o))) l x
      | _ => sizes = []
      end /\
      ls = [LGeneration g; LSubpop 0; LValues ([vb; vc; VNum avg] ++ sizes)]
  end.

(** The reports of all statistics about generations with their individuals. *)
Inductive reports (h : bool) (w : world) (stats : list stat) : list (nat * list oid) -> list line -> Prop :=
| rep_nil : reports h w stats [] []
| rep_cons g l rest blocks out : Forall2 (report h w g l) stats blocks -> reports h w stats rest out ->
    reports h w stats ((g, l) :: rest) (concat blocks ++ out).
