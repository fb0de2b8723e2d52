(** * Vocabulary for statements about the object heap. *)
From Verif.Model Require Import World.

(** The object [o] refers to. *)
Definition at_ (w : world) (o : oid) : option ind := nth_error (w_heap w) o.

(** All objects outside [X] that existed before are as they were, and none disappeared. *)
Definition frame (X : oid -> Prop) (w w' : world) : Prop :=
  length (w_heap w) <= length (w_heap w') /\
  forall o, o < length (w_heap w) -> ~ X o -> at_ w' o = at_ w o.

(** [o] is an individual with vector [v], respectively tree [t]. *)
Definition vec_at (w : world) (o : oid) (v : vec) : Prop :=
  exists i, at_ w o = Some i /\ i_genome i = GVec v.
Definition tree_at (w : world) (o : oid) (t : tree) : Prop :=
  exists i, at_ w o = Some i /\ i_genome i = GTree t.

(** The individual has no usable fitness. *)
Definition unevaluated (w : world) (o : oid) : Prop :=
  exists i, at_ w o = Some i /\ ft_evaluated (i_fit i) = false.

(** A fitness object of class [c] and direction [h] before the first evaluation. *)
Definition unmeasured (c : fclass) (h : hibv) : fitness := mkFit c VNone false h false false (Fin 0) PInf.

(** A new individual. *)
Definition newborn (w : world) (o : oid) (c : fclass) (h : hibv) (upd : bool) : Prop :=
  exists i, at_ w o = Some i /\ i_fit i = unmeasured c h /\ i_update_parents i = upd /\ i_gen i = 0.

(** All the references are valid. *)
Definition present (inds : list oid) (w : world) : Prop := forall o, In o inds -> exists i, at_ w o = Some i.

(** A random generator whose next draws are the listed ones (for examples and witnesses). *)
Definition tape (l : list draw) : rng :=
  let d i := match nth_error l i with Some x => x | None => mkDraw 0 0 end in
  mkRng (fun _ i => d i) (fun _ i => d i) 0 0 0 0.

(** An individual with this id and genome, and otherwise default attributes. *)
Definition plain_ind (id : Z) (g : genome) : ind :=
  mkInd id 0 (mkFit KSimple VNone false (HB true) false false (Fin 0) PInf) (-1)%Z [] [] false [] g.

(** The cells of a vector individual (for examples). *)
Definition cells_at (w : world) (o : oid) : option (list num) :=
  match at_ w o with
  | Some i => match i_genome i with GVec v => Some (v_cells v) | GTree _ => None end
  | None => None
  end.
