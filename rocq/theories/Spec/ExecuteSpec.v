(** * Vocabulary for the use of the result of a run. *)
From Verif.Model Require Import Execute World Tree Evolution.
Open Scope list_scope.

(** The fitness function looks at an individual only by executing it on the given cases. *)
Definition judged_by {val} (fsem : func -> list val -> res val) (const : tval -> val) (cases : list (list (string * val)))
    (score : list (res (outcome val)) -> res num) (ev : genome -> res fval) : Prop :=
  forall g, ev g = rbind (score (map (ind_execute val fsem const g) cases)) (fun x => Ok (VNum x)).
