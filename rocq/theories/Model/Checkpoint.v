(** * A population written to a file and read back in another process.

    Cites: eckity/individual.py 39, 55-57 (the counter of ids is a class attribute, which pickle does not write),
    eckity/fitness/simple_fitness.py 152-157.

    Every individual is restored with its fields; its fitness goes through [__getstate__]; the new process counts ids
    from 1 and has its own random generator [g]. *)
From Verif.Model Require Export World.

Definition restore_world (w : world) (g : rng) : world :=
  mkWorld (map (fun i => set_fit (fit_getstate (i_fit i)) i) (w_heap w)) 1%Z g.
