(** The crowding checker answers in every multi-objective population (C71). *)
From Verif.Proofs Require Export MooCheckP.
From Verif.Spec Require Import CompleteSpec Nsga2Spec.
From Verif.Model Require Import Num Fitness Tree World Nsga2.
Open Scope nat_scope.
Open Scope list_scope.

Lemma crowding_terminate_total t css : css <> [] -> exists b, crowding_terminate t css = Ok b.
Proof. destruct css; [congruence|]. intros _. eexists. reflexivity. Qed.

Lemma crowding_answers t : moo_answers (crowding_checker t).
Proof.
  intros m pop hp best gen Np _ H. set (w := mkWorld hp 0 (tape [])).
  destruct (populations_read w pop) as (css & E & F).
  { intros s o Hs Ho. destruct (H o) as (_ & i & A & C); [apply in_flat_map; eauto|]. exists (ft_crowding (i_fit i)), i. auto. }
  destruct (crowding_terminate_total t css) as (b & Eb); [intros ->; inversion F; congruence|].
  exists b, m. unfold crowding_checker. change hp with (w_heap w). rewrite E. cbn [rbind]. rewrite Eb. reflexivity.
Qed.
