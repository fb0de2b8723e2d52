(** Proofs about populations read back in another process. *)
From Verif.Proofs Require Import Lib.
From Verif.Spec Require Import WorldSpec IndSpec.
From Verif.Model Require Import Checkpoint.

Lemma population_restored w g o i : at_ w o = Some i ->
  exists i', at_ (restore_world w g) o = Some i' /\ i_id i' = i_id i /\ i_gen i' = i_gen i /\ i_genome i' = i_genome i /\
    i_parents i' = i_parents i /\ i_cloned_from i' = i_cloned_from i /\ i_selected_by i' = i_selected_by i /\ i_applied i' = i_applied i /\
    (ft_cache (i_fit i) = true -> i_fit i' = i_fit i) /\
    (ft_cache (i_fit i) = false -> ft_evaluated (i_fit i') = false /\ ft_value (i_fit i') = VNone /\ ft_hib (i_fit i') = ft_hib (i_fit i)).
Proof.
  intros H. eexists. unfold at_, restore_world in *. cbn [w_heap]. rewrite nth_error_map, H. split; [reflexivity|].
  cbn. unfold fit_getstate. repeat (split; [reflexivity|]). split; intros E; rewrite E; [reflexivity|]. repeat split.
Qed.

Lemma ids_repeat : exists w, NoDup (ids w) /\ (forall z, In z (ids w) -> (1 <= z < w_next_id w)%Z) /\
  forall g f u gn, ~ NoDup (ids (snd (new_individual f u gn (restore_world w g)))).
Proof.
  exists (mkWorld [plain_ind 1 (GTree (mkTree [] [] None None []))] 2%Z (tape [])).
  split; [repeat constructor; intros []|]. split; [cbn; intros z [<-|[]]; split; reflexivity || discriminate|].
  intros g f u gn H. cbn in H. inversion H as [|? ? N _]; subst. apply N. left. reflexivity.
Qed.
