(** The vector properties at the level of [apply_operator], in the form used by Props. *)
From Verif.Proofs Require Export VecCreateP.
From Verif.Spec Require Import WorldSpec VectorSpec.
From Coq Require Import Lqa.

Lemma wp_cases name p apply inds w : present inds w ->
  exists u w1, (0 <= u)%Q /\ (u < 1)%Q /\ gkeep w w1 /\
  ((nle (Fin u) p = false /\ with_probability name p apply inds w = (Ok inds, w1)) \/
   (nle (Fin u) p = true /\
    with_probability name p apply inds w =
      match apply inds w1 with
      | (Ok (Some l), w3) => (iterM (record_applied name inds) l ;;; ret l) w3
      | (Ok None, w3) => (Raise TypeError, w3)
      | (Raise e, w3) => (Raise e, w3)
      end)).
Proof.
  intros Hp. unfold with_probability.
  destruct (random_unit_spec (w_rng w)) as (u & g & E & H0 & H1).
  pose proof (gk_liftR random_unit w) as K1.
  rewrite (bind_eq_ok _ _ _ _ _ (liftR_eq _ _ _ _ E)). rewrite (liftR_eq _ _ _ _ E) in K1. simpl in K1.
  set (w1 := mkWorld (w_heap w) (w_next_id w) g) in *.
  destruct (nle (Fin u) p) eqn:Eu.
  - destruct (resets_ok inds w1 (present_keep _ _ _ K1 Hp)) as (w2 & E2 & K2). rewrite (bind_eq_ok _ _ _ _ _ E2).
    exists u, w2. split; [assumption|]. split; [assumption|]. split; [transitivity w1; assumption|]. right. split; [assumption|].
    unfold bind at 1. destruct (apply inds w2) as [[[l|]|e] w3]; reflexivity.
  - exists u, w1. split; [assumption|]. split; [assumption|]. split; [exact K1|]. left. split; [assumption|reflexivity].
Qed.

Lemma position_mix_refl a b : position_mix a b a b.
Proof. split; [reflexivity|]. split; [reflexivity|]. auto. Qed.

Lemma with_cells_id v : with_cells v (v_cells v) = v.
Proof. destruct v; reflexivity. Qed.

Lemma vec_present w o v : vec_at w o v -> exists i, at_ w o = Some i.
Proof. intros (i & Hi & _). eauto. Qed.

Lemma crossover_op op k a b rest w va vb : op_kind op = OKPoint k -> a <> b -> present rest w ->
  vec_at w a va -> vec_at w b vb -> vsize va = vsize vb -> k < vsize va ->
  exists ca cb w', apply_operator op (a :: b :: rest) w = (Ok (a :: b :: rest), w') /\
    vec_at w' a (with_cells va ca) /\ vec_at w' b (with_cells vb cb) /\
    position_mix (v_cells va) (v_cells vb) ca cb.
Proof.
  intros Hk Hne Hr Ha Hb Hs Hlt. unfold apply_operator.
  assert (Hp : present (a :: b :: rest) w).
  { intros o [<-|[<-|Ho]]; [eapply vec_present; eauto|eapply vec_present; eauto|auto]. }
  destruct (wp_cases (okind_name (op_kind op)) (op_prob op) (op_apply op) _ w Hp)
    as (u & w1 & _ & _ & K1 & [(_ & ->)|(_ & ->)]).
  - exists (v_cells va), (v_cells vb), w1. split; [reflexivity|]. rewrite !with_cells_id.
    split; [eapply vec_keep; eauto|]. split; [eapply vec_keep; eauto|]. apply position_mix_refl.
  - unfold op_apply. rewrite Hk.
    destruct (kpoint_ok k a b rest w1 va vb Hne (vec_keep _ _ _ _ K1 Ha) (vec_keep _ _ _ _ K1 Hb) Hs Hlt)
      as (pts & ca & cb & w2 & E & _ & _ & _ & _ & Ha2 & Hb2 & Hm & F).
    unfold bind at 1. rewrite E. unfold ret at 1.
    assert (Hp2 : present (a :: b :: rest) w2).
    { intros o Ho. destruct (Nat.eq_dec o a) as [->|Na]; [eapply vec_present; eauto|].
      destruct (Nat.eq_dec o b) as [->|Nb]; [eapply vec_present; eauto|].
      destruct (present_keep _ _ _ K1 Hp o Ho) as (i & Hi). destruct F as [_ F].
      rewrite F; [eauto|eapply at_lt; eauto|intros [?|?]; contradiction]. }
    destruct (records_ok (okind_name (OKPoint k)) _ _ w2 Hp2 Hp2) as (w3 & E3 & K3).
    rewrite (bind_eq_ok _ _ _ _ _ E3). exists ca, cb, w3. split; [reflexivity|].
    split; [eapply vec_keep; eauto|]. split; [eapply vec_keep; eauto|assumption].
Qed.

Lemma crossover_in_box op k a b rest w va vb : op_kind op = OKPoint k -> a <> b -> present rest w ->
  vec_at w a va -> vec_at w b vb -> vsize va = vsize vb -> k < vsize va ->
  forall bd, in_box bd (v_cells va) -> in_box bd (v_cells vb) ->
  exists va' vb' w', apply_operator op (a :: b :: rest) w = (Ok (a :: b :: rest), w') /\
    vec_at w' a va' /\ vec_at w' b vb' /\ vsize va' = vsize va /\ vsize vb' = vsize vb /\
    in_box bd (v_cells va') /\ in_box bd (v_cells vb').
Proof.
  intros Hk Hne Hr Ha Hb Hs Hlt bd Ba Bb.
  destruct (crossover_op op k a b rest w va vb Hk Hne Hr Ha Hb Hs Hlt) as (ca & cb & w' & E & Va & Vb & Hm).
  exists (with_cells va ca), (with_cells vb cb), w'. split; [exact E|]. split; [exact Va|]. split; [exact Vb|].
  pose proof Hm as (L1 & L2 & _). split; [exact L1|]. split; [exact L2|]. eapply mix_in_box; eauto.
Qed.

Lemma one_point_op op a b rest w va vb : op_kind op = OKPoint 1 -> a <> b -> present rest w ->
  nle (Fin 1) (op_prob op) = true ->
  vec_at w a va -> vec_at w b vb -> vsize va = vsize vb -> 2 <= vsize va ->
  exists p w', 1 <= p < vsize va /\ apply_operator op (a :: b :: rest) w = (Ok (a :: b :: rest), w') /\
    vec_at w' a (with_cells va (firstn p (v_cells vb) ++ skipn p (v_cells va))) /\
    vec_at w' b (with_cells vb (firstn p (v_cells va) ++ skipn p (v_cells vb))).
Proof.
  intros Hk Hne Hr Hpr Ha Hb Hs Hlt. unfold apply_operator.
  assert (Hp : present (a :: b :: rest) w).
  { intros o [<-|[<-|Ho]]; [eapply vec_present; eauto|eapply vec_present; eauto|auto]. }
  destruct (wp_cases (okind_name (op_kind op)) (op_prob op) (op_apply op) _ w Hp)
    as (u & w1 & U0 & U1 & K1 & [(N & _)|(_ & ->)]).
  - rewrite (unit_le u _ U1 Hpr) in N. discriminate.
  - unfold op_apply. rewrite Hk.
    destruct (kpoint_ok 1 a b rest w1 va vb Hne (vec_keep _ _ _ _ K1 Ha) (vec_keep _ _ _ _ K1 Hb) Hs) as
      (pts & ca & cb & w2 & E & Lp & _ & Hin & Hsw & Ha2 & Hb2 & Hm & F); [lia|].
    unfold bind at 1. rewrite E. unfold ret at 1.
    assert (Hp2 : present (a :: b :: rest) w2).
    { intros o Ho. destruct (Nat.eq_dec o a) as [->|Na]; [eapply vec_present; eauto|].
      destruct (Nat.eq_dec o b) as [->|Nb]; [eapply vec_present; eauto|].
      destruct (present_keep _ _ _ K1 Hp o Ho) as (i & Hi). destruct F as [_ F].
      rewrite F; [eauto|eapply at_lt; eauto|intros [?|?]; contradiction]. }
    destruct (records_ok (okind_name (OKPoint 1)) _ _ w2 Hp2 Hp2) as (w3 & E3 & K3).
    rewrite (bind_eq_ok _ _ _ _ _ E3).
    destruct pts as [|p [|? ?]]; simpl in Lp; try lia.
    assert (Hpp : 1 <= p < vsize va) by (apply Hin; simpl; auto).
    rewrite one_point in Hsw; [|exact Hs|exact Hpp]. injection Hsw as <- <-.
    exists p, w3. split; [exact Hpp|]. split; [reflexivity|].
    split; eapply vec_keep; eauto.
Qed.

(** With two individuals per application, retries can change more than [n] cells of the first one. *)
Definition unit_box : vec := mkVec KFloat (BPair (Fin 0) (Fin 1)) 3 [Fin 0; Fin 0; Fin 0].

Lemma unit_box_sound : sound_vec unit_box.
Proof.
  split; [reflexivity|]. split; [exists 0%Q, 1%Q; split; [reflexivity|lra]|]. split; [intros H; contradiction H; reflexivity|].
  split; [exact I|]. intros i x Hx. exists (Fin 0), (Fin 1). split; [reflexivity|].
  apply nth_error_In in Hx. destruct Hx as [<-|[<-|[<-|[]]]]; split; reflexivity.
Qed.

Lemma arity_two_wrong : exists op m n inds w w' o v v',
  op_kind op = OVecMut m n /\ finite_params m /\ counts m n /\ all_sound inds w /\ In o inds /\ vec_at w o v /\
  apply_operator op inds w = (Ok inds, w') /\ vec_at w' o v' /\ ~ differ_at_most n (v_cells v) (v_cells v').
Proof.
  exists (mkOper (OVecMut (MGaussOne (Fin 0) (Fin 1)) 1) (Fin 1) 2 2), (MGaussOne (Fin 0) (Fin 1)), 1, [0; 1],
    (mkWorld [plain_ind 0 (GVec unit_box); plain_ind 1 (GVec unit_box)] 2
       (tape [mkDraw 0 0; mkDraw 0 0; mkDraw 0 (1 # 2); mkDraw 0 0; mkDraw 0 5; mkDraw 1 0; mkDraw 0 (1 # 2); mkDraw 0 0;
             mkDraw 0 (1 # 4)])).
  eexists. exists 0, unit_box. eexists.
  split; [reflexivity|]. split; [split; reflexivity|]. split; [reflexivity|].
  split. { intros o [<-|[<-|[]]]; exists unit_box; (split; [eexists; split; reflexivity|apply unit_box_sound]). }
  split; [left; reflexivity|]. split; [eexists; split; reflexivity|].
  split; [vm_compute; reflexivity|]. split; [eexists; split; reflexivity|].
  intros (_ & ps & Hl & H).
  assert (H0 : In 0 ps). { destruct (in_dec Nat.eq_dec 0 ps) as [|N]; auto. apply H in N. discriminate. }
  assert (H1 : In 1 ps). { destruct (in_dec Nat.eq_dec 1 ps) as [|N]; auto. apply H in N. discriminate. }
  destruct ps as [|x [|y ps]]; simpl in *; try lia.
Qed.

Lemma nflip_default op p o w v : op_kind op = OVecMut (MBitNFlip p) 1 -> vec_at w o v -> bit_string v ->
  exists v', vec_at (snd (apply_operator op [o] w)) o v' /\ differ_at_most 1 (v_cells v) (v_cells v').
Proof.
  intros Hk Hv Hb. eapply mutation_at_most; eauto; [exact I|exact I|apply bit_sound; assumption].
Qed.

Lemma bits_at_most op m n o w v : op_kind op = OVecMut m n -> bit_mut m -> vec_at w o v -> bit_string v ->
  exists v', vec_at (snd (apply_operator op [o] w)) o v' /\ differ_at_most n (v_cells v) (v_cells v').
Proof.
  intros Hk Hm Hv Hb. eapply mutation_at_most; eauto; [destruct m; simpl in *; tauto|destruct m; simpl in *; tauto|apply bit_sound; assumption].
Qed.

Lemma creators_ok len b k fc upd n h w : creatable len b k ->
  exists l w', create_vectors len b k fc upd n h w = (Ok l, w') /\
    length l = n /\ NoDup l /\ (forall o, In o l -> length (w_heap w) <= o) /\
    frame (fun _ => False) w w' /\
    forall o, In o l -> newborn w' o fc h upd /\
      exists v, vec_at w' o v /\ v_kind v = k /\ v_bounds v = b /\ v_length v = len /\ vsize v = len /\
                in_box b (v_cells v) /\ (k <> KFloat -> Forall integral (v_cells v)).
Proof.
  intros Hc. destruct (create_vectors_ok len b k fc upd n h w Hc) as (l & w' & E & L & N & Fr & F & H).
  exists l, w'. repeat (split; [assumption|]). intros o Ho. destruct (H o Ho) as (i & Hi & Hf & Hu & Hgen & c & Hg & Lc & Bc & Ic).
  split.
  - exists i. repeat split; assumption.
  - exists (mkVec k b len c). split; [exists i; auto|]. repeat split; assumption.
Qed.
