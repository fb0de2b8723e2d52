(** * What one application of an operator can lead to. *)
From Coq Require Import Lia Permutation QArith Sorted.
From Verif.Model Require Import Num Rng Vector Tree World Creators Operators.
From Verif.Spec Require Import WorldSpec VectorSpec TreeSpec SelSpec PressureSpec ReachSpec MoveSpec.
From Verif.Proofs Require Import Lib WorldP VectorP VecOpP VecFinalP VecEffectP VecCreateP TreeP TreeCreateP TreeExecP TreeOpP PressureP ReachP ReachVecP.
From Verif.Model Require Import Num Rng Vector Tree World Creators Operators.
Open Scope nat_scope.
Open Scope list_scope.

(** ** Computations on the heap, steered by the numbers ahead *)

Definition goes {A} (P : world -> Prop) (m : M A) (ds : list N) (x : A) (Q : world -> Prop) : Prop :=
  forall w, P w -> ahead (w_rng w) ds -> exists w', m w = (Ok x, w') /\ w_rng w' = advance (length ds) (w_rng w) /\ Q w'.

Lemma goes_bind {A B} P (m : M A) ds x Q (k : A -> M B) ds' y T :
  goes P m ds x Q -> goes Q (k x) ds' y T -> goes P (z <- m ;; k z) (ds ++ ds') y T.
Proof.
  intros H1 H2 w Pw U. apply ahead_app in U. destruct U as [U1 U2]. destruct (H1 w Pw U1) as (w1 & E1 & R1 & Q1).
  rewrite <- R1 in U2. destruct (H2 w1 Q1 U2) as (w2 & E2 & R2 & T2). exists w2. rewrite (bind_eq_ok _ _ _ _ _ E1). split; [exact E2|].
  split; [|exact T2]. rewrite R2, R1, advance_advance, app_length. reflexivity.
Qed.

Lemma goes_bind0 {A B} P (m : M A) x Q (k : A -> M B) ds y T :
  goes P m [] x Q -> goes Q (k x) ds y T -> goes P (z <- m ;; k z) ds y T.
Proof. intros H1 H2. exact (goes_bind P m [] x Q k ds y T H1 H2). Qed.

Lemma goes_bind1 {A B} P (m : M A) ds x Q (k : A -> M B) y T :
  goes P m ds x Q -> goes Q (k x) [] y T -> goes P (z <- m ;; k z) ds y T.
Proof. intros H1 H2. rewrite <- (app_nil_r ds). eapply goes_bind; eauto. Qed.

Lemma goes_ret {A} P (x : A) : goes P (ret x) [] x P.
Proof. intros w Pw _. exists w. split; [reflexivity|]. split; [symmetry; apply advance_0|exact Pw]. Qed.

Lemma goes_liftR {A} (P : world -> Prop) (m : R A) ds x : (forall w g, P w -> P (with_rng w g)) -> emits m ds x -> goes P (liftR m) ds x P.
Proof.
  intros HP H w Pw U. rewrite (liftR_eq _ _ _ _ (H _ U)). eexists. split; [reflexivity|]. split; [reflexivity|]. apply (HP w _ Pw).
Qed.

Lemma goes_iterM {A} P (f : A -> M unit) l : (forall a, In a l -> goes P (f a) [] tt P) -> goes P (iterM f l) [] tt P.
Proof.
  induction l as [|a l IH]; intros H; [apply goes_ret|]. simpl. eapply goes_bind0; [apply H; left; reflexivity|].
  apply IH. intros b Hb. apply H. right. exact Hb.
Qed.

Lemma vec_at_rng w g o v : vec_at w o v -> vec_at (with_rng w g) o v.
Proof. intros H. exact H. Qed.

Lemma goes_skip {A B} (P : world -> Prop) (m : M A) Q (k : A -> M B) ds y T :
  (forall w, P w -> exists x w', m w = (Ok x, w') /\ w_rng w' = w_rng w /\ Q w') -> (forall x, goes Q (k x) ds y T) -> goes P (z <- m ;; k z) ds y T.
Proof.
  intros H1 H2 w Pw U. destruct (H1 w Pw) as (x & w1 & E1 & R1 & Q1). rewrite <- R1 in U. destruct (H2 x w1 Q1 U) as (w2 & E2 & R2 & T2).
  exists w2. rewrite (bind_eq_ok _ _ _ _ _ E1). split; [exact E2|]. split; [|exact T2]. rewrite R2, R1. reflexivity.
Qed.

(** ** Selecting cells *)

Lemma emits_sample (pool : list nat) k t : NoDup pool -> NoDup t -> length t = k -> (forall i, In i t -> In i pool) ->
  exists ds, emits (sample pool k) ds t.
Proof.
  intros Np Nt L I. assert (Hle : k <= length pool) by (rewrite <- L; apply NoDup_incl_length; [exact Nt|exact I]).
  assert (D : drawn_from false k pool t) by (apply drawn_arrangement; [exact Np|]; apply in_arrangements; split; [exact L|split; [exact I|intros _; exact Nt]]).
  destruct (draws_bijection false k pool Np) as (_ & _ & S). { intros _. exact Hle. }
  destruct (S t D) as (ds & Hd & E). exists (map N.of_nat ds). intros g U. unfold sample.
  assert (length pool <? k = false) as -> by (apply Nat.ltb_ge; exact Hle).
  pose proof (sample_upcoming k pool ds g Hd) as Su. unfold oid in Su. rewrite Su.
  - rewrite E, map_length. destruct Hd as [-> _]. reflexivity.
  - intros i d Hi. apply U. apply map_nth_error. exact Hi.
Qed.

Lemma NoDup_full (pts : list nat) n : NoDup pts -> length pts = n -> (forall i, In i pts -> i < n) -> forall i, i < n -> In i pts.
Proof.
  intros N L H i Hi. assert (I : incl (seq 0 n) pts).
  { apply NoDup_length_incl; [exact N|rewrite seq_length; lia|]. intros j Hj. apply in_seq. specialize (H j Hj). lia. }
  apply I. apply in_seq. lia.
Qed.

(** ** New values *)

Lemma sound_creatable m v : sound_vec v -> draws_inside m v -> creatable (vsize v) (v_bounds v) (v_kind v).
Proof.
  intros (_ & Hp & Hi & _) Hd. split; [exact Hp|]. split; [exact Hi|]. destruct m; cbn in Hd; try contradiction; try exact Hd; intros _; apply Hd.
Qed.

Lemma emits_drawable m v i y : sound_vec v -> draws_inside m v -> (v_kind v = KFloat -> wide (v_bounds v)) -> i < vsize v -> drawable v i y ->
  exists ds, emits (get_random_number_in_bounds v i) ds y.
Proof.
  intros Hs Hd Hw Hi (lo & hi & Eb & Hg). pose proof (sound_creatable m v Hs Hd) as Hc.
  destruct (cell_list_ok _ _ _ Hc Hw) as (L & G & Hb). rewrite Forall_forall in G.
  assert (Hgc : good_cell (v_kind v) (lo, hi)). { apply G. eapply nth_error_In. rewrite <- Hb; [exact Eb|exact Hi]. }
  destruct (cell_bijection _ _ _ Hgc) as (_ & _ & S). destruct (S y Hg) as (d & Hlt & <-). exists [d].
  pose proof (emits_cell _ _ _ i lo hi d (v_cells v) (v_length v) Hc Hw Hi Eb Hlt) as E. rewrite vec_eta in E. exact E.
Qed.

Lemma unit_zero : emits random_unit [0%N] (Fin (0 # two53)).
Proof. exact (emits_unit 0 eq_refl). Qed.
Lemma happens p : can_happen p -> nle (Fin (0 # two53)) p = true.
Proof. unfold can_happen. destruct p as [q| | |]; auto. rewrite !nle_fin. intros H. unfold Qle in *. cbn in *. lia. Qed.
Lemma unit_last : emits random_unit [9007199254740991%N] (Fin (9007199254740991 # 9007199254740992)).
Proof. exact (emits_unit 9007199254740991 eq_refl). Qed.

Lemma cell_value_at v i x : nth_error (v_cells v) i = Some x -> cell_value v i = Ok x.
Proof. unfold cell_value. intros ->. reflexivity. Qed.

Lemma flip_value v i x y : v_kind v = KBit -> nth_error (v_cells v) i = Some x -> other_bound v x y -> bit_flip v i = Ok y.
Proof.
  intros K Hx (lo & hi & Eb & H1 & H2). unfold bit_flip. rewrite K, Eb, (cell_value_at v i x Hx). cbn [rbind].
  destruct (neq_num x lo); [rewrite H1; auto|rewrite H2; auto].
Qed.

Lemma emits_lifted {A} (r : res A) x : r = Ok x -> emits (lift r) [] x.
Proof. intros -> g _. rewrite advance_0. reflexivity. Qed.

Lemma emits_new m v i x y : sound_vec v -> draws_inside m v -> (v_kind v = KFloat -> wide (v_bounds v)) -> nth_error (v_cells v) i = Some x ->
  new_cell m v i x y -> exists ds, emits (mut_val m v i) ds y.
Proof.
  intros Hs Hd Hw Hx Hn. assert (Hi : i < vsize v) by (apply nth_error_Some; congruence).
  assert (U : drawable v i y -> exists ds, emits (get_random_number_in_bounds v i) ds y) by (apply (emits_drawable m); assumption).
  assert (Cv : y = x -> emits (lift (cell_value v i)) [] y). { intros ->. apply emits_lifted, cell_value_at, Hx. }
  assert (F : v_kind v = KBit -> other_bound v x y -> emits (lift (bit_flip v i)) [] y). { intros K Ho. apply emits_lifted. eapply flip_value; eauto. }
  destruct m; cbn in Hd, Hn |- *; try contradiction; try (apply U; exact Hn).
  - destruct Hn as [[Hp Hy]|[Hp Hy]].
    + destruct (U Hy) as (ds & E). exists ([0%N] ++ ds). eapply emits_bind; [apply unit_zero|]. cbv beta. rewrite (happens _ Hp). exact E.
    + exists ([9007199254740991%N] ++ []). eapply emits_bind; [apply unit_last|]. cbv beta. rewrite Hp. apply Cv, Hy.
  - exists []. apply F; [apply Hd|exact Hn].
  - destruct Hn as [[Hp Hy]|[Hp Hy]].
    + exists ([0%N] ++ []). eapply emits_bind; [apply unit_zero|]. cbv beta. rewrite (happens _ Hp). apply F; [apply Hd|exact Hy].
    + exists ([9007199254740991%N] ++ []). eapply emits_bind; [apply unit_last|]. cbv beta. rewrite Hp. apply Cv, Hy.
Qed.

(** ** One mutation *)

Lemma set_cells_step c c' pts vals : NoDup pts -> length c' = length c -> (forall i, In i pts -> i < length c) ->
  Forall2 (fun i y => nth_error c' i = Some y) pts vals -> (forall i, ~ In i pts -> nth_error c' i = nth_error c i) -> set_cells c pts vals = c'.
Proof.
  intros N L Hl F Ho. apply nth_error_ext. intros i. destruct (in_dec Nat.eq_dec i pts) as [Hi|Hi].
  - pose proof (Hl i Hi) as Hlt. apply In_nth_error in Hi. destruct Hi as (j & Hj). pose proof (Forall2_len _ _ _ F) as Lf.
    destruct (nth_error_ex vals j) as (y & Hy). { rewrite <- Lf. apply nth_error_Some. congruence. }
    rewrite (set_cells_at c pts vals j i y N Lf Hlt Hj Hy). symmetry. exact (Forall2_nth_error _ _ _ _ _ _ F Hj Hy).
  - rewrite set_cells_other by exact Hi. symmetry. apply Ho, Hi.
Qed.

Definition holds (o : oid) (G : genome) (w : world) : Prop := exists i, at_ w o = Some i /\ i_genome i = G.

Lemma goes_keep {A} o G (m : M A) x : steps gkeep m -> (forall w, holds o G w -> exists w', m w = (Ok x, w') /\ w_rng w' = w_rng w) ->
  goes (holds o G) m [] x (holds o G).
Proof.
  intros K H w Hv _. destruct (H w Hv) as (w' & E & R). exists w'. split; [exact E|]. split; [rewrite R; symmetry; apply advance_0|].
  pose proof (K w) as Kw. rewrite E in Kw. cbn in Kw. destruct Hv as (i & Hi & Hg); destruct (Kw o i Hi) as (i' & Hi' & Hg'); exists i'; split; congruence.
Qed.

Lemma goes_modify o G f : (forall i, i_genome (f i) = i_genome i) -> goes (holds o G) (modify o f) [] tt (holds o G).
Proof.
  intros Hf. apply goes_keep; [apply gk_modify; exact Hf|]. intros w (i & Hi & _). rewrite (modify_at _ _ _ _ Hi). eexists. split; reflexivity.
Qed.

Lemma record_goes name o G : goes (holds o G) (record_applied name [o] o) [] tt (holds o G).
Proof.
  apply goes_keep; [apply gk_record|]. intros w (i & Hi & Hg). unfold record_applied. rewrite (bind_eq_ok _ _ _ _ _ (load_at _ _ _ Hi)).
  rewrite (bind_eq_ok _ _ _ _ _ (store_at _ _ _ _ Hi)). destruct (i_update_parents i); [|eexists; split; reflexivity].
  assert (H2 : at_ (put_at w o (add_applied name i)) o = Some (add_applied name i)) by (eapply at_put_same; eauto).
  assert (Em : mapM (fun p => x <- load p ;; ret (i_id x)) [o] (put_at w o (add_applied name i)) = (Ok [i_id (add_applied name i)], put_at w o (add_applied name i))).
  { cbn [mapM]. unfold bind, ret. rewrite (load_at _ _ _ H2). reflexivity. }
  rewrite (bind_eq_ok _ _ _ _ _ Em), (modify_at _ _ _ _ H2). eexists. split; reflexivity.
Qed.


Lemma attempt_goes m n o v c : sound_vec v -> draws_inside m v -> (v_kind v = KFloat -> wide (v_bounds v)) -> step m n v c ->
  sound_vec (with_cells v c) /\
  exists ds, goes (fun w => vec_at w o v) (vec_attempt m n [o]) ds true (fun w => vec_at w o (with_cells v c)).
Proof.
  intros Hs Hd Hw (L & pts0 & N0 & L0 & Hlt0 & Hst).
  assert (Hp : exists pts dc, emits (cell_selector m n v) dc pts /\ NoDup pts /\ (forall i, In i pts -> i < vsize v) /\ forall i, In i pts <-> In i pts0).
  { assert (Gen : exists dc, emits (sample (seq 0 (vsize v)) (length pts0)) dc pts0).
    { apply emits_sample; [apply seq_NoDup|exact N0|reflexivity|]. intros i Hi. apply in_seq. specialize (Hlt0 i Hi). lia. }
    destruct Gen as (dc & Gen).
    destruct m; cbn [cell_selector]; try (exists pts0, dc; split; [rewrite <- L0; exact Gen|]; split; [exact N0|]; split; [exact Hlt0|]; reflexivity).
    exists (seq 0 (vsize v)), []. split; [apply emits_ret|]. split; [apply seq_NoDup|]. split; [intros i Hi; apply in_seq in Hi; lia|].
    intros i. rewrite in_seq. split; [intros Hi; apply (NoDup_full pts0 (vsize v)); auto; lia|intros Hi; specialize (Hlt0 i Hi); lia]. }
  destruct Hp as (pts & dc & Ec & N & Hlt & Heq).
  assert (Hv : exists vals dv, emits (mapM (mut_val m v) pts) dv vals /\ Forall2 (fun i y => nth_error c i = Some y) pts vals).
  { assert (F : Forall2 (fun i y => nth_error c i = Some y) pts (map (fun i => nth i c (Fin 0)) pts)).
    { clear - Hlt L. induction pts as [|i pts IH]; constructor; [apply nth_error_nth'; rewrite L; apply Hlt; left; reflexivity|].
      apply IH. intros j Hj. apply Hlt. right. exact Hj. }
    destruct (emits_mapM (mut_val m v) pts (map (fun i => nth i c (Fin 0)) pts)) as (dv & E).
    - assert (Hall : forall i, In i pts -> exists ds, emits (mut_val m v i) ds (nth i c (Fin 0))).
      { intros i Hi. pose proof (Hlt i Hi) as Hl. destruct (nth_error_ex (v_cells v) i Hl) as (x & Hx).
        apply (emits_new m v i x); auto. apply (Hst i x); [exact Hx|apply nth_error_nth'; rewrite L; exact Hl|apply Heq; exact Hi]. }
      clear - Hall. induction pts as [|i pts IH]; constructor; [apply Hall; left; reflexivity|]. apply IH. intros j Hj. apply Hall. right. exact Hj.
    - exists (map (fun i => nth i c (Fin 0)) pts), dv. auto. }
  destruct Hv as (vals & dv & Ev & F).
  assert (Hset : set_cells (v_cells v) pts vals = c).
  { apply set_cells_step; auto. intros i Hi. rewrite Heq in Hi. destruct (nth_error (v_cells v) i) as [x|] eqn:Ex.
    - assert (Hl : i < length c) by (rewrite L; apply nth_error_Some; congruence). destruct (nth_error_ex c i Hl) as (y & Hy). rewrite Hy. f_equal.
      apply (Hst i x y Ex Hy). exact Hi.
    - apply nth_error_None. apply nth_error_None in Ex. rewrite L. exact Ex. }
  assert (Hbox : in_box (v_bounds v) c).
  { rewrite <- Hset. apply set_cells_in_box; [apply Hs|]. destruct (mapM_inside m v pts Hs Hd Hlt (seeded_with dv)) as (vals' & g' & E & Hf).
    rewrite (Ev _ (seeded_ahead dv)) in E. injection E as <- _. exact Hf. }
  pose proof Hs as (Hl & Hpb & Hib & H2 & Hb).
  assert (Hs' : sound_vec (with_cells v c)).
  { split; [cbn; unfold vsize; cbn; rewrite Hl; symmetry; exact L|]. split; [unfold vsize; cbn; rewrite L; exact Hpb|]. split; [exact Hib|]. split; [exact H2|exact Hbox]. }
  split; [exact Hs'|]. exists (dc ++ dv). cbn [vec_attempt].
  apply goes_skip with (Q := fun w => vec_at w o v).
  { intros w (i & Hi & Hg). rewrite (clone_at _ _ _ Hi). do 2 eexists. split; [reflexivity|]. split; [reflexivity|]. exists i. split; [|exact Hg].
    pose proof (at_lt _ _ _ Hi). rewrite at_push_old by assumption. exact Hi. }
  intros o'. eapply goes_bind0 with (x := v) (Q := fun w => vec_at w o v).
  { intros w (i & Hi & Hg) _. exists w. rewrite (load_vec_at _ _ _ _ Hi Hg). split; [reflexivity|]. split; [symmetry; apply advance_0|exists i; auto]. }
  eapply goes_bind; [apply goes_liftR; [intros w g H; exact H|exact Ec]|]. 
  eapply goes_bind1; [apply goes_liftR; [intros w g H; exact H|exact Ev]|]. cbv zeta. rewrite Hset.
  eapply goes_bind0 with (x := tt) (Q := fun w => vec_at w o (with_cells v c)).
  { intros w (i & Hi & Hg) _. unfold put_genome. rewrite (modify_at _ _ _ _ Hi). eexists. split; [reflexivity|]. split; [symmetry; apply advance_0|].
    eexists. split; [eapply at_put_same; exact Hi|reflexivity]. }
  eapply goes_bind0 with (x := true) (Q := fun w => vec_at w o (with_cells v c)); [|apply goes_ret].
  intros w Hw' _. exists w. destruct (check_in_box (with_cells v c)) as (r & Hr & Hiff).
  - pose proof (in_box_fin _ (proj1 (proj2 Hs')) Hbox) as Ff. eapply Forall_impl; [|exact Ff]. intros x. destruct x; simpl; congruence.
  - cbn. eapply proper_no_nan. exact Hpb.
  - cbn. destruct (v_bounds v); [exact I|]. destruct Hpb as [Hpb _]. split; [rewrite Hpb, L; reflexivity|exact H2].
  - rewrite Hr. assert (r = true) as -> by (apply Hiff; exact Hbox). split; [reflexivity|]. split; [symmetry; apply advance_0|exact Hw'].
Qed.

Lemma mutation_goes op m n o v c : op_kind op = OVecMut m n -> 1 <= op_attempts op -> can_happen (op_prob op) ->
  sound_vec v -> draws_inside m v -> (v_kind v = KFloat -> wide (v_bounds v)) -> step m n v c ->
  exists ds, goes (fun w => vec_at w o v) (apply_operator op [o]) ds [o] (fun w => vec_at w o (with_cells v c)).
Proof.
  intros Hk Ha Hp Hs Hd Hw Hst. destruct (attempt_goes m n o v c Hs Hd Hw Hst) as (Hs' & ds & G). exists ([0%N] ++ ds).
  unfold apply_operator, with_probability. eapply goes_bind; [apply goes_liftR; [intros w g H; exact H|apply unit_zero]|]. cbv beta. rewrite (happens _ Hp).
  eapply goes_bind0; [apply goes_iterM; intros a [<-|[]]; apply (goes_modify o (GVec v)); reflexivity|].
  eapply goes_bind1 with (x := Some [o]) (Q := fun w => vec_at w o (with_cells v c)).
  - unfold op_apply. rewrite Hk. unfold vec_apply, failable_apply. destruct (op_attempts op) as [|k]; [lia|].
    intros w Pw U. destruct (G w Pw U) as (w' & E & R). exists w'. rewrite failable_step, E. auto.
  - eapply goes_bind0; [apply goes_iterM; intros a [<-|[]]; apply (record_goes _ o (GVec (with_cells v c)))|]. apply goes_ret.
Qed.

(** ** Nothing else *)

Lemma unit_range g u g' : random_unit g = (Ok u, g') -> exists k, (k < 2 ^ 53)%N /\ u = Fin (Z.of_N k # two53).
Proof.
  unfold random_unit, bind, next_draw, ret. intros H. injection H as <- _. eexists. split; [|reflexivity]. apply N.mod_lt. discriminate.
Qed.

Lemma unit_happens g u g' p : random_unit g = (Ok u, g') -> nle u p = true -> can_happen p.
Proof.
  intros H Hn. destruct (unit_range _ _ _ H) as (k & Hk & ->). unfold can_happen. destruct p as [q| | |]; auto. rewrite nle_fin in *.
  eapply Qle_trans; [|exact Hn]. unfold Qle. cbn. lia.
Qed.

Lemma unit_fails g u g' p : random_unit g = (Ok u, g') -> nle u p = false -> can_fail p.
Proof.
  intros H Hn. destruct (unit_range _ _ _ H) as (k & Hk & ->). unfold can_fail. destruct p as [q| | |]; auto.
  destruct (nle (Fin (9007199254740991 # 9007199254740992)) (Fin q)) eqn:E; [|reflexivity]. rewrite <- Hn. symmetry. rewrite nle_fin in *.
  eapply Qle_trans; [|exact E]. unfold Qle, two53. cbn [Qnum Qden]. change (2 ^ 53)%N with 9007199254740992%N in Hk. nia.
Qed.

Lemma mut_val_new m v i g y g' x : sound_vec v -> draws_inside m v -> nth_error (v_cells v) i = Some x -> mut_val m v i g = (Ok y, g') -> new_cell m v i x y.
Proof.
  intros Hs Hd Hx H. assert (Hi : i < vsize v) by (apply nth_error_Some; congruence). pose proof (sound_creatable m v Hs Hd) as Hc.
  assert (U : forall g y g', get_random_number_in_bounds v i g = (Ok y, g') -> drawable v i y).
  { intros g0 y0 g1 E. rewrite <- (vec_eta v) in E. exact (cell_sound _ _ _ _ _ _ _ _ _ Hc Hi E). }
  assert (Cv : forall (g : rng) y g', lift (cell_value v i) g = (Ok y, g') -> y = x).
  { intros g0 y0 g1 E. rewrite (cell_value_at v i x Hx) in E. injection E as <- _. reflexivity. }
  assert (F : forall (g : rng) y g', lift (bit_flip v i) g = (Ok y, g') -> other_bound v x y).
  { intros g0 y0 g1 E. unfold lift in E. injection E as E _. unfold bit_flip in E. destruct (v_kind v); try discriminate. destruct (v_bounds v) as [lo hi|] eqn:Eb; try discriminate.
    rewrite (cell_value_at v i x Hx) in E. cbn in E. exists lo, hi. split; [exact Eb|]. injection E as <-. destruct (neq_num x lo); split; intros; try discriminate; reflexivity. }
  destruct m; cbn [mut_val new_cell draws_inside] in Hd, H |- *; try contradiction; try (eapply U; exact H); try (eapply F; exact H).
  - destruct (random_unit g) as [[u|e] g1] eqn:Eu; [|rewrite (bind_eq_raise _ _ _ _ _ Eu) in H; discriminate]. rewrite (bind_eq_ok _ _ _ _ _ Eu) in H.
    destruct (nle u p_each) eqn:En; [left; split; [eapply unit_happens; eauto|eapply U; exact H]|right; split; [eapply unit_fails; eauto|eapply Cv; exact H]].
  - destruct (random_unit g) as [[u|e] g1] eqn:Eu; [|rewrite (bind_eq_raise _ _ _ _ _ Eu) in H; discriminate]. rewrite (bind_eq_ok _ _ _ _ _ Eu) in H.
    destruct (nle u p_each) eqn:En; [left; split; [eapply unit_happens; eauto|eapply F; exact H]|right; split; [eapply unit_fails; eauto|eapply Cv; exact H]].
Qed.

Lemma step_of m n v g1 g2 g3 pts vals : sound_vec v -> draws_inside m v -> cell_selector m n v g1 = (Ok pts, g2) ->
  mapM (mut_val m v) pts g2 = (Ok vals, g3) -> step m n v (set_cells (v_cells v) pts vals).
Proof.
  intros Hs Hd Hc Hm. apply cell_selector_spec in Hc as (Hnd & Hlt & Hl). apply mapM_pairs in Hm. pose proof (Forall2_len _ _ _ Hm) as Len.
  split; [apply set_cells_length|]. exists pts. split; [exact Hnd|]. split; [exact Hl|]. split; [exact Hlt|]. intros i x y Hx Hy. split.
  - intros Hi. apply In_nth_error in Hi as (j & Hj). destruct (nth_error_ex vals j) as (z & Hz). { rewrite <- Len. eapply nth_error_lt; eauto. }
    destruct (Forall2_nth_error _ _ _ _ _ _ Hm Hj Hz) as (s1 & s2 & Hv).
    rewrite (set_cells_at _ _ _ _ _ _ Hnd Len (nth_error_lt _ _ _ Hx) Hj Hz) in Hy. injection Hy as <-. eapply mut_val_new; eauto.
  - intros Hi. rewrite set_cells_other in Hy by exact Hi. congruence.
Qed.

(** The vectors that one application can lead to are exactly those of [step]. *)
Lemma moves op m n o w v c : op_kind op = OVecMut m n -> 1 <= op_attempts op -> nle (Fin 1) (op_prob op) = true ->
  vec_at w o v -> sound_vec v -> draws_inside m v -> enough m n v -> (v_kind v = KFloat -> wide (v_bounds v)) ->
  (step m n v c <-> exists g w', apply_operator op [o] (with_rng w g) = (Ok [o], w') /\ vec_at w' o (with_cells v c)).
Proof.
  intros Hk Ha Hp Hv Hs Hd He Hw. split.
  - intros Hst. destruct (mutation_goes op m n o v c Hk Ha) as (ds & G); auto.
    { unfold can_happen. destruct (op_prob op) as [q| | |]; auto. rewrite nle_fin in *. eapply Qle_trans; [|exact Hp]. discriminate. }
    destruct (G (with_rng w (seeded_with ds)) (vec_at_rng _ _ _ _ Hv) (seeded_ahead ds)) as (w' & E & _ & H'). exists (seeded_with ds), w'. auto.
  - intros (g & w' & E & H'). destruct (applied_one op m n o (with_rng w g) v Hk Ha Hp Hv Hs Hd He) as (g1 & g2 & g3 & pts & vals & w2 & E2 & Hc & Hm & Hv').
    rewrite E in E2. injection E2 as <-. pose proof (vec_at_dec_eq _ _ _ _ H' Hv') as Ec. apply (f_equal v_cells) in Ec. cbn in Ec. subst c. eapply step_of; eauto.
Qed.

Lemma in_firstn {A} n (l : list A) x : In x (firstn n l) -> In x l.
Proof. revert n. induction l as [|a l IH]; intros [|n]; cbn; try tauto. intros [<-|H]; eauto. Qed.
Lemma nodup_firstn {A} n (l : list A) : NoDup l -> NoDup (firstn n l).
Proof. intros N. revert n. induction N as [|a l Ha N IH]; intros [|n]; cbn; constructor; auto. intros C. apply in_firstn in C. contradiction. Qed.

(** Between any two vectors of the search space there is a sequence of applications. *)
Lemma in_step_one m n v i y : sound_vec v -> draws_inside m v -> enough m n v -> versatile m n v -> (forall i x, nth_error (v_cells v) i = Some x -> drawable v i x) ->
  i < vsize v -> drawable v i y -> nth_error (v_cells v) i <> Some y -> step m n v (list_set (v_cells v) i y).
Proof.
  intros Hs Hd He Hv Hall Hi Hy Hne. split; [apply list_set_length|].
  assert (Hset : exists pts, NoDup pts /\ length pts = match m with MIntOne _ => vsize v | _ => n end /\ (forall j, In j pts -> j < vsize v) /\ In i pts /\
    (match m with MIntOne _ => vsize v | _ => n end = 1 -> pts = [i])).
  { assert (Hn : 1 <= match m with MIntOne _ => vsize v | _ => n end <= vsize v). { destruct m; cbn in *; try contradiction; lia. }
    set (k := match m with MIntOne _ => vsize v | _ => n end) in *. exists (i :: firstn (k - 1) (remove Nat.eq_dec i (seq 0 (vsize v)))).
    assert (Nr : NoDup (remove Nat.eq_dec i (seq 0 (vsize v)))).
    { assert (N := seq_NoDup (vsize v) 0). induction (seq 0 (vsize v)) as [|a l IH]; [constructor|]. inversion_clear N. simpl. destruct (Nat.eq_dec i a); auto. constructor; auto.
      intros C. apply in_remove in C. destruct C as [C _]. contradiction. }
    assert (Lr : length (remove Nat.eq_dec i (seq 0 (vsize v))) = vsize v - 1).
    { assert (P : Permutation (seq 0 (vsize v)) (i :: remove Nat.eq_dec i (seq 0 (vsize v)))).
      { apply NoDup_Permutation; [apply seq_NoDup|constructor; [apply remove_In|exact Nr]|]. intros x. cbn. split.
        - intros Hx. destruct (Nat.eq_dec i x); [auto|right; apply in_in_remove; auto].
        - intros [<-|Hx]; [apply in_seq; lia|apply in_remove in Hx; apply Hx]. }
      apply Permutation_length in P. rewrite seq_length in P. cbn in P. lia. }
    split; [constructor; [|apply nodup_firstn; exact Nr]; intros C; apply in_firstn in C; apply remove_In in C; exact C|].
    split; [cbn; rewrite firstn_length, Lr; lia|]. split; [|split; [left; reflexivity|intros ->; reflexivity]].
    intros j [<-|Hj]; [exact Hi|]. apply in_firstn in Hj. apply in_remove in Hj. destruct Hj as [Hj _]. apply in_seq in Hj. lia. }
  destruct Hset as (pts & N & L & Hlt & Hip & Hone). exists pts. split; [exact N|]. split; [exact L|]. split; [exact Hlt|].
  intros j x z Hx Hz. destruct (Nat.eq_dec i j) as [<-|Hij].
  - rewrite nth_list_set_same in Hz by exact Hi. injection Hz as <-. split; [|intros C; contradiction]. intros _.
    assert (Ob : v_kind v = KBit -> v_bounds v = BPair (Fin 0) (Fin 1) -> other_bound v x y).
    { intros K B. assert (Bit : forall x, drawable v i x -> x = Fin 0 \/ x = Fin 1).
      { intros x0 (lo & hi & Eb & Hg). rewrite B in Eb. injection Eb as <- <-. rewrite K in Hg. destruct Hg as (a & b & z & Ea & Eb & Hz & ->).
        assert (a = 0%Z) by (injection Ea as <-; reflexivity). assert (b = 1%Z) by (injection Eb as <-; reflexivity). subst.
        assert (z = 0 \/ z = 1)%Z as [->| ->] by lia; auto. }
      exists (Fin 0), (Fin 1). split; [exact B|]. destruct (Bit x (Hall i x Hx)) as [->| ->], (Bit y Hy) as [->| ->]; try congruence; split; intros E; try discriminate; reflexivity. }
    destruct m; cbn in *; try contradiction; auto.
    + apply Ob; [apply Hd|apply Hv].
    + left. split; [apply Hv|apply Ob; [apply Hd|apply Hv]].
  - rewrite nth_list_set_other in Hz by auto. assert (z = x) by congruence. subst z. split; [|auto]. intros Hj.
    destruct m; cbn in *; try contradiction; try (apply (Hall j x Hx)).
    + left. split; [exact Hv|apply (Hall j x Hx)].
    + destruct Hv as [-> _]. rewrite Hone in Hj by reflexivity. destruct Hj as [->|[]]. congruence.
    + destruct Hv as (_ & [->|[_ Hf]] & _); [|right; auto]. rewrite Hone in Hj by reflexivity. destruct Hj as [->|[]]. congruence.
Qed.

Lemma space_drawable v c i x : search_space (v_kind v) (v_bounds v) (vsize v) c -> nth_error c i = Some x -> drawable v i x.
Proof. intros [_ H] Hx. exact (H i x Hx). Qed.

Lemma num_dec (x y : num) : {x = y} + {x <> y}.
Proof. repeat decide equality. Qed.

Lemma path op m n o c : op_kind op = OVecMut m n -> 1 <= op_attempts op -> can_happen (op_prob op) -> forall l v,
  sound_vec v -> draws_inside m v -> enough m n v -> (v_kind v = KFloat -> wide (v_bounds v)) -> versatile m n v ->
  search_space (v_kind v) (v_bounds v) (vsize v) (v_cells v) -> search_space (v_kind v) (v_bounds v) (vsize v) c ->
  (forall i, ~ In i l -> nth_error (v_cells v) i = nth_error c i) ->
  exists k ds, goes (fun w => vec_at w o v) (repeatM k (apply_operator op [o])) ds (repeat [o] k) (fun w => vec_at w o (with_cells v c)).
Proof.
  intros Hk Ha Hp. induction l as [|i l IH]; intros v Hs Hd He Hw Hv Hv0 Hc Hl.
  - assert (v_cells v = c) as <- by (apply nth_error_ext; intros i; apply Hl; auto). exists 0, []. cbn.
    assert (with_cells v (v_cells v) = v) as -> by (destruct v; reflexivity). apply goes_ret.
  - destruct (nth_error c i) as [y|] eqn:Ey.
    2:{ apply IH; auto. intros j Hj. destruct (Nat.eq_dec i j) as [<-|Hij]; [|apply Hl; intros [->|C]; auto].
        rewrite Ey. apply nth_error_None. apply nth_error_None in Ey. destruct Hc as [Lc _]. change (length (v_cells v)) with (vsize v). lia. }
    assert (Hi : i < vsize v). { destruct Hc as [<- _]. apply nth_error_Some. congruence. }
    destruct (nth_error_ex (v_cells v) i Hi) as (x & Hx). destruct (num_dec x y) as [->|Hxy].
    { apply IH; auto. intros j Hj. destruct (Nat.eq_dec i j) as [<-|Hij]; [congruence|apply Hl; intros [->|C]; auto]. }
    pose proof (in_step_one m n v i y Hs Hd He Hv (fun j z Hz => space_drawable v _ j z Hv0 Hz) Hi (space_drawable v _ i y Hc Ey) ltac:(congruence)) as Hst.
    destruct (attempt_goes m n o v _ Hs Hd Hw Hst) as (Hs' & _).
    destruct (mutation_goes op m n o v _ Hk Ha Hp Hs Hd Hw Hst) as (d1 & G1).
    assert (Lv : vsize (with_cells v (list_set (v_cells v) i y)) = vsize v) by (unfold vsize; cbn; apply list_set_length).
    destruct (IH (with_cells v (list_set (v_cells v) i y)) Hs') as (k & d2 & G2).
    { destruct m; cbn in *; auto. } { unfold enough in *. rewrite Lv. exact He. } { exact Hw. } { destruct m; cbn in *; auto. }
    { rewrite Lv. split; [unfold vsize in Lv; cbn in Lv |- *; exact Lv|]. intros j z Hz. cbn in Hz. destruct (Nat.eq_dec i j) as [<-|Hij].
      - rewrite nth_list_set_same in Hz by exact Hi. injection Hz as <-. exact (space_drawable v c i y Hc Ey).
      - rewrite nth_list_set_other in Hz by auto. exact (space_drawable v _ j z Hv0 Hz). }
    { rewrite Lv. exact Hc. }
    { intros j Hj. cbn. destruct (Nat.eq_dec i j) as [<-|Hij]; [rewrite nth_list_set_same by exact Hi; auto|]. rewrite nth_list_set_other by auto. apply Hl. intros [->|C]; auto. }
    exists (S k), (d1 ++ d2). cbn [repeatM]. eapply goes_bind; [exact G1|]. eapply goes_bind1; [exact G2|]. apply goes_ret.
Qed.

Lemma connected op m n o w v c : op_kind op = OVecMut m n -> 1 <= op_attempts op -> can_happen (op_prob op) ->
  vec_at w o v -> sound_vec v -> draws_inside m v -> enough m n v -> (v_kind v = KFloat -> wide (v_bounds v)) -> versatile m n v ->
  search_space (v_kind v) (v_bounds v) (vsize v) (v_cells v) -> search_space (v_kind v) (v_bounds v) (vsize v) c ->
  exists k g w', repeatM k (apply_operator op [o]) (with_rng w g) = (Ok (repeat [o] k), w') /\ vec_at w' o (with_cells v c).
Proof.
  intros Hk Ha Hp Hv Hs Hd He Hw Hvs Hv0 Hc.
  destruct (path op m n o c Hk Ha Hp (seq 0 (vsize v)) v Hs Hd He Hw Hvs Hv0 Hc) as (k & ds & G).
  { intros i Hi. assert (vsize v <= i) by (destruct (Nat.lt_ge_cases i (vsize v)); auto; exfalso; apply Hi, in_seq; lia).
    transitivity (@None num); [apply nth_error_None; assumption|symmetry; apply nth_error_None; destruct Hc as [-> _]; assumption]. }
  destruct (G (with_rng w (seeded_with ds)) (vec_at_rng _ _ _ _ Hv) (seeded_ahead ds)) as (w' & E & _ & H'). exists k, (seeded_with ds), w'. auto.
Qed.

(** ** An even number of flips *)

Definition differ_at (c c' : list num) (i : nat) : bool := negb (neq_num (nth i c (Fin 0)) (nth i c' (Fin 0))).

Lemma ones_cons x c : ones (x :: c) = (if neq_num x (Fin 1) then 1 else 0) + ones c.
Proof. unfold ones. cbn. destruct (neq_num x (Fin 1)); reflexivity. Qed.

Lemma parity_differ : forall c c', is_bits c -> is_bits c' -> length c = length c' ->
  Nat.even (ones c') = Bool.eqb (Nat.even (ones c)) (Nat.even (length (filter (differ_at c c') (seq 0 (length c))))).
Proof.
  induction c as [|x c IH]; intros [|x' c'] B B' L; try discriminate; [reflexivity|]. injection L as L. inversion_clear B as [|? ? Bx Bc]. inversion_clear B' as [|? ? Bx' Bc'].
  specialize (IH c' Bc Bc' L). cbn [length seq filter]. 
  assert (Es : filter (differ_at (x :: c) (x' :: c')) (seq 1 (length c)) = map S (filter (differ_at c c') (seq 0 (length c)))).
  { rewrite <- seq_shift. clear. induction (seq 0 (length c)) as [|i l IHl]; [reflexivity|]. cbn [map filter]. change (differ_at (x :: c) (x' :: c') (S i)) with (differ_at c c' i).
    destruct (differ_at c c' i); cbn [map]; rewrite IHl; reflexivity. }
  rewrite Es, !ones_cons. unfold differ_at at 1. cbn [nth].
  destruct Bx as [->| ->], Bx' as [->| ->]; cbn [neq_num negb length]; change (Qeq_bool 0 0) with true; change (Qeq_bool 0 1) with false; change (Qeq_bool 1 0) with false; change (Qeq_bool 1 1) with true;
    cbn [negb length]; rewrite ?map_length, ?Nat.add_0_l, ?Nat.add_1_l, ?Nat.even_succ, <- ?Nat.negb_even, IH;
    destruct (Nat.even (ones c)), (Nat.even (length (filter (differ_at c c') (seq 0 (length c))))); reflexivity.
Qed.

Lemma flip_parity m n v v' : bit_string v -> bit_string v' -> (m = MBitFlip \/ exists p, m = MBitNFlip p /\ nle (Fin 1) p = true) -> Nat.even n = true ->
  cells_mutated m n v v' -> Nat.even (ones (v_cells v')) = Nat.even (ones (v_cells v)).
Proof.
  intros (K & B & Lv & Hb) (K' & B' & Lv' & Hb') Hm Hn ((_ & _ & _ & Sz) & pts & N & L & Hin & Hout).
  assert (Len : length (v_cells v) = length (v_cells v')) by (symmetry; exact Sz).
  assert (Ln : length pts = n) by (destruct Hm as [->|(p & -> & _)]; exact L).
  assert (Fl : forall i x y, In i pts -> nth_error (v_cells v) i = Some x -> nth_error (v_cells v') i = Some y -> neq_num x y = false).
  { intros i x y Hi Hx Hy. destruct (Hin i Hi) as (x1 & y1 & Ex & Ey & Hc). assert (x1 = x) by congruence. assert (y1 = y) by congruence. subst.
    assert (Ho : other_bound v x y).
    { destruct Hm as [->|(p & -> & Hp)]; cbn in Hc; [exact Hc|]. destruct Hc as [[Hc _]|[_ Hc]]; [exact Hc|congruence]. }
    destruct Ho as (lo & hi & Eb & H1 & H2). rewrite B in Eb. injection Eb as <- <-. unfold is_bits in Hb. rewrite Forall_forall in Hb.
    destruct (Hb x (nth_error_In _ _ Hx)) as [->| ->]; [rewrite (H1 eq_refl)|rewrite (H2 eq_refl)]; reflexivity. }
  rewrite (parity_differ _ _ Hb Hb' Len). 
  assert (P : Permutation (filter (differ_at (v_cells v) (v_cells v')) (seq 0 (length (v_cells v)))) pts).
  { apply NoDup_Permutation; [apply NoDup_filter, seq_NoDup|exact N|]. intros i. rewrite filter_In, in_seq. unfold differ_at. split.
    - intros [Hi Hd]. destruct (in_dec Nat.eq_dec i pts) as [C|C]; [exact C|]. exfalso. specialize (Hout i C).
      assert (Hl : i < length (v_cells v)) by lia. destruct (nth_error_ex (v_cells v) i Hl) as (x & Hx). rewrite (nth_error_nth _ _ _ Hx) in Hd.
      rewrite Hx in Hout. rewrite (nth_error_nth _ _ _ Hout) in Hd. unfold is_bits in Hb. rewrite Forall_forall in Hb.
      destruct (Hb x (nth_error_In _ _ Hx)) as [->| ->]; discriminate.
    - intros Hi. destruct (Hin i Hi) as (x & y & Hx & Hy & _). split; [apply nth_error_lt in Hx; lia|]. rewrite (nth_error_nth _ _ _ Hx), (nth_error_nth _ _ _ Hy), (Fl i x y Hi Hx Hy). reflexivity. }
  rewrite (Permutation_length P), Ln, Hn. destruct (Nat.even (ones (v_cells v))); reflexivity.
Qed.

Lemma even_flips op m n o : op_kind op = OVecMut m n -> (m = MBitFlip \/ exists p, m = MBitNFlip p /\ nle (Fin 1) p = true) -> Nat.even n = true ->
  forall k w v r w', vec_at w o v -> bit_string v -> repeatM k (apply_operator op [o]) w = (r, w') ->
  exists v', vec_at w' o v' /\ bit_string v' /\ Nat.even (ones (v_cells v')) = Nat.even (ones (v_cells v)).
Proof.
  intros Hk Hm Hn. assert (Bm : bit_mut m) by (destruct Hm as [->|(p & -> & _)]; exact I).
  assert (One : forall w v r w', vec_at w o v -> bit_string v -> apply_operator op [o] w = (r, w') ->
    exists v', vec_at w' o v' /\ bit_string v' /\ Nat.even (ones (v_cells v')) = Nat.even (ones (v_cells v))).
  { intros w v r w' Hv Hb E. destruct (bits_kept op m n [o] w o v Hk Bm) as (v' & Hv' & Hb' & _); auto. { intros o' [<-|[]]. eauto. }
    rewrite E in Hv'. cbn in Hv'. exists v'. split; [exact Hv'|]. split; [exact Hb'|].
    assert (Hs : sound_vec v) by (apply bit_sound; exact Hb). assert (Fp : finite_params m) by (destruct Hm as [->|(p & -> & _)]; exact I).
    destruct (mutation_effect op m n o w v Hk Fp Hv Hs) as (v2 & Hv2 & He). rewrite E in Hv2. cbn in Hv2.
    rewrite (vec_at_dec_eq _ _ _ _ Hv2 Hv') in He. destruct He as [->|[He|He]]; [reflexivity|eapply flip_parity; eauto|].
    destruct Hm as [->|(p & -> & _)]; contradiction. }
  induction k as [|k IH]; intros w v r w' Hv Hb E; cbn [repeatM] in E.
  - injection E as <- <-. eauto.
  - unfold bind in E. destruct (apply_operator op [o] w) as [[l|e] w1] eqn:E1.
    + destruct (One _ _ _ _ Hv Hb E1) as (v1 & Hv1 & Hb1 & P1). destruct (repeatM k (apply_operator op [o]) w1) as [r2 w2] eqn:E2.
      destruct (IH _ _ _ _ Hv1 Hb1 E2) as (v2 & Hv2 & Hb2 & P2). assert (w' = w2) as -> by (destruct r2; injection E; auto). exists v2. split; [exact Hv2|]. split; [exact Hb2|congruence].
    + injection E as <- <-. exact (One _ _ _ _ Hv Hb E1).
Qed.

(** ** Subtree mutation *)

Lemma emits_subtree t rt nt pre s post : complete_tree t -> saturated rt -> flatten rt = t_nodes t ->
  subtree_at rt pre s post -> ~ In (label s) pre -> eligible (label rt) nt (label s) ->
  exists ds, emits (random_subtree t nt) ds (Some (flatten s)).
Proof.
  intros (Ho & Hh & _) Hs E Hsub Hfirst He.
  assert (Hin : In (label s) (t_nodes t)) by (rewrite <- E; eapply subtree_label_in; eauto).
  assert (Hhint : forall f, label s = FNode f -> hinted f). { intros f Hf. apply Hh, Ho. now rewrite <- Hf. }
  destruct (emits_choice (filter (subtree_candidate (label rt) nt) (t_nodes t)) (label s)) as (ds & Hg).
  { apply filter_In. split; auto. now apply eligible_iff. }
  exists ds. unfold random_subtree. destruct (flatten_hd rt) as (rest & Er).
  destruct (t_nodes t) as [|root l] eqn:En; [destruct Hin|]. assert (root = label rt) as -> by congruence.
  destruct (filter (subtree_candidate (label rt) nt) (label rt :: l)) as [|c cs] eqn:Ef.
  { specialize (Hg (seeded_with ds) (seeded_ahead ds)). discriminate. }
  rewrite <- En in *. eapply emits_bind1; [exact Hg|].
  destruct (get_subtree_spec t rt (label s) Hs E Ho Hin) as (pre' & s' & post' & Eg & Hsub' & Hl & Hfirst').
  assert (s' = s) as ->.
  { assert (pre' = pre) as ->; [|eapply subtree_unique; eauto].
    pose proof (subtree_flatten _ _ _ _ Hsub) as F1. pose proof (subtree_flatten _ _ _ _ Hsub') as F2.
    rewrite F1 in F2. destruct (flatten_hd s) as (r1 & E1). destruct (flatten_hd s') as (r2 & E2). rewrite E1, E2, Hl in F2.
    cbn in F2. clear - F2 Hfirst Hfirst'. revert pre' F2 Hfirst'. revert Hfirst. generalize (label s). intros x.
    induction pre as [|a pre IH]; intros Hfirst [|b pre'] F2 H'; auto; cbn in F2; injection F2 as Eab F2.
    - exfalso. apply H'. now left.
    - exfalso. apply Hfirst. now left.
    - subst b. f_equal. apply IH; auto; intros Hx; [apply Hfirst|apply H']; now right. }
  eapply emits_lift; [exact Eg|]. apply emits_ret.
Qed.

Lemma half_undecided : undecided (Fin (1 # 2)).
Proof. exists (1 # 2)%Q. repeat split; discriminate. Qed.

Lemma subtree_goes op mn mx o t t' : op_kind op = OSubtreeMut mn mx -> 1 <= op_attempts op -> can_happen (op_prob op) -> complete_tree t ->
  (forall n, In n (t_nodes t) -> clear_terminals t (delivers n)) -> (forall e, t_erc t = Some e -> erc_proper e) -> regrown mn mx t t' ->
  exists ds, goes (fun w => tree_at w o t) (apply_operator op [o]) ds [o] (fun w => tree_at w o t').
Proof.
  intros Hk Ha Hp Hc Hcl He (rt & c & r & Hs & E & Hsub & Hfirst & Hel & Hpr & ->).
  destruct (emits_subtree t rt None _ _ _ Hc Hs E Hsub Hfirst Hel) as (d1 & E1).
  assert (Hin : In (label (p_sub c)) (t_nodes t)) by (rewrite <- E; eapply subtree_label_in; eauto).
  destruct (grow_reached t (delivers (label (p_sub c))) (Fin (1 # 2)) mn mx (Hcl _ Hin) He half_undecided (grow_fuel mn mx 0) 0 _ r Hpr) as (d2 & E2);
    [left; reflexivity|lia|unfold grow_fuel; lia|].
  exists ([0%N] ++ d1 ++ d2). unfold apply_operator, with_probability.
  eapply goes_bind; [apply goes_liftR; [intros w g H; exact H|apply unit_zero]|]. cbv beta. rewrite (happens _ Hp).
  eapply goes_bind0; [apply goes_iterM; intros a [<-|[]]; apply (goes_modify o (GTree t)); reflexivity|].
  eapply goes_bind1 with (x := Some [o]) (Q := fun w => tree_at w o (filled t c r)).
  2:{ eapply goes_bind0; [apply goes_iterM; intros a [<-|[]]; apply (record_goes _ o (GTree (filled t c r)))|]. apply goes_ret. }
  assert (G : goes (fun w => tree_at w o t) (mut_attempt mn mx [o]) (d1 ++ d2) true (fun w => tree_at w o (filled t c r))).
  { unfold mut_attempt. eapply goes_bind with (x := [Some (flatten (p_sub c))]) (Q := fun w => tree_at w o t).
    - cbn [mapM]. eapply goes_bind1 with (x := Some (flatten (p_sub c))) (Q := fun w => tree_at w o t); [|eapply goes_bind0; apply goes_ret].
      unfold pick_subtree. eapply goes_bind0 with (x := t) (Q := fun w => tree_at w o t).
      + intros w (i & Hi & Hg) _. exists w. rewrite (load_tree_at _ _ _ _ Hi Hg). split; [reflexivity|]. split; [symmetry; apply advance_0|exists i; auto].
      + apply goes_liftR; [intros w g H; exact H|exact E1].
    - cbn [all_somes combine]. eapply goes_bind1 with (x := tt) (Q := fun w => tree_at w o (filled t c r)); [|apply goes_ret].
      cbn [iterM]. eapply goes_bind1 with (x := tt) (Q := fun w => tree_at w o (filled t c r)); [|apply goes_ret].
      destruct (flatten_hd (p_sub c)) as (rest & Er). unfold mut_one. 
      eapply goes_bind0 with (x := t) (Q := fun w => tree_at w o t).
      + intros w (i & Hi & Hg) _. exists w. rewrite (load_tree_at _ _ _ _ Hi Hg). split; [reflexivity|]. split; [symmetry; apply advance_0|exists i; auto].
      + rewrite Er. rewrite node_type_delivers by (intros f Hf; eapply complete_hinted; eauto).
        eapply goes_bind1; [apply goes_liftR; [intros w g H; exact H|exact E2]|]. rewrite <- Er. rewrite (replace_spec t rt _ _ _ (flatten r) E Hsub Hfirst).
        eapply goes_bind0 with (x := filled t c r) (Q := fun w => tree_at w o t).
        * intros w Hw _. exists w. split; [reflexivity|]. split; [symmetry; apply advance_0|exact Hw].
        * intros w (i & Hi & Hg) _. unfold put_genome. rewrite (modify_at _ _ _ _ Hi). eexists. split; [reflexivity|]. split; [symmetry; apply advance_0|].
          eexists. split; [eapply at_put_same; exact Hi|reflexivity]. }
  unfold op_apply. rewrite Hk. unfold failable_apply. destruct (op_attempts op) as [|k]; [lia|].
  intros w Pw U. destruct (G w Pw U) as (w' & Ew & R). exists w'. rewrite failable_step, Ew. auto.
Qed.

Lemma gkeep_tree w w' o t : gkeep w w' -> tree_at w o t -> tree_at w' o t.
Proof. intros H (i & Hi & Hg). destruct (H o i Hi) as (i' & Hi' & Hg'). exists i'. split; congruence. Qed.

Lemma operator_acts op att (inds : list oid) (I S : world -> Prop) w w' :
  (forall w, op_apply op inds w =
     failable_apply (op_attempts op) (fun _ => ok <- att ;; ret (ok, Some inds)) (ret (Some inds)) w) ->
  nle (Fin 1) (op_prob op) = true -> 0 < op_attempts op ->
  (forall w w', gkeep w w' -> I w -> I w') -> (forall w w', gkeep w w' -> S w -> S w') ->
  (forall w, I w -> present inds w) -> (forall w, S w -> present inds w) ->
  (forall w, I w -> match att w with (Ok true, w') => S w' | (Ok false, _) => False | (Raise _, _) => True end) ->
  I w -> apply_operator op inds w = (Ok inds, w') -> S w'.
Proof.
  intros Eop Hprob Hatt KI KS PI PS H Hw. unfold apply_operator.
  destruct (wp_cases (okind_name (op_kind op)) (op_prob op) (op_apply op) inds w (PI _ Hw)) as (u & w1 & _ & Hu & K & [[Hf _]|[_ ->]]).
  - rewrite nle_one in Hf by auto. discriminate.
  - rewrite Eop. unfold failable_apply. destruct (op_attempts op) as [|k]; [lia|].
    rewrite failable_step. specialize (H w1 (KI _ _ K Hw)). destruct (att w1) as [[[|]|e] w2]; [|contradiction|discriminate].
    destruct (records_ok (okind_name (op_kind op)) inds inds w2 (PS _ H) (PS _ H)) as (w3 & E3 & K3).
    rewrite (bind_eq_ok _ _ _ _ _ E3). unfold ret. intros [= <-]. eauto.
Qed.

Lemma mut_attempt_regrown mn mx o t w : tree_at w o t -> complete_tree t -> open_for None t ->
  (forall n, In n (t_nodes t) -> clear_terminals t (delivers n)) -> (forall e, t_erc t = Some e -> erc_proper e) ->
  match mut_attempt mn mx [o] w with
  | (Ok true, w') => exists t', tree_at w' o t' /\ regrown mn mx t t'
  | (Ok false, _) => False
  | (Raise _, _) => True
  end.
Proof.
  intros Ht Hc Hop Hcl He. unfold mut_attempt. destruct (pick_spec None o w t Ht Hc) as (r & w1 & E & Hh & Hr).
  assert (Em : mapM (pick_subtree None) [o] w = (Ok [r], w1)) by (cbn [mapM]; rewrite (bind_eq_ok _ _ _ _ _ E); reflexivity).
  rewrite (bind_eq_ok _ _ _ _ _ Em). destruct r as [l|]; [|contradiction]. destruct Hr as (c & Hp). pose proof Hp as (El & Hfirst & rt & Hs & Ef & Hsub & Hel). subst l.
  cbn [all_somes combine]. assert (Ht1 : tree_at w1 o t). { destruct Ht as (i & Hi & Hg). exists i. split; [|exact Hg]. unfold at_ in *. rewrite Hh. exact Hi. }
  destruct Ht1 as (i & Hi & Hg). destruct (flatten_hd (p_sub c)) as (rest & Er).
  assert (Hin : In (label (p_sub c)) (t_nodes t)) by (rewrite <- Ef; eapply subtree_label_in; eauto).
  unfold bind at 1. cbn [iterM]. unfold bind at 1. unfold mut_one. rewrite (bind_eq_ok _ _ _ _ _ (load_tree_at _ _ _ _ Hi Hg)).
  rewrite Er. rewrite (picked_label None t _ c Hc Hp). set (nt := delivers (label (p_sub c))) in *.
  destruct (grow_tree (grow_fuel mn mx 0) t mn mx (Fin (1 # 2)) 0 nt (w_rng w1)) as [[l|e] g'] eqn:Eg.
  - rewrite (bind_eq_ok _ _ _ _ _ (liftR_eq _ _ _ _ Eg)). rewrite <- Er. rewrite (picked_replace None t c _ Hp).
    apply (grow_sound t nt _ _ _ (Hcl _ Hin) He) in Eg as (r & Hpr & <-); [|left; reflexivity|lia].
    unfold bind, lift, put_genome. rewrite (modify_at _ _ _ i) by exact Hi. cbn.
    exists (filled t c r). split; [eexists; split; [eapply at_put_same; exact Hi|reflexivity]|].
    exists rt, c, r. auto 10.
  - rewrite (bind_eq_raise _ _ _ _ _ (liftR_eq _ _ _ _ Eg)). exact I.
Qed.

Lemma tree_moves op mn mx o w t t' : op_kind op = OSubtreeMut mn mx -> 1 <= op_attempts op -> nle (Fin 1) (op_prob op) = true -> tree_at w o t ->
  complete_tree t -> open_for None t -> (forall n, In n (t_nodes t) -> clear_terminals t (delivers n)) -> (forall e, t_erc t = Some e -> erc_proper e) ->
  (regrown mn mx t t' <-> exists g w', apply_operator op [o] (with_rng w g) = (Ok [o], w') /\ tree_at w' o t').
Proof.
  intros Hk Ha Hp Ht Hc Hop Hcl He. split.
  - intros Hr. destruct (subtree_goes op mn mx o t t' Hk Ha) as (ds & G); auto.
    { unfold can_happen. destruct (op_prob op) as [q| | |]; auto. rewrite nle_fin in *. eapply Qle_trans; [|exact Hp]. discriminate. }
    destruct (G (with_rng w (seeded_with ds)) Ht (seeded_ahead ds)) as (w' & E & _ & H'). exists (seeded_with ds), w'. auto.
  - intros (g & w' & E & H').
    assert (S : exists t1, tree_at w' o t1 /\ regrown mn mx t t1).
    { apply (operator_acts op (mut_attempt mn mx [o]) [o] (fun w => tree_at w o t) (fun w => exists t1, tree_at w o t1 /\ regrown mn mx t t1) (with_rng w g) w'); auto.
      - intros w1. unfold op_apply. rewrite Hk. reflexivity.
      - intros w1 w2 K. apply gkeep_tree, K.
      - intros w1 w2 K (t1 & H1 & H2). exists t1. split; [eapply gkeep_tree; eauto|exact H2].
      - intros w1 (i & Hi & _) o' [<-|[]]. eauto.
      - intros w1 (t1 & (i & Hi & _) & _) o' [<-|[]]. eauto.
      - intros w1 H1. apply mut_attempt_regrown; assumption. }
    destruct S as (t1 & H1 & H2). rewrite (tree_at_fun _ _ _ _ H' H1). exact H2.
Qed.

(** Without types the whole tree may be replaced: every program of the depths asked for is one application away. *)
Lemma any_program op mn mx o w t r : op_kind op = OSubtreeMut mn mx -> 1 <= op_attempts op -> can_happen (op_prob op) -> tree_at w o t ->
  complete_tree t -> (forall n, In n (t_nodes t) -> delivers n = None) -> clear_terminals t None -> (forall e, t_erc t = Some e -> erc_proper e) ->
  program t mn (Nat.max mn mx) 0 None r ->
  exists g w', apply_operator op [o] (with_rng w g) = (Ok [o], w') /\ tree_at w' o (with_nodes t (flatten r)).
Proof.
  intros Hk Ha Hp Ht Hc Hn Hcl He Hr. pose proof Hc as (_ & _ & rt & Hs & E). destruct (flatten_hd rt) as (rest & Er).
  assert (Hroot : delivers (label rt) = None) by (apply Hn; rewrite <- E, Er; left; reflexivity).
  destruct (subtree_goes op mn mx o t (with_nodes t (flatten r)) Hk Ha Hp Hc) as (ds & G).
  - intros n Hi. rewrite (Hn n Hi). exact Hcl.
  - exact He.
  - exists rt, (mkPlace [] rt []), r. cbn. split; [exact Hs|]. split; [exact E|]. split; [constructor|]. split; [intros []|]. split; [left; exact Hroot|].
    rewrite Hroot. split; [exact Hr|]. unfold filled. cbn. rewrite app_nil_r. reflexivity.
  - destruct (G (with_rng w (seeded_with ds)) Ht (seeded_ahead ds)) as (w' & E' & _ & H'). exists (seeded_with ds), w'. auto.
Qed.

(** ** Crossover points *)

Definition pair_at (a b : oid) (va vb : vec) (w : world) : Prop := vec_at w a va /\ vec_at w b vb.

Lemma goes_pair {A} a b va vb (m : M A) x : steps gkeep m -> (forall w, pair_at a b va vb w -> exists w', m w = (Ok x, w') /\ w_rng w' = w_rng w) ->
  goes (pair_at a b va vb) m [] x (pair_at a b va vb).
Proof.
  intros K H w Hv _. destruct (H w Hv) as (w' & E & R). exists w'. split; [exact E|]. split; [rewrite R; symmetry; apply advance_0|].
  pose proof (K w) as Kw. rewrite E in Kw. cbn in Kw. destruct Hv. split; eapply vec_keep; eauto.
Qed.

Lemma record_pair name a b va vb o : o = a \/ o = b -> goes (pair_at a b va vb) (record_applied name [a; b] o) [] tt (pair_at a b va vb).
Proof.
  intros Ho. apply goes_pair; [apply gk_record|]. intros w [(ia & Ha & _) (ib & Hb & _)].
  assert (exists i, at_ w o = Some i) as (i & Hi) by (destruct Ho as [->| ->]; eauto).
  unfold record_applied. rewrite (bind_eq_ok _ _ _ _ _ (load_at _ _ _ Hi)).
  rewrite (bind_eq_ok _ _ _ _ _ (store_at _ _ _ _ Hi)). destruct (i_update_parents i); [|eexists; split; reflexivity].
  set (w2 := put_at w o (add_applied name i)).
  assert (H2 : at_ w2 o = Some (add_applied name i)) by (eapply at_put_same; eauto).
  assert (X : forall x j, at_ w x = Some j -> exists j', at_ w2 x = Some j').
  { intros x j Hx. destruct (Nat.eq_dec x o) as [->|N]; [eauto|]. exists j. unfold w2. rewrite at_put_other by auto. exact Hx. }
  destruct (X _ _ Ha) as (ja & Hja). destruct (X _ _ Hb) as (jb & Hjb).
  assert (Em : mapM (fun p => x <- load p ;; ret (i_id x)) [a; b] w2 = (Ok [i_id ja; i_id jb], w2)).
  { cbn [mapM]. unfold bind, ret. rewrite (load_at _ _ _ Hja), (load_at _ _ _ Hjb). reflexivity. }
  rewrite (bind_eq_ok _ _ _ _ _ Em), (modify_at _ _ _ _ H2). eexists. split; reflexivity.
Qed.

Lemma sort_sorted l : StronglySorted lt l -> sort_stable Nat.ltb l = l.
Proof.
  intros S. induction S as [|x l S IH F]; [reflexivity|]. cbn. rewrite IH. destruct l as [|y l]; [reflexivity|]. inversion F. cbn [insert_stable].
  assert (y <? x = false) as -> by (apply Nat.ltb_ge; lia). reflexivity.
Qed.

Lemma crossing_goes op k a b va vb du u ds pts ca cb : op_kind op = OKPoint k -> emits random_unit du u -> nle u (op_prob op) = true -> a <> b ->
  emits (xo_points k (vsize va)) ds pts -> swap_vector_parts k (v_cells va) (v_cells vb) pts = Ok (ca, cb) ->
  goes (pair_at a b va vb) (apply_operator op [a; b]) (du ++ ds) [a; b] (pair_at a b (with_cells va ca) (with_cells vb cb)).
Proof.
  intros Hk Eu Hp Hne Ex E. unfold apply_operator, with_probability.
    eapply goes_bind; [apply goes_liftR; [intros v g H; exact H|exact Eu]|]. cbv beta. rewrite Hp.
    eapply goes_bind0.
    { apply goes_iterM. intros o Ho. apply goes_pair; [apply gk_modify; reflexivity|].
      intros v [(ia & Hia & _) (ib & Hib & _)]. assert (exists i, at_ v o = Some i) as (i & Hi) by (destruct Ho as [<-|[<-|[]]]; eauto).
      unfold set_fitness_not_evaluated. rewrite (modify_at _ _ _ _ Hi). eexists. split; reflexivity. }
    eapply goes_bind1 with (x := Some [a; b]) (Q := pair_at a b (with_cells va ca) (with_cells vb cb)).
    2:{ eapply goes_bind0; [apply goes_iterM; intros o Ho; apply record_pair; destruct Ho as [<-|[<-|[]]]; auto|]. apply goes_ret. }
    unfold op_apply. rewrite Hk. eapply goes_bind1; [|apply goes_ret].
    intros v [(ia & Hia & Gia) (ib & Hib & Gib)] U. unfold kpoint_apply.
    rewrite (bind_eq_ok _ _ _ _ _ (load_vec_at _ _ _ _ Hia Gia)).
    rewrite (bind_eq_ok _ _ _ _ _ (liftR_eq _ _ _ _ (Ex _ U))).
    set (w1 := mkWorld _ _ _).
    rewrite (bind_eq_ok _ _ _ _ _ (load_vec_at b w1 ib vb Hib Gib)).
    rewrite E. unfold lift at 1. unfold bind at 1. cbn [fst snd].
    unfold put_genome. assert (Hia1 : at_ w1 a = Some ia) by exact Hia. rewrite (bind_eq_ok _ _ _ _ _ (modify_at _ _ _ _ Hia1)).
    set (w2 := put_at w1 a _). assert (Hib2 : at_ w2 b = Some ib) by (unfold w2; rewrite at_put_other by assumption; exact Hib).
    rewrite (bind_eq_ok _ _ _ _ _ (modify_at _ _ _ _ Hib2)).
    eexists. split; [reflexivity|]. split; [reflexivity|].
    split; [eexists; split; [rewrite at_put_other by auto; eapply at_put_same; exact Hia1|reflexivity]|eexists; split; [eapply at_put_same; exact Hib2|reflexivity]].
Qed.

Lemma crossing op k a b w va vb pts ca cb : op_kind op = OKPoint k -> can_happen (op_prob op) -> a <> b -> vec_at w a va -> vec_at w b vb ->
  length pts = k -> StronglySorted lt pts -> (forall p, In p pts -> 1 <= p < vsize va) ->
  swap_vector_parts k (v_cells va) (v_cells vb) pts = Ok (ca, cb) ->
  exists g w', apply_operator op [a; b] (with_rng w g) = (Ok [a; b], w') /\ vec_at w' a (with_cells va ca) /\ vec_at w' b (with_cells vb cb).
Proof.
  intros Hk Hp Hne Ha Hb L S I E.
  assert (N : NoDup pts). { clear -S. induction S as [|x l S IH F]; constructor; [|exact IH]. intros H. rewrite Forall_forall in F. specialize (F _ H). lia. }
  destruct (emits_sample (seq 1 (vsize va - 1)) k pts (seq_NoDup _ _) N L) as (ds & Es).
  { intros i Hi. apply in_seq. specialize (I i Hi). lia. }
  assert (Ex : emits (xo_points k (vsize va)) (ds ++ []) pts).
  { unfold xo_points. eapply emits_bind; [exact Es|]. rewrite sort_sorted by exact S. intros g _. rewrite advance_0. reflexivity. }
  rewrite app_nil_r in Ex.
  assert (G : goes (pair_at a b va vb) (apply_operator op [a; b]) ([0%N] ++ ds) [a; b] (pair_at a b (with_cells va ca) (with_cells vb cb))).
  { exact (crossing_goes op k a b va vb _ _ ds pts ca cb Hk unit_zero (happens _ Hp) Hne Ex E). }
  destruct (G (with_rng w (seeded_with ([0%N] ++ ds)))) as (w' & E' & _ & H'); [split; assumption|apply seeded_ahead|].
  exists (seeded_with ([0%N] ++ ds)), w'. split; [exact E'|exact H'].
Qed.

Lemma cuts op a b w va vb ca cb : op_kind op = OKPoint 1 -> nle (Fin 1) (op_prob op) = true -> a <> b -> vec_at w a va -> vec_at w b vb ->
  vsize va = vsize vb -> 2 <= vsize va ->
  ((exists p, 1 <= p < vsize va /\ ca = firstn p (v_cells vb) ++ skipn p (v_cells va) /\ cb = firstn p (v_cells va) ++ skipn p (v_cells vb)) <->
   exists g w', apply_operator op [a; b] (with_rng w g) = (Ok [a; b], w') /\ vec_at w' a (with_cells va ca) /\ vec_at w' b (with_cells vb cb)).
Proof.
  intros Hk Hp Hne Ha Hb Hs H2. split.
  - intros (p & Hpp & -> & ->). apply (crossing op 1 a b w va vb [p]); auto.
    + unfold can_happen. destruct (op_prob op) as [q| | |]; auto. rewrite nle_fin in *. eapply Qle_trans; [|exact Hp]. discriminate.
    + repeat constructor.
    + intros q [<-|[]]. exact Hpp.
    + apply one_point; assumption.
  - intros (g & w' & E & Ha' & Hb').
    destruct (one_point_op op a b [] (with_rng w g) va vb Hk Hne) as (p & w2 & Hpp & E2 & Ha2 & Hb2); auto. { intros o []. }
    assert (w' = w2) by congruence. subst w2. exists p. split; [exact Hpp|].
    pose proof (vec_at_dec_eq _ _ _ _ Ha' Ha2) as Ea. pose proof (vec_at_dec_eq _ _ _ _ Hb' Hb2) as Eb. injection Ea as ->. injection Eb as ->. auto.
Qed.
