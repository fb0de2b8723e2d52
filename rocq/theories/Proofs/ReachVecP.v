(** * The vectors that can be created, and how often. *)
From Coq Require Import Lia Permutation.
From Verif.Model Require Import Num Rng Vector Tree World Creators.
From Verif.Spec Require Import WorldSpec VectorSpec TreeSpec SelSpec PressureSpec ReachSpec.
From Verif.Proofs Require Import Lib WorldP VectorP VecOpP VecCreateP TreeP TreeCreateP PressureP ReachP.
From Verif.Model Require Import Num Rng Vector Tree World Creators.
Open Scope nat_scope.
Open Scope list_scope.

Definition cell_of (k : vkind) (p : num * num) (d : N) : num :=
  match k, p with
  | KFloat, (Fin a, Fin b) => Fin (a + (b - a) * (Z.of_N d # 9007199254740992))
  | KFloat, _ => NaN
  | _, (lo, _) => match num_to_Z lo with Some a => nof_Z (a + Z.of_N d) | None => NaN end
  end.

Definition span_of (k : vkind) (p : num * num) : N :=
  match k with
  | KFloat => 2 ^ 53
  | _ => match num_to_Z (fst p), num_to_Z (snd p) with Some a, Some b => Z.to_N (b - a + 1) | _, _ => 0 end
  end.

Definition cell_list (b : bounds) (len : nat) : list (num * num) := match b with BPair lo hi => repeat (lo, hi) len | BCells l => l end.

Definition good_cell (k : vkind) (p : num * num) : Prop :=
  exists lo hi, p = (lo, hi) /\
    match k with
    | KFloat => exists a b, lo = Fin a /\ hi = Fin b /\ (a < b)%Q
    | _ => exists a b, lo = nof_Z a /\ hi = nof_Z b /\ (a <= b)%Z
    end.

Lemma nlt_fin a b : nlt (Fin a) (Fin b) = true -> (a < b)%Q.
Proof. simpl. unfold Qlt_b. intros H. apply negb_true_iff in H. apply Qnot_le_lt. intros C. apply Qle_bool_iff in C. congruence. Qed.

Lemma cell_list_ok k b len : creatable len b k -> (k = KFloat -> wide b) ->
  length (cell_list b len) = len /\ Forall (good_cell k) (cell_list b len) /\ forall i, i < len -> bound_at b i = nth_error (cell_list b len) i.
Proof.
  intros (Hp & Hi & Hb) Hw.
  assert (G : forall lo hi, proper_interval (lo, hi) -> (k <> KFloat -> integral lo /\ integral hi) -> (k = KFloat -> nlt lo hi = true) -> good_cell k (lo, hi)).
  { intros lo hi (a & c & E & Hac) Hint Hwide. injection E as -> ->. exists (Fin a), (Fin c). split; [reflexivity|]. destruct k.
    - destruct Hint as [[x Ex] [y Ey]]; [discriminate|]. rewrite Ex, Ey. exists x, y. split; [reflexivity|]. split; [reflexivity|].
      injection Ex as ->. injection Ey as ->. rewrite Zle_Qle. exact Hac.
    - exists a, c. split; [reflexivity|]. split; [reflexivity|]. apply nlt_fin. auto.
    - destruct Hint as [[x Ex] [y Ey]]; [discriminate|]. rewrite Ex, Ey. exists x, y. split; [reflexivity|]. split; [reflexivity|].
      injection Ex as ->. injection Ey as ->. rewrite Zle_Qle. exact Hac. }
  destruct b as [lo hi|l]; simpl in *.
  - split; [apply repeat_length|]. split; [|intros i Hl; symmetry; apply nth_error_repeat; exact Hl].
    apply Forall_forall. intros p Hin. apply repeat_spec in Hin. subst p. apply G; auto.
  - destruct Hp as [L F]. split; [exact L|]. split; [|reflexivity]. apply Forall_forall. intros [lo hi] Hin. rewrite Forall_forall in F.
    apply G; [apply F; exact Hin| |].
    + intros K. specialize (Hi K). rewrite Forall_forall in Hi. apply (Hi _ Hin).
    + intros K. specialize (Hw K). rewrite Forall_forall in Hw. apply (Hw _ Hin).
Qed.

Lemma span_values k p lo hi n : good_cell k p -> p = (lo, hi) -> (values_in k lo hi n <-> n = span_of k p).
Proof.
  intros (lo' & hi' & E & Hk) E2. rewrite E2 in E. injection E as <- <-. subst p. unfold values_in, span_of. destruct k; [|reflexivity|].
  - destruct Hk as (a & b & -> & -> & Hab). cbn [fst snd]. rewrite !num_to_Z_of. split.
    + intros (x & y & Ex & Ey & En). injection Ex as <-. injection Ey as <-. lia.
    + intros ->. exists a, b. split; [reflexivity|]. split; [reflexivity|]. lia.
  - destruct Hk as (a & b & -> & -> & Hab). cbn [fst snd]. rewrite !num_to_Z_of. split.
    + intros (x & y & Ex & Ey & En). injection Ex as <-. injection Ey as <-. lia.
    + intros ->. exists a, b. split; [reflexivity|]. split; [reflexivity|]. lia.
Qed.

Lemma nof_Z_inj a b : nof_Z a = nof_Z b -> a = b.
Proof. intros H. injection H as H. exact H. Qed.

Lemma cell_bijection k lo hi : good_cell k (lo, hi) -> bijection (fun d => (d < span_of k (lo, hi))%N) (on_grid k lo hi) (cell_of k (lo, hi)).
Proof.
  intros (lo' & hi' & E & Hk). injection E as <- <-.
  assert (I : forall a b, lo = nof_Z a -> hi = nof_Z b -> (a <= b)%Z ->
    bijection (fun d => (d < Z.to_N (b - a + 1))%N) (fun x => exists a b z, lo = nof_Z a /\ hi = nof_Z b /\ (a <= z <= b)%Z /\ x = nof_Z z) (fun d => nof_Z (a + Z.of_N d))).
  { intros a b -> -> Hab. split; [|split].
    - intros d Hd. exists a, b, (a + Z.of_N d)%Z. split; [reflexivity|]. split; [reflexivity|]. split; [lia|reflexivity].
    - intros x y _ _ H. apply nof_Z_inj in H. lia.
    - intros x (a' & b' & z & Ea & Eb & Hz & ->). apply nof_Z_inj in Ea, Eb. subst a' b'. exists (Z.to_N (z - a)). split; [lia|]. f_equal. lia. }
  unfold span_of, on_grid, cell_of. cbn [fst snd]. destruct k.
  - destruct Hk as (a & b & -> & -> & Hab). rewrite !num_to_Z_of. apply I; auto.
  - destruct Hk as (a & b & -> & -> & Hab). split; [|split].
    + intros d Hd. exists a, b, d. auto.
    + intros x y _ _ H.
      assert (((a + (b - a) * (Z.of_N x # 9007199254740992)) == (a + (b - a) * (Z.of_N y # 9007199254740992)))%Q) as Q.
      { apply (f_equal (fun z => match z with Fin q => q | _ => 0%Q end)) in H. rewrite H. reflexivity. }
      apply Qplus_inj_l in Q. apply Qmult_inj_l in Q.
      * unfold Qeq in Q. simpl in Q. lia.
      * intros C. apply (Qlt_irrefl a). rewrite <- (Qplus_0_r a) at 2. rewrite <- C. ring_simplify. exact Hab.
    + intros x (a' & b' & j & Ea & Eb & Hj & ->). injection Ea as <-. injection Eb as <-. exists j. auto.
  - destruct Hk as (a & b & -> & -> & Hab). rewrite !num_to_Z_of. apply I; auto.
Qed.

Definition cells_of (k : vkind) (bl : list (num * num)) (ds : list N) : list num := map (fun t => cell_of k (fst t) (snd t)) (combine bl ds).

Lemma cells_bijection k bl : Forall (good_cell k) bl ->
  bijection (Forall2 (fun p d => (d < span_of k p)%N) bl) (Forall2 (fun p x => on_grid k (fst p) (snd p) x) bl) (cells_of k bl).
Proof.
  induction 1 as [|[lo hi] bl Hp _ (A & B & C)].
  - split; [|split].
    + intros x H. constructor.
    + intros x y Hx Hy _. inversion Hx; inversion Hy; congruence.
    + intros y Hy. inversion Hy. exists []. split; [constructor|reflexivity].
  - destruct (cell_bijection k lo hi Hp) as (A' & B' & C'). split; [|split].
    + intros x H. inversion H; subst. cbn. constructor; [apply A'; assumption|apply A; assumption].
    + intros x y Hx Hy E. inversion Hx; subst. inversion Hy; subst. cbn in E. injection E as E1 E2. f_equal; [apply B'; assumption|apply B; assumption].
    + intros y Hy. inversion Hy; subst. cbn in *. destruct (C' _ H1) as (d & Hd & Ed). destruct (C _ H3) as (ds & Hds & Eds).
      exists (d :: ds). split; [constructor; assumption|]. cbn. rewrite Ed. f_equal. exact Eds.
Qed.

Lemma Forall2_nth_iff {A B} (P : A -> B -> Prop) la lb :
  Forall2 P la lb <-> length la = length lb /\ forall i a b, nth_error la i = Some a -> nth_error lb i = Some b -> P a b.
Proof.
  split.
  - intros F. split; [eapply Forall2_len; eauto|]. intros i a b. eapply Forall2_nth_error; eauto.
  - revert lb. induction la as [|a la IH]; intros [|b lb] [L H]; try discriminate; constructor.
    + apply (H 0); reflexivity.
    + apply IH. split; [simpl in L; lia|]. intros i. apply (H (S i)).
Qed.

Lemma draws_cells k b len ds : creatable len b k -> (k = KFloat -> wide b) ->
  (cell_draws k b len ds <-> Forall2 (fun p d => (d < span_of k p)%N) (cell_list b len) ds).
Proof.
  intros Hc Hw. destruct (cell_list_ok k b len Hc Hw) as (L & G & Hb). rewrite Forall2_nth_iff, L. unfold cell_draws. rewrite Forall_forall in G. split.
  - intros [Ld H]. split; [auto|]. intros i [lo hi] d Hp Hd. destruct (H i d Hd) as (lo' & hi' & n & Hbd & Hv & Hlt).
    rewrite Hb in Hbd by (rewrite <- Ld; apply nth_error_Some; congruence). rewrite Hp in Hbd. injection Hbd as <- <-.
    apply (span_values k (lo, hi)) in Hv; [subst; exact Hlt|apply G; eapply nth_error_In; eauto|reflexivity].
  - intros [Ld H]. split; [auto|]. intros i d Hd. assert (Hi : i < len) by (rewrite Ld; apply nth_error_Some; congruence).
    rewrite (Hb i Hi). destruct (nth_error (cell_list b len) i) as [[lo hi]|] eqn:Ep; [|apply nth_error_None in Ep; lia].
    exists lo, hi, (span_of k (lo, hi)). split; [reflexivity|]. split; [|eapply H; eauto].
    apply (span_values k (lo, hi)); [apply G; eapply nth_error_In; eauto|reflexivity|reflexivity].
Qed.

Lemma space_cells k b len c : creatable len b k -> (k = KFloat -> wide b) ->
  (search_space k b len c <-> Forall2 (fun p x => on_grid k (fst p) (snd p) x) (cell_list b len) c).
Proof.
  intros Hc Hw. destruct (cell_list_ok k b len Hc Hw) as (L & G & Hb). rewrite Forall2_nth_iff, L. unfold search_space. split.
  - intros [Ld H]. split; [auto|]. intros i [lo hi] d Hp Hd. destruct (H i d Hd) as (lo' & hi' & Hbd & Hv).
    rewrite Hb in Hbd by (rewrite <- Ld; apply nth_error_Some; congruence). rewrite Hp in Hbd. injection Hbd as <- <-. exact Hv.
  - intros [Ld H]. split; [auto|]. intros i d Hd. assert (Hi : i < len) by (rewrite Ld; apply nth_error_Some; congruence).
    rewrite (Hb i Hi). destruct (nth_error (cell_list b len) i) as [[lo hi]|] eqn:Ep; [|apply nth_error_None in Ep; lia].
    exists lo, hi. split; [reflexivity|]. apply (H i (lo, hi)); assumption.
Qed.

Lemma emits_int a b d : (a <= b)%Z -> (d < Z.to_N (b - a + 1))%N -> emits (randint (nof_Z a) (nof_Z b)) [d] (nof_Z (a + Z.of_N d)).
Proof.
  intros H Hd. assert (Hz : (a <= a + Z.of_N d <= b)%Z) by lia. pose proof (emits_randint a b _ Hz) as E.
  replace (Z.to_N (a + Z.of_N d - a)) with d in E by lia. exact E.
Qed.

Lemma emits_cell k b len i lo hi d cells n0 : creatable len b k -> (k = KFloat -> wide b) -> i < len -> bound_at b i = Some (lo, hi) ->
  (d < span_of k (lo, hi))%N -> emits (get_random_number_in_bounds (mkVec k b n0 cells) i) [d] (cell_of k (lo, hi) d).
Proof.
  intros Hc Hw Hi Hb Hd. destruct (cell_list_ok k b len Hc Hw) as (L & G & Hb'). rewrite Forall_forall in G.
  assert (Hg : good_cell k (lo, hi)). { apply G. eapply nth_error_In. rewrite <- Hb'; [exact Hb|exact Hi]. }
  destruct Hg as (lo' & hi' & E & Hk). injection E as <- <-.
  assert (E : forall m, (m = randint lo hi -> k <> KFloat -> emits m [d] (cell_of k (lo, hi) d)) /\ (m = uniform lo hi -> k = KFloat -> emits m [d] (cell_of k (lo, hi) d))).
  { intros m. split; intros -> K; destruct k; try congruence.
    - destruct Hk as (a & c & -> & -> & Hac). unfold cell_of, span_of in *. cbn [fst snd] in *. rewrite !num_to_Z_of in *. apply emits_int; assumption.
    - destruct Hk as (a & c & -> & -> & Hac). unfold cell_of, span_of in *. cbn [fst snd] in *. rewrite !num_to_Z_of in *. apply emits_int; assumption.
    - destruct Hk as (a & c & -> & -> & Hac). apply emits_uniform. exact Hd. }
  unfold get_random_number_in_bounds. cbn [v_kind v_bounds]. destruct Hc as (_ & _ & Hbit). destruct k, b as [l0 h0|l]; cbn [bound_at] in Hb; try (injection Hb as -> ->).
  - apply (proj1 (E _)); [reflexivity|discriminate].
  - rewrite Hb. apply (proj1 (E _)); [reflexivity|discriminate].
  - apply (proj2 (E _)); reflexivity.
  - rewrite Hb. apply (proj2 (E _)); reflexivity.
  - apply (proj1 (E _)); [reflexivity|discriminate].
  - destruct (Hbit eq_refl) as (x & y & C). discriminate.
Qed.

Lemma emits_cells {X} (f : nat -> R X) ds (c : list X) : forall s, (forall i d x, nth_error ds i = Some d -> nth_error c i = Some x -> emits (f (s + i)) [d] x) ->
  length ds = length c -> emits (mapM f (seq s (length c))) ds c.
Proof.
  revert c. induction ds as [|d ds IH]; intros [|x c] s H L; try discriminate; [apply emits_ret|]. simpl. change (d :: ds) with ([d] ++ ds).
  eapply emits_bind; [specialize (H 0 d x eq_refl eq_refl); rewrite Nat.add_0_r in H; exact H|]. eapply emits_bind1; [|apply emits_ret].
  apply IH; [|simpl in L; lia]. intros i d' x' Hd Hx. specialize (H (S i) d' x' Hd Hx). rewrite <- Nat.add_succ_comm in H. exact H.
Qed.

Lemma emits_vector k b len ds : creatable len b k -> (k = KFloat -> wide b) -> cell_draws k b len ds ->
  emits (create_vector len (mkVec k b len [])) ds (mkVec k b len (cells_of k (cell_list b len) ds)).
Proof.
  intros Hc Hw Hd. unfold create_vector. pose proof Hd as Hd2. apply (draws_cells k b len ds Hc Hw) in Hd2.
  destruct (cell_list_ok k b len Hc Hw) as (L & G & Hb). pose proof (Forall2_len _ _ _ Hd2) as Ld.
  assert (Lc : length (cells_of k (cell_list b len) ds) = len) by (unfold cells_of; rewrite map_length, combine_length; lia).
  assert (EM : emits (mapM (get_random_number_in_bounds (mkVec k b len [])) (seq 0 len)) ds (cells_of k (cell_list b len) ds)).
  { pose proof (emits_cells (get_random_number_in_bounds (mkVec k b len [])) ds (cells_of k (cell_list b len) ds) 0) as EM. rewrite Lc in EM. apply EM; [|lia].
    intros i d x Hn Hx. unfold cells_of in Hx. rewrite nth_error_map in Hx. simpl. assert (Hi : i < len) by (rewrite <- L, Ld; apply nth_error_Some; congruence).
    destruct (nth_error (cell_list b len) i) as [[lo hi]|] eqn:Ep; [|apply nth_error_None in Ep; lia].
    assert (Ec : nth_error (combine (cell_list b len) ds) i = Some ((lo, hi), d)).
    { clear -Ep Hn. revert i ds Ep Hn. induction (cell_list b len) as [|p l IH]; intros [|i] [|e ds] A B; try discriminate; simpl in *; [congruence|]. apply IH; assumption. }
    rewrite Ec in Hx. injection Hx as <-. eapply emits_cell; eauto; [rewrite Hb; assumption|]. apply (Forall2_nth_error _ _ _ _ _ _ Hd2 Ep Hn). }
  eapply emits_bind1; [exact EM|]. unfold set_vector. cbn [v_kind v_bounds]. rewrite Lc. apply emits_ret.
Qed.

Lemma vectors_by_draws k b len fc upd h : creatable len b k -> (k = KFloat -> wide b) ->
  exists f, bijection (cell_draws k b len) (search_space k b len) f /\
    forall dss w, Forall (cell_draws k b len) dss -> ahead (w_rng w) (concat dss) ->
      exists os w', create_individuals (CVector len b k fc upd) (length dss) h w = (Ok os, w') /\
        Forall2 (fun o ds => vec_at w' o (mkVec k b len (f ds))) os dss.
Proof.
  intros Hc Hw. exists (cells_of k (cell_list b len)). destruct (cell_list_ok k b len Hc Hw) as (L & G & Hb). split.
  { destruct (cells_bijection k (cell_list b len) G) as (A & B & C). split; [|split].
    - intros x Hx. apply space_cells; auto. apply A. apply draws_cells; auto.
    - intros x y Hx Hy. apply B; apply draws_cells; auto.
    - intros y Hy. apply space_cells in Hy; auto. destruct (C y Hy) as (x & Hx & E). exists x. split; [apply draws_cells; auto|exact E]. }
  intros dss w Fd U. cbn [create_individuals]. unfold create_vectors.
  set (w1 := mkWorld (w_heap w ++ map (fresh_ind w (new_fitness fc h) upd (GVec (mkVec k b len []))) (seq 0 (length dss)))
               (w_next_id w + Z.of_nat (length dss))%Z (w_rng w)).
  set (os := seq (length (w_heap w)) (length dss)).
  assert (E : repeatM (length dss) (v <- lift (vector_init k b len None) ;; new_individual (new_fitness fc h) upd (GVec v)) w = (Ok os, w1)).
  { rewrite (repeatM_lift _ _ (fun v => new_individual (new_fitness fc h) upd (GVec v)) _ _ (vector_init_ok k b len (proj1 Hc))). apply new_many. }
  rewrite (bind_eq_ok _ _ _ _ _ E).
  destruct (fill (fun o => v <- load_vec o ;; v' <- liftR (create_vector len v) ;; put_genome o (GVec v'))
              (create_vector len (mkVec k b len [])) (GVec (mkVec k b len [])) GVec)
    with (dss := dss) (xs := map (fun ds => mkVec k b len (cells_of k (cell_list b len) ds)) dss) (os := os) (w := w1) as (w' & E' & _ & _ & F & _); auto.
  { intros o w2 i x g' Hi Hg Hx. rewrite (bind_eq_ok _ _ _ _ _ (load_vec_at _ _ _ _ Hi Hg)).
    rewrite (bind_eq_ok _ _ _ _ _ (liftR_eq _ _ _ _ Hx)). unfold put_genome. rewrite (modify_at _ _ _ i) by exact Hi. reflexivity. }
  { clear -Fd Hc Hw. induction Fd; constructor; auto. apply emits_vector; assumption. }
  { rewrite map_length. apply seq_length. }
  { apply seq_NoDup. }
  { apply fresh_has. }
  rewrite (bind_eq_ok _ _ _ _ _ E'). exists os, w'. split; [reflexivity|]. clearbody os. clear -F. revert dss F. induction os as [|o os IH]; intros [|ds dss] F; inversion F; subst; constructor; auto.
Qed.

(** ** Counting *)

Lemma number_of_image {A B} (P : A -> Prop) (Q : B -> Prop) f n : bijection P Q f -> number_of P n -> number_of Q n.
Proof.
  intros (H1 & H2 & H3) (L & N & I & E). exists (map f L). split; [|split].
  - assert (HP : forall x, In x L -> P x) by (intros; apply I; assumption). clear I E. induction N as [|x L Hx N IH]; [constructor|]. simpl. constructor.
    + intros C. apply in_map_iff in C. destruct C as (y & Ey & Hy). apply Hx. rewrite (H2 x y); auto; apply HP; [left; reflexivity|right; assumption].
    + apply IH. intros; apply HP; right; assumption.
  - intros y. rewrite in_map_iff. split.
    + intros (x & <- & Hx). apply H1. apply I. exact Hx.
    + intros Hy. destruct (H3 y Hy) as (x & Hx & <-). exists x. split; [reflexivity|]. apply I. exact Hx.
  - rewrite map_length. exact E.
Qed.

Lemma space_number k a b len : k <> KFloat -> (a <= b)%Z ->
  number_of (search_space k (BPair (nof_Z a) (nof_Z b)) len) (Z.to_nat (b - a + 1) ^ len).
Proof.
  intros K Hab. set (n := Z.to_nat (b - a + 1)).
  apply (number_of_image (drawn_from true len (seq 0 n)) _ (map (fun i => nof_Z (a + Z.of_nat i)))).
  - assert (Hgrid : forall x, on_grid k (nof_Z a) (nof_Z b) x <-> exists z, (a <= z <= b)%Z /\ x = nof_Z z).
    { intros x. destruct k; [|congruence|]; simpl; split.
      - intros (a' & b' & z & Ea & Eb & Hz & ->). apply nof_Z_inj in Ea, Eb. subst. eauto.
      - intros (z & Hz & ->). exists a, b, z. auto.
      - intros (a' & b' & z & Ea & Eb & Hz & ->). apply nof_Z_inj in Ea, Eb. subst. eauto.
      - intros (z & Hz & ->). exists a, b, z. auto. }
    split; [|split].
    + intros t (Lt & It & _). split; [rewrite map_length; exact Lt|]. intros i x Hx. rewrite nth_error_map in Hx.
      unfold oid in *. destruct (nth_error t i) as [j|] eqn:Ej; [|discriminate Hx]. injection Hx as <-. exists (nof_Z a), (nof_Z b). split; [reflexivity|]. apply Hgrid.
      assert (Hj : In j (seq 0 n)) by (apply It; eapply nth_error_In; eauto). apply in_seq in Hj. eexists. split; [|reflexivity]. lia.
    + intros x y _ _. revert y. induction x as [|i x IH]; intros [|j y] E; [reflexivity|discriminate E|discriminate E|]. cbn [map] in E.
      apply (f_equal (fun l => (hd NaN l, tl l))) in E. cbn [hd tl] in E. apply pair_equal_spec in E. destruct E as [E1 E2]. apply nof_Z_inj in E1. f_equal; [lia|auto].
    + intros c (Lc & Hc). exists (map (fun x => match num_to_Z x with Some z => Z.to_nat (z - a) | None => 0 end) c).
      assert (Hin : forall x, In x c -> exists z, (a <= z <= b)%Z /\ x = nof_Z z).
      { intros x Hx. apply In_nth_error in Hx. destruct Hx as (i & Hx). destruct (Hc i x Hx) as (lo & hi & E & Hg). injection E as <- <-. apply Hgrid. exact Hg. }
      split; [split; [rewrite map_length; exact Lc|split; [|discriminate]]|].
      * intros j Hj. apply in_map_iff in Hj. destruct Hj as (x & <- & Hx). destruct (Hin x Hx) as (z & Hz & ->). rewrite num_to_Z_of. apply in_seq. lia.
      * clear -Hin. induction c as [|x c IH]; [reflexivity|]. simpl. rewrite IH by (intros; apply Hin; right; assumption).
        destruct (Hin x (or_introl eq_refl)) as (z & Hz & ->). rewrite num_to_Z_of. do 2 f_equal. lia.
  - pose proof (tournaments_number true len (seq 0 n) (seq_NoDup n 0)) as T. unfold tournaments in T. rewrite seq_length in T. exact T.
Qed.

(** ** Nothing else is created *)

Lemma cell_sound k b len i n0 cells g x g' : creatable len b k -> i < len ->
  get_random_number_in_bounds (mkVec k b n0 cells) i g = (Ok x, g') -> exists lo hi, bound_at b i = Some (lo, hi) /\ on_grid k lo hi x.
Proof.
  intros (Hp & Hint & Hbit) Hi H. unfold get_random_number_in_bounds in H. cbn [v_kind v_bounds] in H.
  assert (I : forall lo hi, k <> KFloat -> integral lo -> integral hi -> randint lo hi g = (Ok x, g') -> on_grid k lo hi x).
  { intros lo hi K [a ->] [c ->] Hr. destruct (randint_spec a c g x g' Hr) as (z & -> & Hz). destruct k; [|congruence|]; exists a, c, z; auto. }
  assert (U : forall lo hi, k = KFloat -> proper_interval (lo, hi) -> uniform lo hi g = (Ok x, g') -> on_grid k lo hi x).
  { intros lo hi -> (a & c & E & _) Hr. injection E as -> ->. unfold uniform in Hr. mb Hr as u s2 Hu. mr Hr. unfold random_unit in Hu. mb Hu as d0 s3 Hd0. mr Hu.
    exists a, c, (d_n d0 mod N.pos two53)%N. split; [reflexivity|]. split; [reflexivity|]. split; [|reflexivity]. apply N.mod_upper_bound. discriminate. }
  destruct b as [lo hi|l]; cbn [bound_at proper_bounds integral_bounds] in *.
  - exists lo, hi. split; [reflexivity|]. destruct k; [| |].
    + destruct Hint; [discriminate|]. apply I; auto; discriminate.
    + apply U; auto.
    + destruct Hint; [discriminate|]. apply I; auto; discriminate.
  - destruct Hp as [L F]. destruct k.
    + destruct (nth_error l i) as [[lo hi]|] eqn:En; [|discriminate]. exists lo, hi. split; [reflexivity|].
      assert (Fi := Hint ltac:(discriminate)). rewrite Forall_forall in Fi. destruct (Fi _ (nth_error_In _ _ En)). apply I; auto; discriminate.
    + destruct (nth_error l i) as [[lo hi]|] eqn:En; [|discriminate]. exists lo, hi. split; [reflexivity|].
      rewrite Forall_forall in F. apply U; auto. apply F. eapply nth_error_In; eauto.
    + destruct (Hbit eq_refl) as (? & ? & C). discriminate.
Qed.

Lemma vectors_sound k b len fc upd n h w os w' : creatable len b k -> create_individuals (CVector len b k fc upd) n h w = (Ok os, w') ->
  forall o, In o os -> exists c, vec_at w' o (mkVec k b len c) /\ search_space k b len c.
Proof.
  intros Hc H o0 Ho0. cbn [create_individuals] in H. unfold create_vectors in H.
  set (w1 := mkWorld (w_heap w ++ map (fresh_ind w (new_fitness fc h) upd (GVec (mkVec k b len []))) (seq 0 n)) (w_next_id w + Z.of_nat n)%Z (w_rng w)).
  assert (E : repeatM n (v <- lift (vector_init k b len None) ;; new_individual (new_fitness fc h) upd (GVec v)) w = (Ok (seq (length (w_heap w)) n), w1)).
  { rewrite (repeatM_lift _ _ (fun v => new_individual (new_fitness fc h) upd (GVec v)) _ _ (vector_init_ok k b len (proj1 Hc))). apply new_many. }
  rewrite (bind_eq_ok _ _ _ _ _ E) in H. mb H as u w2 Hi. mr H.
  destruct (iterM_each (fun o => v <- load_vec o ;; v' <- liftR (create_vector len v) ;; put_genome o (GVec v'))
              (fun i => exists c, i_genome i = GVec (mkVec k b len c)) (fun i => exists c, i_genome i = GVec (mkVec k b len c) /\ search_space k b len c))
    with (l := seq (length (w_heap w)) n) (w := w1) (u := u) (w' := w') as (_ & P & _); try assumption.
  { intros i (c & Hg & _). eauto. }
  { intros o w3 i u' w4 Hi3 (c & Hg) H3. rewrite (bind_eq_ok _ _ _ _ _ (load_vec_at _ _ _ _ Hi3 Hg)) in H3. mb H3 as v' s0 Hv. apply liftR_ok in Hv.
    destruct Hv as (g' & Hcr & ->). unfold put_genome in H3. rewrite (modify_at _ _ _ i) in H3 by exact Hi3. injection H3 as <- <-.
    eexists. split; [|reflexivity]. unfold create_vector in Hcr. mb Hcr as cells s1 Hm. mr Hcr. exists cells.
    apply (mapM_each _ (fun j x => j < len -> exists lo hi, bound_at b j = Some (lo, hi) /\ on_grid k lo hi x)) in Hm.
    2:{ intros j g2 y g3 _ Hy Hj. eapply cell_sound; eauto. }
    pose proof (Forall2_len _ _ _ Hm) as Lm. rewrite seq_length in Lm. split; [unfold set_vector; cbn [v_kind v_bounds]; rewrite <- Lm; reflexivity|].
    split; [auto|]. intros j x Hx. assert (Hj : j < len) by (rewrite Lm; apply nth_error_Some; congruence).
    apply (Forall2_nth_error _ _ _ j j x Hm); auto. rewrite nth_error_nth' with (d := 0) by (rewrite seq_length; lia). rewrite seq_nth by lia. reflexivity. }
  { intros o Ho. destruct (fresh_has w (new_fitness fc h) upd (GVec (mkVec k b len [])) n o Ho) as (i & Hi' & Hg). exists i. split; [exact Hi'|]. eauto. }
  destruct (P o0 Ho0) as (i & Hi' & c & Hg & Hs). exists c. split; [exists i; auto|exact Hs].
Qed.
