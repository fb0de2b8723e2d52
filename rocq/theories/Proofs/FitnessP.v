From Verif.Proofs Require Import Lib.
From Verif.Model Require Import Fitness.
From Verif.Spec Require Import FitnessSpec.
From Coq Require Import Lqa.

Lemma run_calls_app h1 h2 f : run_calls (h1 ++ h2) f = run_calls h2 (run_calls h1 f).
Proof. apply fold_left_app. Qed.

Lemma fstep_class f o : ft_class (fstep f o) = ft_class f.
Proof.
  destruct o; simpl; unfold set_fitness, set_not_evaluated; destruct (ft_class f) eqn:E; simpl; auto.
  destruct (ft_evaluated f); simpl; auto. destruct (ft_hib f); simpl; auto. destruct v; simpl; auto.
Qed.

Lemma run_calls_class h f : ft_class (run_calls h f) = ft_class f.
Proof.
  revert f. induction h as [|o h IH]; simpl; intros f; [reflexivity|].
  unfold run_calls in *. simpl. rewrite IH. apply fstep_class.
Qed.

Lemma fstep_simple f o : is_simple_class (ft_class f) = true ->
  ft_value (fstep f o) = match o with FSet v => v | FReset => VNone end /\
  ft_evaluated (fstep f o) = match o with FSet _ => true | FReset => false end /\
  ft_relative (fstep f o) = ft_relative f.
Proof.
  destruct o; simpl; unfold set_fitness, set_not_evaluated; destruct (ft_class f); simpl; auto; discriminate.
Qed.

Lemma run_calls_relative h f : is_simple_class (ft_class f) = true -> ft_relative (run_calls h f) = ft_relative f.
Proof.
  revert f. induction h as [|o h IH]; simpl; intros f Hf; [reflexivity|].
  unfold run_calls in *. simpl. rewrite IH.
  - apply fstep_simple. assumption.
  - rewrite fstep_class. assumption.
Qed.

Lemma history h f : is_simple_class (ft_class f) = true ->
  get_pure_fitness (run_calls h f) =
    match last_effect h with
    | None => get_pure_fitness f
    | Some (Some v) => Ok v
    | Some None => Raise ValueError
    end /\
  (is_fitness_evaluated (run_calls h f) = true <->
     ft_relative f = true \/ exists v, get_pure_fitness (run_calls h f) = Ok v).
Proof.
  intros Hf. split.
  - unfold last_effect. destruct (rev h) as [|o r] eqn:E.
    + apply (f_equal (@rev _)) in E. rewrite rev_involutive in E. subst h. reflexivity.
    + apply (f_equal (@rev _)) in E. rewrite rev_involutive in E. subst h. simpl rev.
      rewrite run_calls_app. unfold run_calls at 1. simpl fold_left.
      set (f' := run_calls (rev r) f).
      assert (Hf' : is_simple_class (ft_class f') = true) by (unfold f'; rewrite run_calls_class; assumption).
      destruct (fstep_simple f' o Hf') as (Hv & He & _).
      unfold get_pure_fitness. destruct o; rewrite He, ?Hv; reflexivity.
  - unfold is_fitness_evaluated. rewrite run_calls_relative by assumption.
    unfold get_pure_fitness. destruct (ft_relative f); [split; auto|].
    destruct (ft_evaluated (run_calls h f)).
    + split; eauto.
    + split; intros H; [discriminate|]. destruct H as [H|[v H]]; discriminate.
Qed.

(** ** Order *)

Lemma better_char f n g m a b : scores f n a -> scores g m b ->
  simple_better_than f n g m = Ok (if hib_truthy (ft_hib f) then nlt b a else nlt a b) /\
  simple_equal_to f n g m = Ok (neq_num a b).
Proof.
  intros (Hcf & Hef & Haf & Hnf) (Hcg & Heg & Hag & Hng).
  unfold simple_better_than, simple_equal_to, check_comparable, is_fitness_evaluated.
  rewrite Hcg, Hef, Heg. simpl.
  assert (E : negb (if ft_relative f then true else true) || negb (if ft_relative g then true else true) = false)
    by (destruct (ft_relative f), (ft_relative g); reflexivity).
  rewrite E. simpl. rewrite Haf, Hag. simpl.
  split; [destruct (hib_truthy _)|]; reflexivity.
Qed.

Lemma better_direction f n g m a b : scores f n a -> scores g m b ->
  exists r, simple_better_than f n g m = Ok r /\ (r = true <-> better_score (hib_truthy (ft_hib f)) a b).
Proof.
  intros Hf Hg. destruct (better_char _ _ _ _ _ _ Hf Hg) as [H _]. eexists. split; [exact H|].
  unfold better_score. destruct (hib_truthy (ft_hib f)); tauto.
Qed.

Lemma better_irrefl f n a : scores f n a -> simple_better_than f n f n = Ok false.
Proof.
  intros Hf. destruct (better_char _ _ _ _ _ _ Hf Hf) as [-> _]. rewrite nlt_irrefl.
  destruct (hib_truthy _); reflexivity.
Qed.

Lemma better_asym f n g m a b : scores f n a -> scores g m b -> same_direction f g ->
  simple_better_than f n g m = Ok true -> simple_better_than g m f n = Ok false.
Proof.
  intros Hf Hg Hd. destruct (better_char _ _ _ _ _ _ Hf Hg) as [-> _], (better_char _ _ _ _ _ _ Hg Hf) as [-> _].
  rewrite <- Hd. intros H. injection H as H. destruct (hib_truthy (ft_hib f)); f_equal; apply nlt_asym; assumption.
Qed.

Lemma better_trans f n g m h k a b c : scores f n a -> scores g m b -> scores h k c ->
  same_direction f g -> same_direction g h ->
  simple_better_than f n g m = Ok true -> simple_better_than g m h k = Ok true ->
  simple_better_than f n h k = Ok true.
Proof.
  intros Hf Hg Hh Hd Hd'. destruct (better_char _ _ _ _ _ _ Hf Hg) as [-> _], (better_char _ _ _ _ _ _ Hg Hh) as [-> _],
    (better_char _ _ _ _ _ _ Hf Hh) as [-> _].
  rewrite <- Hd. intros H H'. injection H as H. injection H' as H'.
  destruct (hib_truthy (ft_hib f)); f_equal; eapply nlt_trans; eassumption.
Qed.

Lemma better_negtrans f n g m h k a b c : scores f n a -> scores g m b -> scores h k c ->
  same_direction f g -> same_direction g h ->
  simple_better_than f n g m = Ok false -> simple_better_than g m h k = Ok false ->
  simple_better_than f n h k = Ok false.
Proof.
  intros Hf Hg Hh Hd Hd'. destruct (better_char _ _ _ _ _ _ Hf Hg) as [-> _], (better_char _ _ _ _ _ _ Hg Hh) as [-> _],
    (better_char _ _ _ _ _ _ Hf Hh) as [-> _].
  rewrite <- Hd. intros H H'. injection H as H. injection H' as H'.
  destruct Hf as (_ & _ & _ & Na), Hg as (_ & _ & _ & Nb), Hh as (_ & _ & _ & Nc).
  destruct (hib_truthy (ft_hib f)); f_equal; eapply (nlt_negtrans _ b); eassumption.
Qed.

Lemma equal_incomparable f n g m a b : scores f n a -> scores g m b -> same_direction f g ->
  exists e, simple_equal_to f n g m = Ok e /\
  (e = true <-> simple_better_than f n g m = Ok false /\ simple_better_than g m f n = Ok false).
Proof.
  intros Hf Hg Hd. destruct (better_char _ _ _ _ _ _ Hf Hg) as [-> He], (better_char _ _ _ _ _ _ Hg Hf) as [-> _].
  eexists. split; [exact He|]. rewrite <- Hd.
  destruct Hf as (_ & _ & _ & Na), Hg as (_ & _ & _ & Nb).
  split.
  - intros H. pose proof (neq_nlt _ _ H) as H1. rewrite neq_num_sym in H. pose proof (neq_nlt _ _ H) as H2.
    rewrite H1, H2. destruct (hib_truthy _); auto.
  - intros [H1 H2]. destruct (nlt_total a b Na Nb) as [H|[H|H]]; auto;
      destruct (hib_truthy _); inv H1; inv H2; congruence.
Qed.

(** Finite scores and weights always give a comparable fitness. *)
Lemma finite_scores f n s : is_simple_class (ft_class f) = true -> ft_evaluated f = true ->
  ft_value f = VNum (Fin s) ->
  match ft_class f with KGP w => is_fin w = true | _ => True end ->
  exists a, scores f n (Fin a).
Proof.
  intros Hc He Hv Hw. unfold scores, get_augmented_fitness, get_pure_fitness. rewrite He, Hv. simpl.
  destruct (ft_class f) as [|w|]; try discriminate.
  - exists s. auto.
  - destruct w as [w| | |]; try discriminate. destruct (neq_num (Fin w) (Fin 0)); [exists s; auto|].
    destruct (hib_truthy _); eexists; repeat split.
Qed.

(** NaN: neither better nor equal. *)
Lemma nan_not_trichotomous : exists f g,
  ft_evaluated f = true /\ ft_evaluated g = true /\
  simple_better_than f 0 g 0 = Ok false /\ simple_better_than g 0 f 0 = Ok false /\
  simple_equal_to f 0 g 0 = Ok false /\ simple_equal_to f 0 f 0 = Ok false.
Proof.
  exists (mkFit KSimple (VNum NaN) true (HB false) false false (Fin 0) PInf),
         (mkFit KSimple (VNum (Fin 0)) true (HB false) false false (Fin 0) PInf).
  repeat split.
Qed.

Lemma mixed_flags_symmetric : exists f g,
  simple_better_than f 0 g 0 = Ok true /\ simple_better_than g 0 f 0 = Ok true.
Proof.
  exists (mkFit KSimple (VNum (Fin 1)) true (HB true) false false (Fin 0) PInf),
         (mkFit KSimple (VNum (Fin 0)) true (HB false) false false (Fin 0) PInf).
  split; reflexivity.
Qed.

(** An unevaluated fitness is never compared silently. *)
Lemma unevaluated_raises f n g m : is_simple_class (ft_class f) = true -> is_simple_class (ft_class g) = true ->
  ft_evaluated f = false \/ ft_evaluated g = false ->
  (forall w, ft_class f = KGP w -> exists x, ft_value f = VNum x) ->
  simple_better_than f n g m = Raise ValueError /\ simple_equal_to f n g m = Raise ValueError.
Proof.
  intros Hf Hg H Hgp. unfold simple_better_than, simple_equal_to, check_comparable, get_augmented_fitness, get_pure_fitness.
  rewrite Hg. simpl. unfold is_fitness_evaluated.
  destruct H as [H|H]; rewrite H.
  - destruct (ft_relative f), (ft_relative g), (ft_evaluated g); simpl; auto.
  - destruct (ft_relative f), (ft_relative g), (ft_evaluated f); simpl; auto.
    + destruct (ft_class f) as [|w|]; simpl; auto. destruct (Hgp w eq_refl) as (x & ->).
      destruct (neq_num w (Fin 0)); simpl; auto. destruct (hib_truthy _); simpl; auto.
    + destruct (ft_class f) as [|w|]; simpl; auto. destruct (Hgp w eq_refl) as (x & ->).
      destruct (neq_num w (Fin 0)); simpl; auto. destruct (hib_truthy _); simpl; auto.
Qed.

(** ** Bloat control *)

Lemma nof_nat_lt n m : n < m -> (inject_Z (Z.of_nat n) < inject_Z (Z.of_nat m))%Q.
Proof. intros H. rewrite <- Zlt_Qlt. lia. Qed.

Lemma bloat_smaller_better f g n m s w : ft_class f = KGP (Fin w) -> ft_class g = KGP (Fin w) -> (0 < w)%Q ->
  ft_evaluated f = true -> ft_evaluated g = true ->
  ft_value f = VNum (Fin s) -> ft_value g = VNum (Fin s) -> same_direction f g -> n < m ->
  simple_better_than f n g m = Ok true /\ simple_better_than g m f n = Ok false.
Proof.
  intros Hcf Hcg Hw Hef Heg Hvf Hvg Hd Hnm.
  pose proof (nof_nat_lt _ _ Hnm) as Hq.
  unfold simple_better_than, check_comparable, get_augmented_fitness, get_pure_fitness, is_fitness_evaluated.
  rewrite Hcf, Hcg, Hef, Heg, Hvf, Hvg, <- Hd. simpl.
  assert (E : negb (if ft_relative f then true else true) || negb (if ft_relative g then true else true) = false)
    by (destruct (ft_relative f), (ft_relative g); reflexivity).
  assert (E' : negb (if ft_relative g then true else true) || negb (if ft_relative f then true else true) = false)
    by (destruct (ft_relative f), (ft_relative g); reflexivity).
  rewrite E, E'.
  assert (Ew : Qeq_bool w 0 = false).
  { destruct (Qeq_bool w 0) eqn:Ew; auto. apply Qeq_bool_iff in Ew. lra. }
  rewrite Ew.
  assert (Hm : (w * inject_Z (Z.of_nat n) < w * inject_Z (Z.of_nat m))%Q) by nra.
  destruct (hib_truthy (ft_hib f)); simpl; split; f_equal;
    rewrite ?Qlt_b_spec, ?Qlt_b_false; lra.
Qed.

(** The augmented fitness moves towards worse with size. *)
Lemma bloat_antitone f n m s w : ft_class f = KGP (Fin w) -> (0 < w)%Q -> ft_evaluated f = true ->
  ft_value f = VNum (Fin s) -> n <= m ->
  exists a b, get_augmented_fitness f n = Ok (VNum (Fin a)) /\ get_augmented_fitness f m = Ok (VNum (Fin b)) /\
    (if hib_truthy (ft_hib f) then (b <= a)%Q else (a <= b)%Q) /\ get_pure_fitness f = Ok (VNum (Fin s)).
Proof.
  intros Hc Hw He Hv Hnm. unfold get_augmented_fitness, get_pure_fitness. rewrite Hc, He, Hv. simpl.
  assert (Ew : Qeq_bool w 0 = false).
  { destruct (Qeq_bool w 0) eqn:Ew; auto. apply Qeq_bool_iff in Ew. lra. }
  rewrite Ew.
  assert (Hq : (inject_Z (Z.of_nat n) <= inject_Z (Z.of_nat m))%Q) by (rewrite <- Zle_Qle; lia).
  destruct (hib_truthy (ft_hib f)); eexists; eexists; repeat split; nra.
Qed.

(** Exact trade-off: [k] extra nodes cost [k * w] of score. *)
Lemma bloat_tradeoff f g n m s t w : ft_class f = KGP (Fin w) -> ft_class g = KGP (Fin w) -> (0 < w)%Q ->
  ft_evaluated f = true -> ft_evaluated g = true ->
  ft_value f = VNum (Fin s) -> ft_value g = VNum (Fin t) -> same_direction f g ->
  exists r, simple_better_than f n g m = Ok r /\
    (r = true <-> if hib_truthy (ft_hib f)
                  then (t - s < w * (inject_Z (Z.of_nat m) - inject_Z (Z.of_nat n)))%Q
                  else (s - t < w * (inject_Z (Z.of_nat m) - inject_Z (Z.of_nat n)))%Q).
Proof.
  intros Hcf Hcg Hw Hef Heg Hvf Hvg Hd.
  unfold simple_better_than, check_comparable, get_augmented_fitness, get_pure_fitness, is_fitness_evaluated.
  rewrite Hcf, Hcg, Hef, Heg, Hvf, Hvg, <- Hd. simpl.
  assert (E : negb (if ft_relative f then true else true) || negb (if ft_relative g then true else true) = false)
    by (destruct (ft_relative f), (ft_relative g); reflexivity).
  rewrite E.
  assert (Ew : Qeq_bool w 0 = false).
  { destruct (Qeq_bool w 0) eqn:Ew; auto. apply Qeq_bool_iff in Ew. lra. }
  rewrite Ew.
  destruct (hib_truthy (ft_hib f)); simpl; (eexists; split; [reflexivity|]); rewrite Qlt_b_spec;
    split; intros; lra.
Qed.

Lemma bloat_zero f n w : ft_class f = KGP w -> neq_num w (Fin 0) = true ->
  get_augmented_fitness f n = get_pure_fitness f.
Proof.
  intros Hc Hw. unfold get_augmented_fitness. rewrite Hc, Hw. destruct (get_pure_fitness f); reflexivity.
Qed.

(** ** Multi-objective fitness (C01) *)

Lemma fstep_nsga2 f o : ft_class f = KNSGA2 -> ft_class (fstep f o) = KNSGA2 /\
  (ft_evaluated f = true -> forall v, o = FSet v -> fst (set_fitness f v) = Raise AttributeError /\ fstep f o = f) /\
  (ft_evaluated f = false -> forall v, o = FSet v -> ft_evaluated (fstep f o) = true /\ ft_value (fstep f o) = v) /\
  (o = FReset -> ft_evaluated (fstep f o) = false /\ ft_rank (fstep f o) = PInf /\ ft_crowding (fstep f o) = Fin 0).
Proof.
  intros K. destruct o as [v|]; unfold fstep, set_fitness, set_not_evaluated; rewrite K.
  - destruct (ft_evaluated f) eqn:E; simpl.
    + split; [exact K|]. split; [|split; [discriminate|discriminate]]. intros _ v' Hv. injection Hv as <-. auto.
    + split; [destruct (ft_hib f); [destruct v|]; exact K|]. split; [discriminate|]. split; [|discriminate].
      intros _ v' Hv. injection Hv as <-. destruct (ft_hib f); [destruct v|]; split; reflexivity.
  - split; [exact K|]. split; [discriminate|]. split; [discriminate|]. intros _. repeat split.
Qed.

Lemma leading_app h v : leading_sets (FSet v :: h) = v :: leading_sets h. Proof. reflexivity. Qed.

Lemma nsga2_history h : forall f, ft_class f = KNSGA2 -> ft_evaluated f = false ->
  ft_class (run_calls h f) = KNSGA2 /\
  get_pure_fitness (run_calls h f) = match first_since_reset h with Some v => Ok v | None => Raise ValueError end.
Proof.
  induction h as [|o h IH] using rev_ind; intros f K E.
  - split; [exact K|]. unfold get_pure_fitness. simpl. rewrite E. reflexivity.
  - destruct (IH f K E) as [IK IV]. unfold run_calls in *. rewrite fold_left_app. cbn [fold_left].
    set (g := fold_left fstep h f) in *. destruct (fstep_nsga2 g o IK) as (C & A & B & D). split; [exact C|].
    unfold first_since_reset, since_reset in *. rewrite rev_app_distr. cbn [rev app].
    destruct o as [v|].
    + rewrite leading_app. cbn [rev]. destruct (ft_evaluated g) eqn:Eg.
      * destruct (A eq_refl v eq_refl) as [_ ->]. rewrite IV. unfold get_pure_fitness in IV. rewrite Eg in IV.
        destruct (rev (leading_sets (rev h))) as [|x l]; [discriminate|reflexivity].
      * destruct (B eq_refl v eq_refl) as [B1 B2]. unfold get_pure_fitness in *. rewrite Eg in IV. rewrite B1, B2.
        destruct (rev (leading_sets (rev h))) as [|x l]; [reflexivity|discriminate].
    + destruct (D eq_refl) as [D1 _]. unfold get_pure_fitness. rewrite D1. reflexivity.
Qed.

Lemma nsga2_reset h f : ft_class f = KNSGA2 -> ft_evaluated f = false ->
  ft_rank (run_calls (h ++ [FReset]) f) = PInf /\ ft_crowding (run_calls (h ++ [FReset]) f) = Fin 0.
Proof.
  intros K E. destruct (nsga2_history h f K E) as [C _]. unfold run_calls in *. rewrite fold_left_app. cbn [fold_left].
  apply (fstep_nsga2 _ FReset C). reflexivity.
Qed.

Lemma nsga2_set_twice h f v : ft_class f = KNSGA2 -> ft_evaluated f = false -> since_reset h <> [] ->
  set_fitness (run_calls h f) v = (Raise AttributeError, run_calls h f).
Proof.
  intros K E S. destruct (nsga2_history h f K E) as [C V]. unfold first_since_reset in V.
  destruct (rev (since_reset h)) as [|x l] eqn:R.
  - exfalso. apply S. rewrite <- (rev_involutive (since_reset h)), R. reflexivity.
  - unfold get_pure_fitness in V. unfold set_fitness. rewrite C. destruct (ft_evaluated (run_calls h f)); [reflexivity|discriminate].
Qed.

Lemma new_fitness_state c v hib cache relative f : simple_fitness_init c v hib cache relative = Ok f ->
  get_pure_fitness f = match v with VNone => Raise ValueError | _ => Ok v end /\
  ft_class f = c /\ ft_relative f = relative /\ hib = Some (hib_truthy (ft_hib f)) /\
  (ft_cache f = true <-> cache = true /\ relative = false).
Proof.
  unfold simple_fitness_init. destruct hib as [b|]; [|discriminate]. intros H. injection H as <-. unfold get_pure_fitness. simpl.
  destruct v, relative, cache; repeat split; try tauto; try discriminate; intros [? ?]; discriminate.
Qed.

Lemma relative_not_copied c v hib cache f : simple_fitness_init c v hib cache true = Ok f ->
  get_pure_fitness (fit_getstate f) = Raise ValueError.
Proof.
  intros H. destruct (new_fitness_state _ _ _ _ _ _ H) as (_ & _ & _ & _ & K). unfold fit_getstate.
  destruct (ft_cache f); [|reflexivity]. destruct (proj1 K eq_refl) as [_ X]. discriminate.
Qed.

Lemma new_nsga2_state v hib cache relative f : nsga2_fitness_init v hib cache relative = Ok f ->
  ft_class f = KNSGA2 /\ get_pure_fitness f = match v with VNone => Raise ValueError | _ => Ok v end /\
  ft_rank f = PInf /\ ft_crowding f = Fin 0 /\ ft_relative f = relative /\ (ft_cache f = true <-> cache = true /\ relative = false) /\
  (forall l, hib = Some (HL l) -> ft_hib f = HL l) /\
  (forall b l, hib = Some (HB b) -> v = VList l -> ft_hib f = HL (repeat b (length l))) /\
  (forall b, hib = Some (HB b) -> v = VNone -> ft_hib f = HB b).
Proof.
  unfold nsga2_fitness_init. destruct hib as [[b|l]|]; [| |discriminate]; destruct v; intros H; try discriminate; injection H as <-;
    cbn; repeat split; try congruence; destruct relative, cache; cbn; intros; intuition congruence.
Qed.

Lemma other_values f n g m a v : scores f n a -> is_simple_class (ft_class g) = true -> ft_evaluated g = true ->
  get_augmented_fitness g m = Ok v -> (forall x, v <> VNum x) ->
  simple_better_than f n g m = Raise TypeError /\ simple_better_than g m f n = Raise TypeError /\
  simple_equal_to f n g m = Ok false /\ simple_equal_to g m f n = Ok false.
Proof.
  intros (C & E & A & _) C' E' A' N. unfold simple_better_than, simple_equal_to, check_comparable, is_fitness_evaluated.
  rewrite C, C', E, E', A, A'.
  replace (negb (if ft_relative f then true else true) || negb (if ft_relative g then true else true)) with false
    by (destruct (ft_relative f), (ft_relative g); reflexivity).
  replace (negb (if ft_relative g then true else true) || negb (if ft_relative f then true else true)) with false
    by (destruct (ft_relative f), (ft_relative g); reflexivity).
  cbn. destruct (hib_truthy (ft_hib f)), (hib_truthy (ft_hib g)), v; cbn; try (exfalso; apply (N x); reflexivity); auto.
Qed.

Lemma bloat_infinite f n w x : ft_class f = KGP (Fin w) -> ft_evaluated f = true -> ft_value f = VNum x -> is_fin x = false ->
  get_augmented_fitness f n = Ok (VNum x).
Proof.
  intros C E V F. unfold get_augmented_fitness, get_pure_fitness. rewrite C, E, V. cbn [rbind].
  destruct (neq_num (Fin w) (Fin 0)); [reflexivity|]. destruct (hib_truthy (ft_hib f)), x; try discriminate; reflexivity.
Qed.
