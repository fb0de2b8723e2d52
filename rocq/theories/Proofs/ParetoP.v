(** Proofs about Pareto dominance and the comparison of ranked individuals (C47, C51). *)
From Coq Require Import Lia.
From Verif.Proofs Require Export Lib FitnessP.
From Verif.Spec Require Export WorldSpec FitnessSpec Nsga2Spec.
From Verif.Model Require Import Num Fitness Tree World Nsga2.
Open Scope nat_scope.
Open Scope list_scope.

Lemma zip3_in h a b : forall d x y, In (d, x, y) (zip3 h a b) <->
  exists k, nth_error h k = Some d /\ nth_error a k = Some x /\ nth_error b k = Some y.
Proof.
  revert a b. induction h as [|d0 h IH]; intros a b d x y.
  { simpl. split; [intros []|]. intros (k & H & _). destruct k; discriminate. }
  destruct a as [|x0 a]; [simpl; split; [intros []|intros (k & _ & H & _); destruct k; discriminate]|].
  destruct b as [|y0 b]; [simpl; split; [intros []|intros (k & _ & _ & H); destruct k; discriminate]|].
  simpl. rewrite IH. split.
  - intros [[= -> -> ->]|(k & H)]; [exists 0; auto|exists (S k); exact H].
  - intros ([|k] & H); simpl in H; [left|right; eauto]. destruct H as (E1 & E2 & E3). congruence.
Qed.

Definition numbers (l : list num) : Prop := Forall (fun x => is_nan x = false) l.
Lemma numbers_nth l k x : numbers l -> nth_error l k = Some x -> is_nan x = false.
Proof. unfold numbers. rewrite Forall_forall. intros H E. apply H. eapply nth_error_In; eauto. Qed.

Lemma dominates_iff h a b : numbers a -> numbers b -> dominates h a b = true <-> pareto h a b.
Proof.
  intros Na Nb. unfold dominates. rewrite andb_true_iff, forallb_forall, existsb_exists. unfold pareto. split.
  - intros [H1 (((d & x) & y) & Hi & Hb)]. split.
    + intros k d' x' y' E1 E2 E3. pose proof (H1 (d', x', y')) as G. specialize (G (proj2 (zip3_in _ _ _ _ _ _) (ex_intro _ k (conj E1 (conj E2 E3))))).
      pose proof (numbers_nth _ _ _ Na E2). pose proof (numbers_nth _ _ _ Nb E3).
      unfold o1_at_least_o2 in G. unfold better_score. destruct d'; rewrite nle_not_lt in G by assumption;
        apply negb_true_iff in G; congruence.
    + apply zip3_in in Hi. destruct Hi as (k & E1 & E2 & E3). exists k, d, x, y. repeat (split; [assumption|]).
      unfold o1_better_o2 in Hb. unfold better_score. destruct d; exact Hb.
  - intros [H1 (k & d & x & y & E1 & E2 & E3 & Hb)]. split.
    + intros [[d' x'] y'] Hi. apply zip3_in in Hi. destruct Hi as (j & F1 & F2 & F3). specialize (H1 j d' x' y' F1 F2 F3).
      pose proof (numbers_nth _ _ _ Na F2). pose proof (numbers_nth _ _ _ Nb F3).
      unfold o1_at_least_o2. unfold better_score in H1. destruct d'; rewrite nle_not_lt by assumption;
        apply negb_true_iff; [destruct (nlt x' y') eqn:E|destruct (nlt y' x') eqn:E]; congruence.
    + exists (d, x, y). split; [apply zip3_in; eauto|]. unfold o1_better_o2. unfold better_score in Hb. destruct d; exact Hb.
Qed.

Lemma pareto_irrefl h a : ~ pareto h a a.
Proof.
  intros [_ (k & d & x & y & E1 & E2 & E3 & H)]. replace y with x in H by congruence.
  unfold better_score in H. destruct d; rewrite nlt_irrefl in H; discriminate.
Qed.

Lemma pareto_asym h a b : pareto h a b -> ~ pareto h b a.
Proof.
  intros [H _] [_ (k & d & x & y & E1 & E2 & E3 & B)]. exact (H k d y x E1 E3 E2 B).
Qed.

Lemma better_trans_num d x y z : better_score d x y -> better_score d y z -> better_score d x z.
Proof. unfold better_score. destruct d; intros H1 H2; eapply nlt_trans; eauto. Qed.

Lemma better_neg_trans d x y z : is_nan x = false -> is_nan y = false -> is_nan z = false ->
  ~ better_score d y x -> ~ better_score d z y -> ~ better_score d z x.
Proof.
  unfold better_score. intros Nx Ny Nz H1 H2. destruct d; rewrite not_true_iff_false in *.
  - eapply nlt_negtrans; [| | |exact H1|exact H2]; assumption.
  - eapply nlt_negtrans; [| | |exact H2|exact H1]; assumption.
Qed.

Lemma better_neg_l d x y z : is_nan x = false -> is_nan y = false -> is_nan z = false ->
  ~ better_score d y x -> better_score d y z -> better_score d x z.
Proof.
  intros Nx Ny Nz H1 H2.
  assert (D : better_score d x z \/ ~ better_score d x z) by (unfold better_score; destruct d; [destruct (nlt z x)|destruct (nlt x z)]; intuition congruence).
  destruct D as [D|D]; [exact D|]. exfalso. exact (better_neg_trans d z x y Nz Nx Ny D H1 H2).
Qed.

Lemma pareto_trans h a b c : numbers a -> numbers b -> numbers c -> length a = length h -> length b = length h -> length c = length h ->
  pareto h a b -> pareto h b c -> pareto h a c.
Proof.
  intros Na Nb Nc La Lb Lc [H1 (k & d & x & y & E1 & E2 & E3 & B)] [G1 _]. split.
  - intros j e u t F1 F2 F3. destruct (nth_error b j) as [m|] eqn:Fm.
    + pose proof (numbers_nth _ _ _ Na F2). pose proof (numbers_nth _ _ _ Nb Fm). pose proof (numbers_nth _ _ _ Nc F3).
      eapply better_neg_trans; [| | | |]; [| |assumption| |]; [| | |exact (G1 j e m t F1 Fm F3)]; auto. exact (H1 j e u m F1 F2 Fm).
    + exfalso. apply nth_error_None in Fm. apply nth_error_lt in F1. lia.
  - destruct (nth_error c k) as [z|] eqn:Fz.
    + exists k, d, x, z. repeat (split; [assumption|]). specialize (G1 k d y z E1 E3 Fz).
      pose proof (numbers_nth _ _ _ Na E2). pose proof (numbers_nth _ _ _ Nb E3). pose proof (numbers_nth _ _ _ Nc Fz).
      assert (D : better_score d x z \/ ~ better_score d x z) by (unfold better_score; destruct d; [destruct (nlt z x)|destruct (nlt x z)]; intuition congruence).
      destruct D as [D|D]; [exact D|]. exfalso. exact (better_neg_trans d y z x H0 H2 H G1 D B).
    + exfalso. apply nth_error_None in Fz. apply nth_error_lt in E1. lia.
Qed.

Lemma dominate_value f n g m h a b : objectives f h a -> objectives g h b -> dominate f n g m = Ok (dominates h a b).
Proof.
  intros [C E H V L N] [C' E' H' V' L' N']. unfold dominate, nsga2_check_comparable. rewrite C'. simpl.
  unfold is_fitness_evaluated. rewrite E, E'.
  replace (negb (if ft_relative f then true else true) || negb (if ft_relative g then true else true)) with false
    by (destruct (ft_relative f), (ft_relative g); reflexivity).
  unfold get_augmented_fitness, get_pure_fitness. rewrite E, E', C, C', V, V'. simpl. rewrite L, L', Nat.eqb_refl. simpl. rewrite H. reflexivity.
Qed.

Lemma dominate_meaning f n g m h a b : objectives f h a -> objectives g h b ->
  exists r, dominate f n g m = Ok r /\ (r = true <-> pareto h a b).
Proof.
  intros Hf Hg. eexists. split; [eapply dominate_value; eauto|]. apply dominates_iff; [apply (ob_numbers _ _ _ Hf)|apply (ob_numbers _ _ _ Hg)].
Qed.

Lemma dominate_irrefl f n h a : objectives f h a -> dominate f n f n = Ok false.
Proof.
  intros Hf. destruct (dominate_meaning f n f n h a a Hf Hf) as ([|] & E & H); [|exact E].
  exfalso. eapply pareto_irrefl. apply H. reflexivity.
Qed.

Lemma dominate_asym f n g m h a b : objectives f h a -> objectives g h b ->
  dominate f n g m = Ok true -> dominate g m f n = Ok false.
Proof.
  intros Hf Hg H. destruct (dominate_meaning f n g m h a b Hf Hg) as (r & E & I). destruct (dominate_meaning g m f n h b a Hg Hf) as (r' & E' & I').
  rewrite E'. destruct r'; [|reflexivity]. exfalso. rewrite E in H. injection H as ->. eapply pareto_asym; [apply I|apply I']; reflexivity.
Qed.

Lemma dominate_trans f n g m k p h a b c : objectives f h a -> objectives g h b -> objectives k h c ->
  dominate f n g m = Ok true -> dominate g m k p = Ok true -> dominate f n k p = Ok true.
Proof.
  intros Hf Hg Hk H1 H2. destruct (dominate_meaning f n g m h a b Hf Hg) as (r1 & E1 & I1).
  destruct (dominate_meaning g m k p h b c Hg Hk) as (r2 & E2 & I2). destruct (dominate_meaning f n k p h a c Hf Hk) as (r3 & E3 & I3).
  rewrite E1 in H1. rewrite E2 in H2. injection H1 as ->. injection H2 as ->. rewrite E3. f_equal. apply I3.
  eapply pareto_trans; [..|apply I1; reflexivity|apply I2; reflexivity];
    first [apply (ob_numbers _ _ _ Hf)|apply (ob_numbers _ _ _ Hg)|apply (ob_numbers _ _ _ Hk)|
           apply (ob_length _ _ _ Hf)|apply (ob_length _ _ _ Hg)|apply (ob_length _ _ _ Hk)].
Qed.
