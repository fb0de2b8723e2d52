(** Proofs about the sorting into fronts (C48-C50). *)
From Coq Require Import Lia Lqa Permutation Sorted QArith.
From Verif.Proofs Require Export ParetoP CrowdP.
From Verif.Model Require Import Num Fitness Tree World Nsga2.
Open Scope nat_scope.
Open Scope list_scope.

Lemma values_numbers h v o : numbers (values h v o).
Proof. unfold numbers, values. apply Forall_forall. intros x Hx. apply in_map_iff in Hx. destruct Hx as (k & <- & _). reflexivity. Qed.
Lemma values_length h v o : length (values h v o) = length h.
Proof. unfold values. rewrite map_length, seq_length. reflexivity. Qed.

Definition Db (h : list bool) (v : nat -> oid -> Q) (a b : oid) : bool := dominates h (values h v a) (values h v b).
Lemma Db_beats h v a b : Db h v a b = true <-> beats h v a b.
Proof. apply dominates_iff; apply values_numbers. Qed.
Lemma Db_beats_f h v a b : Db h v a b = false <-> ~ beats h v a b.
Proof. rewrite <- Db_beats. apply iff_sym, not_true_iff_false. Qed.

Lemma left_mono h v l k o : left_after h v l (S k) o -> left_after h v l k o.
Proof. simpl. tauto. Qed.
Lemma left_le h v l k j o : j <= k -> left_after h v l k o -> left_after h v l j o.
Proof. induction 1 as [|k Hk IH]; [auto|]. intros H. apply IH, left_mono, H. Qed.
Lemma left_in h v l k o : left_after h v l k o -> In o l.
Proof. apply (left_le h v l k 0). lia. Qed.
Lemma front_not_left h v l k r o : front h v l k o -> left_after h v l r o -> r <= k.
Proof.
  intros [H1 H2] H. destruct (le_lt_dec r k); [assumption|]. exfalso. apply (left_le h v l r (S k)) in H; [|lia].
  destruct H as [_ (p & Hp & B)]. exact (H2 p Hp B).
Qed.
Lemma front_unique h v l k j o : front h v l k o -> front h v l j o -> k = j.
Proof. intros H G. pose proof (front_not_left _ _ _ _ _ _ H (proj1 G)). pose proof (front_not_left _ _ _ _ _ _ G (proj1 H)). lia. Qed.

(** Every individual is in one of the first [r] fronts or left after them, given a list of those left. *)
Lemma front_dec h v l r cur : (forall x, In x cur <-> left_after h v l r x) -> forall x, In x cur -> front h v l r x \/ left_after h v l (S r) x.
Proof.
  intros H x Hx. destruct (existsb (fun p => Db h v p x) cur) eqn:E.
  - right. apply existsb_exists in E. destruct E as (p & Hp & B). split; [apply H; exact Hx|]. exists p. split; [apply H; exact Hp|apply Db_beats; exact B].
  - left. split; [apply H; exact Hx|]. intros p Hp B. apply H in Hp. apply Db_beats in B.
    apply not_true_iff_false in E. apply E. apply existsb_exists. eauto.
Qed.

Lemma crowded_ext m v F c c' : (forall x, In x F -> c' x = c x) -> crowded m v F c -> crowded m v F c'.
Proof.
  intros H (orders & L & H1 & H2). exists orders. split; [exact L|]. split; [exact H1|]. intros x Hx. rewrite H by exact Hx. auto.
Qed.

Lemma set_ranks k l : forall s, exists s', iterM (fun o => set_rank o k) l s = (Ok tt, s') /\
  s_doms s' = s_doms s /\ s_cnt s' = s_cnt s /\ s_crowd s' = s_crowd s /\
  forall x, s_rank s' x = if existsb (Nat.eqb x) l then k else s_rank s x.
Proof.
  induction l as [|o l IH]; intros s; [exists s; repeat (split; [reflexivity|]); reflexivity|].
  cbn [iterM]. rewrite (bind_eq_ok _ _ _ tt (mkSst (s_doms s) (s_cnt s) (s_crowd s) (upd (s_rank s) o k))) by reflexivity.
  destruct (IH (mkSst (s_doms s) (s_cnt s) (s_crowd s) (upd (s_rank s) o k))) as (s' & E & A & B & C & N).
  exists s'. split; [exact E|]. repeat (split; [assumption|]). intros x. rewrite N. simpl. unfold upd.
  destruct (Nat.eqb x o); simpl; [destruct (existsb (Nat.eqb x) l); reflexivity|reflexivity].
Qed.

Lemma NoDup_app_intro {A} (l l' : list A) : NoDup l -> NoDup l' -> (forall x, In x l -> ~ In x l') -> NoDup (l ++ l').
Proof.
  induction 1 as [|x l Hx Hl IH]; simpl; intros Hl' H; [exact Hl'|]. constructor.
  - intros Hi. apply in_app_or in Hi. destruct Hi as [Hi|Hi]; [contradiction|]. apply (H x); simpl; auto.
  - apply IH; [exact Hl'|]. intros y Hy. apply H. simpl. auto.
Qed.

Lemma sorted_split {A} (Rl : A -> A -> Prop) l l' : StronglySorted Rl (l ++ l') -> forall x y, In x l -> In y l' -> Rl x y.
Proof.
  induction l as [|a l IH]; simpl; intros H x y Hx Hy; [destruct Hx|]. inversion H as [|? ? H1 H2]; subst. rewrite Forall_forall in H2.
  destruct Hx as [<-|Hx]; [apply H2; apply in_or_app; auto|eauto].
Qed.

Lemma NoDup_app_l {A} (l l' : list A) : NoDup (l ++ l') -> NoDup l.
Proof.
  induction l as [|x l IH]; simpl; intros H; [constructor|]. inversion H as [|? ? H1 H2]; subst. constructor; [|auto].
  intros Hx. apply H1. apply in_or_app. auto.
Qed.

Section Loop.
  Variable dom : nat -> nat -> res bool.
  Variable obj : nat -> res (list num).
  Variable setorder : nat -> list nat -> list nat.
  Variable src : list nat.
  Variable h : list bool.
  Variable v : nat -> nat -> Q.
  Hypothesis dom_ok : forall a b, In a src -> In b src -> dom a b = Ok (Db h v a b).
  Hypothesis obj_ok : forall x, In x src -> obj x = Ok (values h v x).
  Hypothesis any : any_order setorder.
  Hypothesis src_nodup : NoDup src.
  Variable s0 : sst.

  Notation FR := (front h v src).
  Notation LA := (left_after h v src).
  Notation M := (length h).

  Lemma Db_asym a b : In a src -> In b src -> Db h v a b = true -> Db h v b a = false.
  Proof. intros _ _ H. apply Db_beats_f. apply Db_beats in H. apply pareto_asym. exact H. Qed.
  Lemma Db_trans a b c : In a src -> In b src -> In c src -> Db h v a b = true -> Db h v b c = true -> Db h v a c = true.
  Proof.
    intros _ _ _ H1 H2. apply Db_beats. apply Db_beats in H1. apply Db_beats in H2. unfold beats in *.
    eapply pareto_trans; [apply values_numbers|apply values_numbers|apply values_numbers|apply values_length|apply values_length|apply values_length|exact H1|exact H2].
  Qed.

  (** What the sorting has established when the first [m] fronts are ranked. *)
  Record ranked (m : nat) (s : sst) : Prop := {
    rk_rank : forall k x, k < m -> FR k x -> s_rank s x = rank_number (S k);
    rk_crowd : forall k, k < m -> exists F : list nat, NoDup F /\ F <> [] /\ (forall x, In x F <-> FR k x) /\ crowded M v F (s_crowd s);
    rk_left : forall x, LA m x -> s_rank s x = s_rank s0 x /\ s_crowd s x = s_crowd s0 x;
    rk_out : forall x, ~ In x src -> s_rank s x = s_rank s0 x /\ s_crowd s x = s_crowd s0 x
  }.

  Record at_round (r : nat) (cur dest : list nat) (s : sst) : Prop := {
    ar_cur : NoDup cur;
    ar_left : forall x, In x cur <-> LA r x;
    ar_counted : counted src (Db h v) cur s;
    ar_dest : NoDup dest;
    ar_taken : forall x, In x dest <-> exists k, k < r /\ FR k x;
    ar_all : forall x, In x src -> In x dest \/ In x cur;
    ar_ranked : ranked r s
  }.

  Record selected (size : nat) (dest : list nat) (s : sst) : Prop := {
    se_length : length dest = size;
    se_nodup : NoDup dest;
    se_fronts : exists m, ranked m s /\
      (forall k x, S k < m -> FR k x -> In x dest) /\
      (forall x, In x dest -> exists k, k < m /\ FR k x) /\
      (forall k x y, FR k x -> FR k y -> In x dest -> ~ In y dest -> nlt (s_crowd s x) (s_crowd s y) = false) /\
      (forall k, S k = m -> exists x, FR k x /\ In x dest)
  }.

  Lemma crowd_number k F s x : NoDup F -> (forall x, In x F <-> FR k x) -> crowded M v F (s_crowd s) -> FR k x -> is_nan (s_crowd s x) = false.
  Proof.
    intros _ HF Hc Hx. destruct (crowded_bounds _ _ _ _ x Hc) as [->|(q & -> & _)]; [apply HF; exact Hx|reflexivity|reflexivity].
  Qed.

  Lemma round_ok r cur dest s : at_round r cur dest s -> cur <> [] ->
    exists (F1 : list nat) s1, NoDup F1 /\ F1 <> [] /\ (forall x, In x F1 <-> FR r x) /\
      (forall (k : list nat -> T (list nat)),
         bind (find_front cur) (fun f => bind (calc_crowding obj f) (fun f1 => bind (iterM (fun o => set_rank o (nof_nat (S r))) f1) (fun _ => k f1))) s = k F1 s1) /\
      ranked (S r) s1 /\ counted src (Db h v) cur s1 /\ incl F1 cur.
  Proof.
    intros [Hcur Hleft Hcnt Hdest Htaken Hall Hr] Hne.
    assert (Icur : incl cur src) by (intros x Hx; apply Hleft in Hx; eapply left_in; eauto).
    destruct (find_front_spec dom obj src (Db h v) dom_ok Db_asym Db_trans cur s Hcnt) as (f & Ef & Ff & Hf).
    assert (HfF : forall x, In x f <-> FR r x).
    { intros x. rewrite Hf. unfold undominated, front. rewrite Hleft. split; intros [H1 H2]; (split; [exact H1|]).
      - intros p Hp. apply Db_beats_f. apply H2. apply Hleft. exact Hp.
      - intros y Hy. apply Db_beats_f. apply H2. apply Hleft. exact Hy. }
    assert (Nf : NoDup f) by (rewrite Ff; apply NoDup_filter; exact Hcur).
    assert (Hfne : f <> []).
    { destruct (undominated_exists dom obj src (Db h v) dom_ok Db_asym Db_trans cur Icur Hne) as (x & Hx). apply Hf in Hx. intros ->. destruct Hx. }
    assert (Hfsrc : incl f src) by (intros x Hx; apply HfF in Hx; destruct Hx as [Hx _]; eapply left_in; eauto).
    destruct (crowding_ok obj v M f) with (s := s) as (f1 & s1 & E1 & P1 & A1 & B1 & C1 & N1 & G1); [intros x Hx; apply obj_ok, Hfsrc, Hx|exact Nf|exact Hfne|].
    destruct (set_ranks (nof_nat (S r)) f1 s1) as (s2 & E2 & A2 & B2 & C2 & N2).
    assert (Hin : forall x, In x f1 <-> FR r x).
    { intros x. rewrite <- HfF. split; apply Permutation_in; [symmetry|]; exact P1. }
    exists f1, s2. split; [eapply Permutation_NoDup; eauto|].
    split; [intros ->; apply Permutation_sym, Permutation_nil in P1; contradiction|]. split; [exact Hin|].
    split; [intros k; rewrite (bind_eq_ok _ _ _ _ _ Ef), (bind_eq_ok _ _ _ _ _ E1), (bind_eq_ok _ _ _ _ _ E2); reflexivity|].
    split; [|split; [apply (counted_same _ _ cur s); [congruence|congruence|exact Hcnt]|intros x Hx; apply Hleft; apply Hin in Hx; apply Hx]].
    assert (Old : forall x, ~ FR r x -> s_rank s2 x = s_rank s x /\ s_crowd s2 x = s_crowd s x).
    { intros x Hx. rewrite N2, C2, C1. rewrite N1 by (rewrite HfF; exact Hx).
      rewrite (proj2 (existsb_notIn x f1)) by (rewrite Hin; exact Hx). auto. }
    destruct Hr as [R1 R2 R3 R4]. constructor.
    - intros k x Hk Hx. assert (k = r \/ k < r) as [->|Hk'] by lia.
      + rewrite N2. rewrite (proj2 (existsb_In x f1)) by (apply Hin; exact Hx). reflexivity.
      + destruct (Old x) as [-> _]; [|eauto]. intros Hx'. pose proof (front_unique _ _ _ _ _ _ Hx Hx'). lia.
    - intros k Hk. assert (k = r \/ k < r) as [->|Hk'] by lia.
      + exists f. split; [exact Nf|]. split; [exact Hfne|]. split; [exact HfF|]. rewrite C2. exact G1.
      + destruct (R2 k Hk') as (F & NF & NeF & HF & CF). exists F. split; [exact NF|]. split; [exact NeF|]. split; [exact HF|].
        eapply crowded_ext; [|exact CF]. intros x Hx. apply Old. intros Hx'. apply HF in Hx. pose proof (front_unique _ _ _ _ _ _ Hx Hx'). lia.
    - intros x Hx. destruct (Old x) as [-> ->]; [|apply R3, left_mono; exact Hx]. intros Hx'. pose proof (front_not_left _ _ _ _ _ _ Hx' Hx). lia.
    - intros x Hx. destruct (Old x) as [-> ->]; [|apply R4; exact Hx]. intros [Hx' _]. apply Hx. eapply left_in; eauto.
  Qed.

  Lemma ranked_same m s s' : s_crowd s' = s_crowd s -> s_rank s' = s_rank s -> ranked m s -> ranked m s'.
  Proof. intros Ec Er [A B C D]. constructor; rewrite ?Ec, ?Er; assumption. Qed.

  Lemma split_length (r : nat) cur dest s : at_round r cur dest s -> length dest + length cur = length src.
  Proof.
    intros [Hcur Hleft Hcnt Hdest Htaken Hall Hr].
    assert (P : Permutation (dest ++ cur) src).
    { apply NoDup_Permutation; [|exact src_nodup|].
      - apply NoDup_app_intro; [exact Hdest|exact Hcur|]. intros x H1 H2. apply Htaken in H1. destruct H1 as (k & Hk & H1). apply Hleft in H2.
        pose proof (front_not_left _ _ _ _ _ _ H1 H2). lia.
      - intros x. rewrite in_app_iff. split; [|apply Hall]. rewrite Htaken, Hleft.
        intros [(k & _ & [H _])|H]; eapply left_in; eauto. }
    rewrite <- app_length. apply Permutation_length. exact P.
  Qed.

  Lemma loop_done fuel rank size cur dest s : length dest = size -> select_loop obj setorder fuel rank size cur dest s = (Ok dest, s).
  Proof. intros <-. destruct fuel; cbn [select_loop]; rewrite Nat.ltb_irrefl; reflexivity. Qed.

  Lemma loop_ok size : size <= length src -> forall fuel r cur dest s, at_round r cur dest s -> length dest <= size -> size - length dest <= fuel ->
    exists d s', select_loop obj setorder fuel (S r) size cur dest s = (Ok d, s') /\ selected size d s'.
  Proof.
    intros Hsize. induction fuel as [|fuel IH]; intros r cur dest s Hat Hle Hfuel;
      destruct (Nat.eq_dec (length dest) size) as [He|He].
    1,3: exists dest, s; split; [apply loop_done; exact He|]; destruct Hat as [Hcur Hleft Hcnt Hdest Htaken Hall Hr];
      constructor; [exact He|exact Hdest|]; exists r; split; [exact Hr|]; split; [|split; [|split]];
      [ intros k x Hk Hx; apply Htaken; exists k; split; [lia|exact Hx]
      | intros x Hx; apply Htaken; exact Hx
      | intros k x y Hx Hy Dx Dy; exfalso; apply Dy; apply Htaken in Dx; destruct Dx as (j & Hj & Hx'); apply Htaken; exists k;
        rewrite (front_unique _ _ _ _ _ _ Hx Hx') in *; auto
      | intros k Hk; destruct (rk_crowd _ _ Hr k) as (F & _ & Hne & HF & _); [lia|]; destruct F as [|x F]; [congruence|];
        exists x; assert (Hx : FR k x) by (apply HF; simpl; auto); split; [exact Hx|]; apply Htaken; exists k; split; [lia|exact Hx] ].
    { lia. }
    assert (Hcne : cur <> []).
    { intros ->. pose proof (split_length _ _ _ _ Hat). simpl in H. lia. }
    destruct (round_ok r cur dest s Hat Hcne) as (F1 & s1 & N1 & Ne1 & H1 & E1 & R1 & C1 & I1).
    destruct Hat as [Hcur Hleft Hcnt Hdest Htaken Hall Hr].
    assert (Icur : incl cur src) by (intros x Hx; apply Hleft in Hx; eapply left_in; eauto).
    cbn [select_loop]. replace (length dest <? size) with true by (symmetry; apply Nat.ltb_lt; lia).
    rewrite E1. destruct (size <? length F1 + length dest) eqn:Ecut.
    - apply Nat.ltb_lt in Ecut. set (n := size - length dest).
      set (bef := fun a b => nlt (s_crowd s1 b) (s_crowd s1 a)).
      set (S1 := sort_stable bef F1). set (F2 := firstn n S1).
      assert (PS : Permutation S1 F1) by apply sort_perm.
      assert (NS : NoDup S1) by (eapply Permutation_NoDup; [symmetry; exact PS|exact N1]).
      assert (N2 : NoDup F2) by (unfold F2; rewrite <- (firstn_skipn n S1) in NS; eapply NoDup_app_l; exact NS).
      assert (I2 : incl F2 F1) by (intros x Hx; apply (Permutation_in _ PS); eapply firstn_In; exact Hx).
      assert (L2 : length F2 = n).
      { unfold F2. apply firstn_length_le. rewrite (Permutation_length PS). unfold n. lia. }
      rewrite (bind_eq_ok _ _ _ F2 s1) by reflexivity.
      destruct (remove_counted dom obj setorder src (Db h v) dom_ok Db_asym Db_trans any (S r) cur F2 s1 Hcur N2 Icur) as (s2 & cur' & E2 & C2 & A2 & B2 & _ & _);
        [intros x Hx; apply I1, I2, Hx|exact C1|].
      rewrite (bind_eq_ok _ _ _ _ _ E2).
      exists (dest ++ F2), s2. split; [apply loop_done; rewrite app_length, L2; unfold n; lia|].
      assert (Dj : forall x, In x dest -> FR r x -> False).
      { intros x Hx Hx'. apply Htaken in Hx. destruct Hx as (k & Hk & Hx). pose proof (front_unique _ _ _ _ _ _ Hx Hx'). lia. }
      constructor; [rewrite app_length, L2; unfold n; lia| |].
      + apply NoDup_app_intro; [exact Hdest|exact N2|]. intros x Hx Hx2. apply (Dj x Hx). apply H1, I2, Hx2.
      + exists (S r). split; [eapply ranked_same; eauto|]. split; [|split; [|split]].
        * intros k x Hk Hx. apply in_or_app. left. apply Htaken. exists k. split; [lia|exact Hx].
        * intros x Hx. apply in_app_or in Hx. destruct Hx as [Hx|Hx].
          -- apply Htaken in Hx. destruct Hx as (k & Hk & Hx). exists k. split; [lia|exact Hx].
          -- exists r. split; [lia|]. apply H1, I2, Hx.
        * intros k x y Hx Hy Dx Dy. rewrite A2. apply in_app_or in Dx. destruct Dx as [Dx|Dx].
          -- exfalso. apply Dy. apply in_or_app. left. apply Htaken in Dx. destruct Dx as (j & Hj & Hx'). apply Htaken. exists k.
             rewrite (front_unique _ _ _ _ _ _ Hx Hx') in *. auto.
          -- assert (k = r) by (apply (front_unique h v src k r x Hx); apply H1, I2, Dx). subst k.
             assert (Hy1 : In y (skipn n S1)).
             { assert (Hy1 : In y S1) by (apply (Permutation_in _ (Permutation_sym PS)), H1, Hy). rewrite <- (firstn_skipn n S1) in Hy1.
               apply in_app_or in Hy1. destruct Hy1 as [Hy1|Hy1]; [|exact Hy1]. exfalso. apply Dy. apply in_or_app. right. exact Hy1. }
             destruct (rk_crowd _ _ R1 r) as (F & NF & _ & HF & CF); [lia|].
             assert (Nn : forall z, In z F1 -> is_nan (s_crowd s1 z) = false).
             { intros z Hz. apply (crowd_number r F s1 z NF HF CF). apply H1, Hz. }
             assert (O : ordered bef S1).
             { apply sort_ordered. split.
               - intros a b _ _. apply nlt_asym.
               - intros a b c Ha Hb Hc B1 B3. unfold bef in *. eapply nlt_negtrans; [| | |exact B1|exact B3]; apply Nn; assumption. }
             unfold ordered in O. rewrite <- (firstn_skipn n S1) in O. apply (sorted_split _ _ _ O x y Dx Hy1).
        * intros k Hk. injection Hk as ->. destruct F2 as [|x F2'] eqn:EF; [simpl in L2; unfold n in L2; lia|].
          exists x. split; [apply H1, I2; simpl; auto|]. apply in_or_app. right. simpl. auto.
    - apply Nat.ltb_ge in Ecut. rewrite (bind_eq_ok _ _ _ F1 s1) by reflexivity.
      destruct (remove_counted dom obj setorder src (Db h v) dom_ok Db_asym Db_trans any (S r) cur F1 s1 Hcur N1 Icur I1 C1) as (s2 & cur' & E2 & C2 & A2 & B2 & N2 & I2).
      rewrite (bind_eq_ok _ _ _ _ _ E2). apply IH.
      + constructor.
        * exact N2.
        * intros x. rewrite I2, Hleft, H1. split.
          -- intros [Hx Hn]. destruct (front_dec h v src r cur Hleft x) as [G|G]; [apply Hleft; exact Hx|contradiction|exact G].
          -- intros Hx. split; [apply left_mono; exact Hx|]. intros G. pose proof (front_not_left _ _ _ _ _ _ G Hx). lia.
        * exact C2.
        * apply NoDup_app_intro; [exact Hdest|exact N1|]. intros x Hx Hx'. apply Htaken in Hx. destruct Hx as (k & Hk & Hx). apply H1 in Hx'.
          pose proof (front_unique _ _ _ _ _ _ Hx Hx'). lia.
        * intros x. rewrite in_app_iff, Htaken, H1. split.
          -- intros [(k & Hk & Hx)|Hx]; [exists k; split; [lia|exact Hx]|exists r; split; [lia|exact Hx]].
          -- intros (k & Hk & Hx). assert (k = r \/ k < r) as [->|Hk'] by lia; [right; exact Hx|left; exists k; auto].
        * intros x Hx. rewrite in_app_iff, I2. destruct (Hall x Hx) as [G|G]; [auto|]. destruct (in_dec Nat.eq_dec x F1); auto.
        * eapply ranked_same; eauto.
      + rewrite app_length. lia.
      + rewrite app_length. destruct F1 as [|z F1]; [congruence|]. simpl. lia.
  Qed.

  Lemma sort_ok n : let size := if n =? 0 then length src / 2 else n in size <= length src ->
    exists d s', sort_select dom obj setorder src n s0 = (Ok d, s') /\ selected size d s'.
  Proof.
    intros size Hs. unfold sort_select. fold size.
    destruct (init_counted dom obj src (Db h v) dom_ok Db_asym Db_trans src_nodup s0) as (s1 & E & A & B & C).
    rewrite (bind_eq_ok _ _ _ _ _ E). apply (loop_ok size Hs size 0 src []).
    - constructor.
      + exact src_nodup.
      + reflexivity.
      + exact C.
      + constructor.
      + intros x. split; [intros []|]. intros (k & Hk & _). lia.
      + auto.
      + constructor; [intros k x Hk; lia|intros k Hk; lia| |]; intros x _; rewrite A, B; auto.
    - simpl. lia.
    - simpl. lia.
  Qed.

  (** More individuals than there are cannot be selected. *)
  Lemma loop_too_many size : length src < size -> forall fuel r cur dest s, at_round r cur dest s -> length src - length dest < fuel ->
    exists s', select_loop obj setorder fuel (S r) size cur dest s = (Raise IndexError, s').
  Proof.
    intros Hsize. induction fuel as [|fuel IH]; intros r cur dest s Hat Hfuel; [lia|].
    pose proof (split_length _ _ _ _ Hat) as Hlen.
    cbn [select_loop]. replace (length dest <? size) with true by (symmetry; apply Nat.ltb_lt; lia).
    destruct cur as [|c0 cur0] eqn:Ecur; [eexists; reflexivity|]. rewrite <- Ecur in *.
    assert (Hcne : cur <> []) by (rewrite Ecur; discriminate). clear Ecur c0 cur0.
    destruct (round_ok r cur dest s Hat Hcne) as (F1 & s1 & N1 & Ne1 & H1 & E1 & R1 & C1 & I1).
    destruct Hat as [Hcur Hleft Hcnt Hdest Htaken Hall Hr].
    assert (Icur : incl cur src) by (intros x Hx; apply Hleft in Hx; eapply left_in; eauto).
    rewrite E1. assert (L1 : length F1 <= length cur) by (apply NoDup_incl_length; assumption).
    replace (size <? length F1 + length dest) with false by (symmetry; apply Nat.ltb_ge; lia).
    rewrite (bind_eq_ok _ _ _ F1 s1) by reflexivity.
    destruct (remove_counted dom obj setorder src (Db h v) dom_ok Db_asym Db_trans any (S r) cur F1 s1 Hcur N1 Icur I1 C1) as (s2 & cur' & E2 & C2 & A2 & B2 & N2 & I2).
    rewrite (bind_eq_ok _ _ _ _ _ E2). apply IH.
    - constructor.
      + exact N2.
      + intros x. rewrite I2, Hleft, H1. split.
        * intros [Hx Hn]. destruct (front_dec h v src r cur Hleft x) as [G|G]; [apply Hleft; exact Hx|contradiction|exact G].
        * intros Hx. split; [apply left_mono; exact Hx|]. intros G. pose proof (front_not_left _ _ _ _ _ _ G Hx). lia.
      + exact C2.
      + apply NoDup_app_intro; [exact Hdest|exact N1|]. intros x Hx Hx'. apply Htaken in Hx. destruct Hx as (k & Hk & Hx). apply H1 in Hx'.
        pose proof (front_unique _ _ _ _ _ _ Hx Hx'). lia.
      + intros x. rewrite in_app_iff, Htaken, H1. split.
        * intros [(k & Hk & Hx)|Hx]; [exists k; split; [lia|exact Hx]|exists r; split; [lia|exact Hx]].
        * intros (k & Hk & Hx). assert (k = r \/ k < r) as [->|Hk'] by lia; [right; exact Hx|left; exists k; auto].
      + intros x Hx. rewrite in_app_iff, I2. destruct (Hall x Hx) as [G|G]; [auto|]. destruct (in_dec Nat.eq_dec x F1); auto.
      + eapply ranked_same; eauto.
    - rewrite app_length. destruct F1 as [|z F1]; [congruence|]. simpl in *. lia.
  Qed.

  Lemma sort_too_many n : length src < n -> exists s', sort_select dom obj setorder src n s0 = (Raise IndexError, s').
  Proof.
    intros Hs. unfold sort_select. replace (n =? 0) with false by (symmetry; apply Nat.eqb_neq; lia).
    destruct (init_counted dom obj src (Db h v) dom_ok Db_asym Db_trans src_nodup s0) as (s1 & E & A & B & C).
    rewrite (bind_eq_ok _ _ _ _ _ E). apply (loop_too_many n Hs n 0 src []).
    - constructor.
      + exact src_nodup.
      + reflexivity.
      + exact C.
      + constructor.
      + intros x. split; [intros []|]. intros (k & Hk & _). lia.
      + auto.
      + constructor; [intros k x Hk; lia|intros k Hk; lia| |]; intros x _; rewrite A, B; auto.
    - simpl. lia.
  Qed.
End Loop.
