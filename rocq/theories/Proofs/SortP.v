(** Proofs about the sorting into fronts, for an abstract dominance relation (C48-C50). *)
From Coq Require Import Lia Lqa Permutation Sorted.
From Verif.Proofs Require Export Lib.
From Verif.Spec Require Export WorldSpec FitnessSpec Nsga2Spec.
From Verif.Model Require Import Num Fitness Tree World Nsga2.
Open Scope nat_scope.
Open Scope list_scope.

Definition howmany (p : nat -> bool) (l : list nat) : nat := length (filter p l).

Lemma howmany_app p l l' : howmany p (l ++ l') = howmany p l + howmany p l'.
Proof. unfold howmany. rewrite filter_app, app_length. reflexivity. Qed.
Lemma howmany_cons p x l : howmany p (x :: l) = (if p x then 1 else 0) + howmany p l.
Proof. unfold howmany. simpl. destruct (p x); reflexivity. Qed.
Lemma howmany_perm p l l' : Permutation l l' -> howmany p l = howmany p l'.
Proof. intros H. induction H; rewrite ?howmany_cons; try lia. Qed.
Lemma howmany_zero p l : howmany p l = 0 <-> forall x, In x l -> p x = false.
Proof.
  induction l as [|a l IH]; [simpl; split; [intros _ x []|reflexivity]|]. rewrite howmany_cons. split.
  - intros H x [<-|Hx]; [destruct (p a); [lia|reflexivity]|]. apply IH; [lia|exact Hx].
  - intros H. rewrite (H a) by (simpl; auto). apply IH. intros; apply H; simpl; auto.
Qed.
Lemma howmany_split p q l : howmany p l = howmany p (filter q l) + howmany p (filter (fun x => negb (q x)) l).
Proof.
  induction l as [|a l IH]; [reflexivity|]. simpl. destruct (q a); simpl; rewrite !howmany_cons; lia.
Qed.

Section Sorted.
  Variable dom : nat -> nat -> res bool.
  Variable obj : nat -> res (list num).
  Variable setorder : nat -> list nat -> list nat.
  Variable src : list nat.
  Variable D : nat -> nat -> bool.
  Hypothesis dom_ok : forall a b, In a src -> In b src -> dom a b = Ok (D a b).
  Hypothesis D_asym : forall a b, In a src -> In b src -> D a b = true -> D b a = false.
  Hypothesis D_trans : forall a b c, In a src -> In b src -> In c src -> D a b = true -> D b c = true -> D a c = true.
  Hypothesis any : any_order setorder.
  Hypothesis src_nodup : NoDup src.

  (** ** Counting the dominators *)

  (** What a part of the pairwise comparison adds: [R y x] says that the pair was found. *)
  Definition adds (s s' : sst) (R : nat -> nat -> bool) (l : list nat) : Prop :=
    s_crowd s' = s_crowd s /\ s_rank s' = s_rank s /\
    (forall x y, count_occ Nat.eq_dec (s_doms s' y) x = count_occ Nat.eq_dec (s_doms s y) x + (if R y x then 1 else 0)) /\
    (forall x, s_cnt s' x = (s_cnt s x + Z.of_nat (howmany (fun y => R y x) l))%Z).

  Definition is (a b y x : nat) : bool := (y =? a) && (x =? b).

  Lemma increase_adds a b s : exists s', increase_counter a b s = (Ok tt, s') /\ s_crowd s' = s_crowd s /\ s_rank s' = s_rank s /\
    (forall x y, count_occ Nat.eq_dec (s_doms s' y) x = count_occ Nat.eq_dec (s_doms s y) x + (if is a b y x then 1 else 0)) /\
    (forall x, s_cnt s' x = (s_cnt s x + (if Nat.eqb x b then 1 else 0))%Z).
  Proof.
    eexists. split; [reflexivity|]. simpl. split; [reflexivity|]. split; [reflexivity|]. split.
    - intros x y. unfold upd, is. destruct (Nat.eqb_spec y a) as [->|]; simpl; [|lia].
      rewrite count_occ_app. simpl. destruct (Nat.eq_dec b x) as [->|Hn].
      + rewrite Nat.eqb_refl. lia.
      + destruct (Nat.eqb_spec x b); [congruence|lia].
    - intros x. unfold upd. destruct (Nat.eqb_spec x b) as [->|]; lia.
  Qed.

  (** All pairs of [i] with members of [l]. *)
  Definition with_i (i : nat) (l : list nat) (y x : nat) : bool :=
    D y x && (((y =? i) && existsb (Nat.eqb x) l) || ((x =? i) && existsb (Nat.eqb y) l)).

  Lemma existsb_In x l : existsb (Nat.eqb x) l = true <-> In x l.
  Proof.
    rewrite existsb_exists. split; [intros (y & H & E); apply Nat.eqb_eq in E; congruence|].
    intros H. exists x. split; [exact H|apply Nat.eqb_refl].
  Qed.
  Lemma existsb_notIn x l : existsb (Nat.eqb x) l = false <-> ~ In x l.
  Proof. rewrite <- not_true_iff_false, existsb_In. reflexivity. Qed.

  Lemma handle_adds i j s : In i src -> In j src -> i <> j ->
    exists s', handle_domination dom i j s = (Ok tt, s') /\ s_crowd s' = s_crowd s /\ s_rank s' = s_rank s /\
    (forall x y, count_occ Nat.eq_dec (s_doms s' y) x = count_occ Nat.eq_dec (s_doms s y) x +
        (if D y x && (is i j y x || is j i y x) then 1 else 0)) /\
    (forall x, s_cnt s' x = (s_cnt s x + (if (Nat.eqb x i && D j i) || (Nat.eqb x j && D i j) then 1 else 0))%Z).
  Proof.
    intros Hi Hj Hn. unfold handle_domination. rewrite (bind_eq_ok _ _ _ (D j i) s) by (unfold lift; rewrite dom_ok by assumption; reflexivity).
    destruct (D j i) eqn:Eji.
    - destruct (increase_adds j i s) as (s' & E & C & Rk & Hd & Hc). exists s'. split; [exact E|]. split; [exact C|]. split; [exact Rk|].
      assert (Eij : D i j = false) by (apply D_asym; assumption). split.
      + intros x y. rewrite Hd. f_equal. unfold is. destruct (Nat.eqb_spec y j) as [->|]; simpl.
        * destruct (Nat.eqb_spec x i) as [->|]; simpl; [rewrite Eji, orb_true_r; reflexivity|]. rewrite orb_false_r.
          destruct (Nat.eqb_spec j i); [congruence|]. simpl. rewrite andb_false_r. reflexivity.
        * rewrite orb_false_r. destruct (Nat.eqb_spec y i) as [->|]; simpl; [|rewrite andb_false_r; reflexivity].
          destruct (Nat.eqb_spec x j) as [->|]; simpl; [rewrite Eij; reflexivity|rewrite andb_false_r; reflexivity].
      + intros x. rewrite Hc. f_equal. rewrite andb_true_r, Eij, andb_false_r, orb_false_r. reflexivity.
    - rewrite (bind_eq_ok _ _ _ (D i j) s) by (unfold lift; rewrite dom_ok by assumption; reflexivity).
      destruct (D i j) eqn:Eij.
      + destruct (increase_adds i j s) as (s' & E & C & Rk & Hd & Hc). exists s'. split; [exact E|]. split; [exact C|]. split; [exact Rk|]. split.
        * intros x y. rewrite Hd. f_equal. unfold is. destruct (Nat.eqb_spec y i) as [->|]; simpl.
          -- destruct (Nat.eqb_spec x j) as [->|]; simpl; [rewrite Eij; reflexivity|].
             destruct (Nat.eqb_spec i j); [congruence|]. simpl. rewrite andb_false_r. reflexivity.
          -- destruct (Nat.eqb_spec y j) as [->|]; simpl; [|rewrite andb_false_r; reflexivity].
             destruct (Nat.eqb_spec x i) as [->|]; simpl; [rewrite Eji; reflexivity|rewrite andb_false_r; reflexivity].
        * intros x. rewrite Hc. f_equal. rewrite andb_true_r, andb_false_r. reflexivity.
      + exists s. split; [reflexivity|]. split; [reflexivity|]. split; [reflexivity|]. split.
        * intros x y. unfold is. destruct (Nat.eqb_spec y i) as [->|]; simpl.
          -- destruct (Nat.eqb_spec x j) as [->|]; simpl; [rewrite Eij; simpl; lia|].
             destruct (Nat.eqb_spec i j); [congruence|]. simpl. rewrite andb_false_r. lia.
          -- destruct (Nat.eqb_spec y j) as [->|]; simpl; [|rewrite andb_false_r; lia].
             destruct (Nat.eqb_spec x i) as [->|]; simpl; [rewrite Eji; simpl; lia|rewrite andb_false_r; lia].
        * intros x. rewrite !andb_false_r. simpl. lia.
  Qed.

  Lemma row_adds i rest : In i src -> incl rest src -> NoDup (i :: rest) -> forall s, exists s',
    iterM (handle_domination dom i) rest s = (Ok tt, s') /\ s_crowd s' = s_crowd s /\ s_rank s' = s_rank s /\
    (forall x y, count_occ Nat.eq_dec (s_doms s' y) x = count_occ Nat.eq_dec (s_doms s y) x + (if with_i i rest y x then 1 else 0)) /\
    (forall x, s_cnt s' x = (s_cnt s x + (if Nat.eqb x i then Z.of_nat (howmany (fun y => D y i) rest)
                                          else if existsb (Nat.eqb x) rest && D i x then 1 else 0))%Z).
  Proof.
    intros Hi. induction rest as [|j rest IH]; intros Hin Hnd s.
    - exists s. repeat (split; [reflexivity|]). split.
      + intros x y. unfold with_i. simpl. destruct (D y x), (y =? i), (x =? i); simpl; lia.
      + intros x. simpl. destruct (x =? i); simpl; lia.
    - assert (Hj : In j src) by (apply Hin; simpl; auto).
      inversion Hnd as [|? ? Hi' Hnd']; subst. inversion Hnd' as [|? ? Hj' Hnd'']; subst.
      assert (Hij : i <> j) by (intros ->; apply Hi'; simpl; auto).
      destruct (handle_adds i j s Hi Hj Hij) as (s1 & E1 & C1 & R1 & D1 & N1).
      destruct (IH) with (s := s1) as (s2 & E2 & C2 & R2 & D2 & N2).
      { intros z Hz. apply Hin. simpl. auto. } { constructor; [intros Hz; apply Hi'; simpl; auto|assumption]. }
      exists s2. simpl. rewrite (bind_eq_ok _ _ _ _ _ E1). split; [exact E2|]. split; [congruence|]. split; [congruence|].
      apply existsb_notIn in Hj'.
      split.
      + intros x y. rewrite D2, D1. rewrite <- Nat.add_assoc. f_equal. unfold with_i, is. simpl.
        destruct (D y x); simpl; [|reflexivity].
        destruct (Nat.eqb_spec y i) as [->|Hyi]; simpl.
        * destruct (Nat.eqb_spec i j); [congruence|]. simpl.
          destruct (Nat.eqb_spec x j) as [->|]; simpl.
          -- destruct (Nat.eqb_spec j i); [congruence|]. simpl. rewrite Hj'. simpl. reflexivity.
          -- rewrite ?andb_false_r. simpl. destruct (existsb (Nat.eqb x) rest); simpl; [reflexivity|].
             destruct (x =? i); reflexivity.
        * destruct (Nat.eqb_spec y j) as [->|]; simpl.
          -- destruct (Nat.eqb_spec x i) as [->|]; simpl; [rewrite Hj'; reflexivity|reflexivity].
          -- destruct (x =? i); reflexivity.
      + intros x. rewrite N2, N1. rewrite howmany_cons. simpl. destruct (Nat.eqb_spec x i) as [->|Hxi]; simpl.
        * destruct (Nat.eqb_spec i j); [congruence|]. simpl. rewrite orb_false_r. destruct (D j i); lia.
        * destruct (Nat.eqb_spec x j) as [->|]; simpl; [|lia]. rewrite Hj'. simpl. destruct (D i j); lia.
  Qed.

  Definition pair_in (l : list nat) (y x : nat) : bool := D y x && existsb (Nat.eqb y) l && existsb (Nat.eqb x) l.

  Lemma D_irrefl a : In a src -> D a a = false.
  Proof. intros H. destruct (D a a) eqn:E; [|reflexivity]. pose proof (D_asym a a H H E). congruence. Qed.

  Lemma pairs_adds l : incl l src -> NoDup l -> forall s, exists s',
    init_pairs dom l s = (Ok tt, s') /\ s_crowd s' = s_crowd s /\ s_rank s' = s_rank s /\
    (forall x y, count_occ Nat.eq_dec (s_doms s' y) x = count_occ Nat.eq_dec (s_doms s y) x + (if pair_in l y x then 1 else 0)) /\
    (forall x, s_cnt s' x = (s_cnt s x + (if existsb (Nat.eqb x) l then Z.of_nat (howmany (fun y => D y x) l) else 0))%Z).
  Proof.
    induction l as [|i rest IH]; intros Hin Hnd s.
    - exists s. repeat (split; [reflexivity|]). split; [|intros; simpl; lia]. intros x y. unfold pair_in. simpl. rewrite andb_false_r. lia.
    - assert (Hi : In i src) by (apply Hin; simpl; auto).
      assert (Hr : incl rest src) by (intros z Hz; apply Hin; simpl; auto).
      destruct (row_adds i rest Hi Hr Hnd s) as (s1 & E1 & C1 & R1 & D1 & N1).
      inversion Hnd as [|? ? Hi' Hnd']; subst. destruct (IH Hr Hnd' s1) as (s2 & E2 & C2 & R2 & D2 & N2).
      exists s2. simpl. rewrite (bind_eq_ok _ _ _ _ _ E1). split; [exact E2|]. split; [congruence|]. split; [congruence|].
      apply existsb_notIn in Hi'. split.
      + intros x y. rewrite D2, D1, <- Nat.add_assoc. f_equal. unfold pair_in, with_i. simpl.
        destruct (D y x) eqn:Ed; simpl; [|reflexivity].
        destruct (Nat.eqb_spec y i) as [->|Hyi]; simpl.
        * destruct (Nat.eqb_spec x i) as [->|Hxi]; simpl.
          -- rewrite D_irrefl in Ed by exact Hi. discriminate.
          -- rewrite Hi'. simpl. rewrite orb_false_r. destruct (existsb (Nat.eqb x) rest); reflexivity.
        * destruct (Nat.eqb_spec x i) as [->|Hxi]; simpl.
          -- rewrite Hi'. rewrite andb_false_r, andb_true_r. destruct (existsb (Nat.eqb y) rest); reflexivity.
          -- reflexivity.
      + intros x. rewrite N2, N1, howmany_cons. simpl. destruct (Nat.eqb_spec x i) as [->|Hxi]; simpl.
        * rewrite Hi', D_irrefl by exact Hi. simpl. lia.
        * destruct (existsb (Nat.eqb x) rest); simpl; [|lia]. destruct (D i x); lia.
  Qed.

  (** Of the current individuals [cur], the counters hold the number of dominators in [cur]; [dominates] is complete. *)
  Record counted (cur : list nat) (s : sst) : Prop := {
    ct_cnt : forall x, In x cur -> s_cnt s x = Z.of_nat (howmany (fun y => D y x) cur);
    ct_doms : forall x y, In x src -> In y src -> count_occ Nat.eq_dec (s_doms s y) x = if D y x then 1 else 0
  }.

  Lemma init_counted s : exists s', init_domination dom src s = (Ok tt, s') /\
    s_crowd s' = s_crowd s /\ s_rank s' = s_rank s /\ counted src s'.
  Proof.
    unfold init_domination. rewrite (bind_eq_ok _ _ _ tt (mkSst (fun _ => []) (fun _ => 0%Z) (s_crowd s) (s_rank s))) by reflexivity.
    destruct (pairs_adds src (fun z H => H) src_nodup (mkSst (fun _ => []) (fun _ => 0%Z) (s_crowd s) (s_rank s))) as (s' & E & C & R & Hd & Hc).
    exists s'. split; [exact E|]. split; [exact C|]. split; [exact R|]. constructor.
    - intros x Hx. rewrite Hc. simpl. apply existsb_In in Hx. rewrite Hx. lia.
    - intros x y Hx Hy. rewrite Hd. simpl. unfold pair_in. apply existsb_In in Hx. apply existsb_In in Hy. rewrite Hx, Hy, !andb_true_r. reflexivity.
  Qed.

  Lemma counted_same cur s s' : s_doms s' = s_doms s -> s_cnt s' = s_cnt s -> counted cur s -> counted cur s'.
  Proof. intros Ed Ec [A B]. constructor; rewrite ?Ed, ?Ec; assumption. Qed.

  (** ** Removing a front *)

  Lemma dec_counts l : forall s, exists s', iterM (fun b => add_count b (-1)) l s = (Ok tt, s') /\
    s_doms s' = s_doms s /\ s_crowd s' = s_crowd s /\ s_rank s' = s_rank s /\
    forall x, s_cnt s' x = (s_cnt s x - Z.of_nat (count_occ Nat.eq_dec l x))%Z.
  Proof.
    induction l as [|b l IH]; intros s.
    - exists s. repeat (split; [reflexivity|]). intros x. simpl. lia.
    - cbn [iterM]. rewrite (bind_eq_ok _ _ _ tt (mkSst (s_doms s) (upd (s_cnt s) b (s_cnt s b + -1)%Z) (s_crowd s) (s_rank s))) by reflexivity.
      destruct (IH (mkSst (s_doms s) (upd (s_cnt s) b (s_cnt s b + -1)%Z) (s_crowd s) (s_rank s))) as (s' & E & A & B & C & N).
      exists s'. split; [exact E|]. repeat (split; [assumption|]). intros x. rewrite N. simpl. unfold upd.
      destruct (Nat.eqb_spec x b) as [->|Hn].
      + destruct (Nat.eq_dec b b); [lia|congruence].
      + destruct (Nat.eq_dec b x); [congruence|lia].
  Qed.

  Lemma dec_all front : forall s, exists s',
    iterM (fun a => fun s => iterM (fun b => add_count b (-1)) (s_doms s a) s) front s = (Ok tt, s') /\
    s_doms s' = s_doms s /\ s_crowd s' = s_crowd s /\ s_rank s' = s_rank s /\
    forall x, s_cnt s' x = (s_cnt s x - Z.of_nat (list_sum (map (fun a => count_occ Nat.eq_dec (s_doms s a) x) front)))%Z.
  Proof.
    induction front as [|a front IH]; intros s.
    - exists s. repeat (split; [reflexivity|]). intros x. simpl. lia.
    - cbn [iterM]. destruct (dec_counts (s_doms s a) s) as (s1 & E1 & A1 & B1 & C1 & N1).
      rewrite (bind_eq_ok (fun s => iterM (fun b => add_count b (-1)) (s_doms s a) s) _ s tt s1) by exact E1.
      destruct (IH s1) as (s2 & E2 & A2 & B2 & C2 & N2). exists s2. split; [exact E2|].
      split; [congruence|]. split; [congruence|]. split; [congruence|]. intros x. rewrite N2, N1, A1. cbn [map list_sum fold_right]. unfold list_sum. lia.
  Qed.

  Lemma sum_howmany x front : In x src -> incl front src -> forall s, (forall x y, In x src -> In y src -> count_occ Nat.eq_dec (s_doms s y) x = if D y x then 1 else 0) ->
    list_sum (map (fun a => count_occ Nat.eq_dec (s_doms s a) x) front) = howmany (fun y => D y x) front.
  Proof.
    intros Hx Hf s Hd. induction front as [|a front IH]; [reflexivity|]. simpl. rewrite howmany_cons, IH by (intros z Hz; apply Hf; simpl; auto).
    rewrite Hd; [reflexivity|exact Hx|apply Hf; simpl; auto].
  Qed.

  Lemma nodup_id (l : list nat) : NoDup l -> nodup Nat.eq_dec l = l.
  Proof.
    induction 1 as [|x l H Hn IH]; [reflexivity|]. simpl. destruct (in_dec Nat.eq_dec x l); [contradiction|]. f_equal. exact IH.
  Qed.

  Lemma filter_perm_in (cur front : list nat) : NoDup cur -> NoDup front -> incl front cur ->
    Permutation (filter (fun o => existsb (Nat.eqb o) front) cur) front.
  Proof.
    intros Hc Hf Hi. apply NoDup_Permutation; [apply NoDup_filter; exact Hc|exact Hf|]. intros x. rewrite filter_In, existsb_In. split; [tauto|].
    intros H. split; [apply Hi; exact H|exact H].
  Qed.

  Lemma remove_counted round cur front s : NoDup cur -> NoDup front -> incl cur src -> incl front cur -> counted cur s ->
    exists s' cur', remove_front setorder round cur front s = (Ok cur', s') /\ counted cur' s' /\
      s_crowd s' = s_crowd s /\ s_rank s' = s_rank s /\ NoDup cur' /\
      (forall x, In x cur' <-> In x cur /\ ~ In x front).
  Proof.
    intros Nc Nf Ic If [Cc Cd]. unfold remove_front. destruct (dec_all front s) as (s' & E & A & B & C & N).
    rewrite (bind_eq_ok _ _ _ _ _ E). rewrite nodup_id by exact Nc.
    set (rest := filter (fun o => negb (existsb (Nat.eqb o) front)) cur). pose proof (any round rest) as P.
    exists s', (setorder round rest). split; [reflexivity|].
    assert (Hin : forall x, In x (setorder round rest) <-> In x cur /\ ~ In x front).
    { intros x. transitivity (In x rest); [split; apply Permutation_in; [|symmetry]; exact P|].
      unfold rest. rewrite filter_In, negb_true_iff, existsb_notIn. reflexivity. }
    split; [|split; [exact B|split; [exact C|split; [|exact Hin]]]].
    - constructor.
      + intros x Hx. apply Hin in Hx. destruct Hx as [Hx _]. rewrite N, Cc by exact Hx.
        rewrite sum_howmany; [|apply Ic; exact Hx|intros z Hz; apply Ic, If, Hz|exact Cd].
        rewrite (howmany_perm _ _ _ P). rewrite (howmany_split _ (fun o => existsb (Nat.eqb o) front) cur).
        rewrite (howmany_perm _ _ _ (filter_perm_in _ _ Nc Nf If)). fold rest. lia.
      + rewrite A. exact Cd.
    - apply Permutation_NoDup with rest; [symmetry; exact P|]. apply NoDup_filter. exact Nc.
  Qed.

  (** ** Finding a front *)

  Definition undominated (cur : list nat) (x : nat) : Prop := In x cur /\ forall y, In y cur -> D y x = false.

  Lemma find_front_spec cur s : counted cur s -> exists f, find_front cur s = (Ok f, s) /\
    f = filter (fun o => Z.eqb (s_cnt s o) 0) cur /\ forall x, In x f <-> undominated cur x.
  Proof.
    intros [Cc _]. eexists. split; [reflexivity|]. split; [reflexivity|]. intros x. rewrite filter_In. unfold undominated. split.
    - intros [Hx E]. split; [exact Hx|]. apply Z.eqb_eq in E. rewrite Cc in E by exact Hx. apply howmany_zero. lia.
    - intros [Hx H]. split; [exact Hx|]. apply Z.eqb_eq. rewrite Cc by exact Hx. apply howmany_zero in H. cbv beta in H. rewrite H. reflexivity.
  Qed.

  (** There is an undominated individual: go from one to a dominator as long as possible. *)
  Lemma undominated_exists cur : incl cur src -> cur <> [] -> exists x, undominated cur x.
  Proof.
    intros Hc Hn. destruct cur as [|a cur0]; [congruence|]. remember (a :: cur0) as cur.
    assert (G : forall n x, In x cur -> howmany (fun y => D y x) cur <= n -> exists z, undominated cur z).
    { induction n as [|n IH]; intros x Hx Hle.
      - exists x. split; [exact Hx|]. apply (howmany_zero (fun y => D y x)). lia.
      - destruct (howmany (fun y => D y x) cur) as [|m] eqn:E.
        + exists x. split; [exact Hx|]. apply (howmany_zero (fun y => D y x)). exact E.
        + assert (exists y, In y cur /\ D y x = true) as (y & Hy & Hd).
          { clear -E. induction cur as [|b cur IH]; [discriminate|]. rewrite howmany_cons in E. destruct (D b x) eqn:Eb.
            - exists b. simpl. auto.
            - destruct IH as (y & Hy & H); [exact E|]. exists y. simpl. auto. }
          apply (IH y Hy). enough (howmany (fun z => D z y) cur < howmany (fun z => D z x) cur) by lia.
          clear -Hx Hy Hd Hc D_asym D_trans.
          assert (Hy' : In y src) by (apply Hc; exact Hy). assert (Hx' : In x src) by (apply Hc; exact Hx).
          assert (L : forall l, incl l src -> howmany (fun z => D z y) l <= howmany (fun z => D z x) l /\
                      (In y l -> howmany (fun z => D z y) l < howmany (fun z => D z x) l)).
          { induction l as [|b l IH]; intros Hl; [split; [apply le_n|intros []]|].
            destruct IH as [I1 I2]; [intros z Hz; apply Hl; simpl; auto|]. rewrite !howmany_cons.
            assert (Hb : In b src) by (apply Hl; simpl; auto). split.
            - destruct (D b y) eqn:Eb; [|destruct (D b x); lia]. rewrite (D_trans b y x) by assumption. lia.
            - intros [->|Hi].
              + rewrite Hd. rewrite D_irrefl by exact Hy'. lia.
              + specialize (I2 Hi). destruct (D b y) eqn:Eb; [|destruct (D b x); lia]. rewrite (D_trans b y x) by assumption. lia. }
          apply L; assumption. }
    eapply (G _ a); [subst; simpl; auto|apply le_n].
  Qed.
End Sorted.
