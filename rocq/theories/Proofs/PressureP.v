(** * Proofs about the chances in tournaments (C77). *)
From Coq Require Import Permutation Lia.
From Verif.Proofs Require Import SelP.
From Verif.Spec Require Import PressureSpec.
From Verif.Model Require Import Num Rng World Selection.
Open Scope nat_scope.
Open Scope list_scope.

(** ** Counting *)

Lemma same_number {A} (P : A -> Prop) n m : number_of P n -> number_of P m -> n = m.
Proof.
  intros (L & N & I & <-) (L' & N' & I' & <-).
  apply Nat.le_antisymm; apply NoDup_incl_length; auto; intros x H; [apply I', I|apply I, I']; exact H.
Qed.

Lemma number_ext {A} (P Q : A -> Prop) n : (forall x, P x <-> Q x) -> number_of P n -> number_of Q n.
Proof. intros E (L & N & I & Hl). exists L. split; [exact N|]. split; [|exact Hl]. intros x. rewrite I. apply E. Qed.

Lemma number_filter {A} (f : A -> bool) L : NoDup L -> number_of (fun x => In x L /\ f x = true) (length (filter f L)).
Proof. intros N. exists (filter f L). split; [apply NoDup_filter; exact N|]. split; [intros x; apply filter_In|reflexivity]. Qed.

(** Lists of [k] members of [P], or, without repetition, of [k] different members. *)
Fixpoint arrangements (r : bool) (k : nat) (P : list oid) : list (list oid) :=
  match k with
  | O => [[]]
  | S k' => flat_map (fun x => map (cons x) (arrangements r k' (if r then P else remove Nat.eq_dec x P))) P
  end.

Lemma remove_length x (P : list oid) : NoDup P -> In x P -> length (remove Nat.eq_dec x P) = length P - 1.
Proof.
  induction P as [|y P IH]; intros N I; [destruct I|]. inversion_clear N as [|? ? Ny N']. simpl. destruct (Nat.eq_dec x y) as [->|E].
  - rewrite notin_remove by exact Ny. simpl. rewrite Nat.sub_0_r. reflexivity.
  - destruct I as [->|I]; [congruence|]. simpl. unfold oid in *. rewrite IH by assumption. destruct P; [destruct I|simpl; lia].
Qed.

Lemma NoDup_remove_eq x (P : list oid) : NoDup P -> NoDup (remove Nat.eq_dec x P).
Proof.
  induction P as [|y P IH]; intros N; [constructor|]. inversion_clear N as [|? ? Ny N']. simpl. destruct (Nat.eq_dec x y); [auto|].
  constructor; [|auto]. intros H. apply in_remove in H. tauto.
Qed.

Lemma in_arrangements r k : forall P t, In t (arrangements r k P) <-> length t = k /\ incl t P /\ (r = false -> NoDup t).
Proof.
  induction k as [|k IH]; intros P t; simpl.
  - split; [intros [<-|[]]; repeat split; [intros x []|constructor]|]. intros (L & _). destruct t; [auto|discriminate].
  - rewrite in_flat_map. split.
    + intros (x & Hx & Ht). apply in_map_iff in Ht. destruct Ht as (t' & <- & Ht'). apply IH in Ht'. destruct Ht' as (L & I & N).
      split; [simpl; congruence|]. destruct r.
      * split; [|discriminate]. intros y [<-|Hy]; [exact Hx|apply I; exact Hy].
      * split; [intros y [<-|Hy]; [exact Hx|]; apply I, in_remove in Hy; tauto|]. intros _. constructor; [|auto].
        intros H. apply I, in_remove in H. tauto.
    + intros (L & I & N). destruct t as [|x t]; [discriminate|]. exists x. split; [apply I; left; reflexivity|]. apply in_map. apply IH.
      split; [simpl in L; congruence|]. destruct r.
      * split; [intros y Hy; apply I; right; exact Hy|discriminate].
      * specialize (N eq_refl). inversion_clear N as [|? ? Nx Nt]. split; [|auto]. intros y Hy. apply in_in_remove; [intros ->; contradiction|apply I; right; exact Hy].
Qed.

Lemma NoDup_flat_cons (f : oid -> list (list oid)) P : NoDup P -> (forall x, In x P -> NoDup (f x)) ->
  NoDup (flat_map (fun x => map (cons x) (f x)) P).
Proof.
  induction P as [|x P IH]; intros N F; simpl; [constructor|]. inversion_clear N as [|? ? Nx N'].
  assert (D : forall a b : list (list oid), NoDup a -> NoDup b -> (forall t, In t a -> ~ In t b) -> NoDup (a ++ b)).
  { induction a as [|t a IHa]; intros b Na Nb D; simpl; [exact Nb|]. inversion_clear Na as [|? ? Nt Na']. constructor.
    - rewrite in_app_iff. intros [H|H]; [contradiction|]. apply (D t); [left; reflexivity|exact H].
    - apply IHa; auto. intros u Hu. apply D. right. exact Hu. }
  apply D.
  - apply FinFun.Injective_map_NoDup; [intros a b; congruence|]. apply F. left. reflexivity.
  - apply IH; auto. intros y Hy. apply F. right. exact Hy.
  - intros t Ht H. apply in_map_iff in Ht. destruct Ht as (t' & <- & _). apply in_flat_map in H. destruct H as (y & Hy & H).
    apply in_map_iff in H. destruct H as (u & [= -> _] & _). contradiction.
Qed.

Lemma NoDup_arrangements r k : forall P, NoDup P -> NoDup (arrangements r k P).
Proof.
  induction k as [|k IH]; intros P N; simpl; [repeat constructor; intros []|]. apply NoDup_flat_cons; [exact N|]. intros x Hx. apply IH.
  destruct r; [exact N|apply NoDup_remove_eq; exact N].
Qed.

Lemma length_flat_const {A} (f : oid -> list A) c P : (forall x, In x P -> length (f x) = c) -> length (flat_map f P) = length P * c.
Proof.
  induction P as [|x P IH]; intros F; simpl; [reflexivity|]. rewrite app_length, IH by (intros y Hy; apply F; right; exact Hy).
  rewrite F by (left; reflexivity). lia.
Qed.

Lemma length_arrangements r k : forall P, NoDup P -> length (arrangements r k P) = tournaments r (length P) k.
Proof.
  induction k as [|k IH]; intros P N; [destruct r; reflexivity|]. simpl. destruct r.
  - rewrite (length_flat_const _ (length P ^ k)); [reflexivity|]. intros x Hx. rewrite map_length. apply (IH P N).
  - rewrite (length_flat_const _ (falling (length P - 1) k)); [reflexivity|]. intros x Hx. rewrite map_length.
    etransitivity; [apply IH, NoDup_remove_eq; exact N|]. simpl. f_equal. apply remove_length; assumption.
Qed.

Lemma drawn_arrangement r k src t : NoDup src -> drawn_from r k src t <-> In t (arrangements r k src).
Proof.
  intros N. rewrite in_arrangements. unfold drawn_from. split; intros (L & I & H); (split; [exact L|]); (split; [exact I|]); intros E; specialize (H E).
  - destruct H as (rest & Pm). apply (Permutation_NoDup Pm) in N. clear - N. induction t as [|x t IH]; [constructor|]. simpl in N. inversion_clear N as [|? ? Nx Nt]. constructor; [|auto]. intros H. apply Nx, in_app_iff. auto.
  - exists (filter (fun x => negb (existsb (Nat.eqb x) t)) src). apply NoDup_Permutation; [exact N| |].
    + assert (Nf : NoDup (filter (fun x => negb (existsb (Nat.eqb x) t)) src)) by (apply NoDup_filter; exact N).
      assert (D : forall x, In x t -> ~ In x (filter (fun x => negb (existsb (Nat.eqb x) t)) src)).
      { intros x Hx Hf. apply filter_In in Hf. destruct Hf as [_ Hf]. apply negb_true_iff in Hf.
        assert (existsb (Nat.eqb x) t = true) by (apply existsb_exists; exists x; split; [exact Hx|apply Nat.eqb_refl]). congruence. }
      clear L I. revert D H Nf. generalize (filter (fun x => negb (existsb (Nat.eqb x) t)) src) as f. induction t as [|x t IH]; intros f D H Nf; simpl; [exact Nf|].
      inversion_clear H as [|? ? Nx Nt]. constructor; [rewrite in_app_iff; intros [A|A]; [contradiction|apply (D x); [left; reflexivity|exact A]]|].
      apply IH; auto. intros y Hy. apply D. right. exact Hy.
    + intros x. rewrite in_app_iff, filter_In. split.
      * intros Hx. destruct (existsb (Nat.eqb x) t) eqn:Ex; [left|right; auto]. apply existsb_exists in Ex. destruct Ex as (y & Hy & Exy).
        apply Nat.eqb_eq in Exy. subst. exact Hy.
      * intros [Hx|[Hx _]]; [apply I; exact Hx|exact Hx].
Qed.

Lemma tournaments_number r k src : NoDup src -> number_of (drawn_from r k src) (tournaments r (length src) k).
Proof.
  intros N. exists (arrangements r k src). split; [apply NoDup_arrangements; exact N|]. split; [intros t; symmetry; apply drawn_arrangement; exact N|].
  apply length_arrangements. exact N.
Qed.

(** ** Who wins *)

Section Order.
  Variables (src : list oid) (bt : oid -> oid -> bool).
  Hypothesis asym : forall x y, In x src -> In y src -> bt x y = true -> bt y x = false.
  Hypothesis negt : forall x y z, In x src -> In y src -> In z src -> bt x y = false -> bt y z = false -> bt x z = false.
  Hypothesis Nsrc : NoDup src.

  Definition wins (t : list oid) (o : oid) : Prop :=
    exists pre post, t = pre ++ o :: post /\ (forall p, In p pre -> bt o p = true) /\ (forall p, In p post -> bt p o = false).
  Definition first_unbeaten (t : list oid) : option oid := find (fun o => forallb (fun p => negb (bt p o)) t) t.
  Definition winsb (o : oid) (t : list oid) : bool := match first_unbeaten t with Some x => x =? o | None => false end.

  Lemma irr x : In x src -> bt x x = false.
  Proof. intros H. destruct (bt x x) eqn:E; [|reflexivity]. rewrite <- E. apply asym; assumption. Qed.

  Lemma unbeaten o t : incl t src -> In o src -> wins t o -> In o t /\ forall p, In p t -> bt p o = false.
  Proof.
    intros I Ho (pre & post & -> & A & B). split; [apply in_elt|]. intros p Hp. apply in_app_iff in Hp. destruct Hp as [Hp|[<-|Hp]].
    - apply asym; auto. apply I, in_app_iff. auto.
    - apply irr. exact Ho.
    - apply B. exact Hp.
  Qed.

  Lemma find_split {A} (f : A -> bool) l x : find f l = Some x -> exists pre post, l = pre ++ x :: post /\ f x = true /\ forall y, In y pre -> f y = false.
  Proof.
    induction l as [|y l IH]; simpl; [discriminate|]. destruct (f y) eqn:E.
    - intros [= ->]. exists [], l. repeat split; auto. intros y [].
    - intros H. destruct (IH H) as (pre & post & -> & Fx & Fp). exists (y :: pre), post. split; [reflexivity|]. split; [exact Fx|].
      intros z [<-|Hz]; auto.
  Qed.

  Lemma winsb_wins o t : incl t src -> In o src -> winsb o t = true <-> wins t o.
  Proof.
    intros I Ho. unfold winsb, first_unbeaten. split.
    - destruct (find _ t) as [x|] eqn:E; [|discriminate]. intros Ex. apply Nat.eqb_eq in Ex. subst x. apply find_split in E.
      destruct E as (pre & post & -> & Fo & Fp). rewrite forallb_forall in Fo. exists pre, post. split; [reflexivity|]. split.
      + intros p Hp. assert (Ip : In p src) by (apply I, in_app_iff; auto). apply Fp in Hp. destruct (bt o p) eqn:Eop; [reflexivity|].
        exfalso. assert (F : forallb (fun q => negb (bt q p)) (pre ++ o :: post) = true); [|congruence]. apply forallb_forall. intros q Hq.
        pose proof (Fo q Hq) as Fq. apply negb_true_iff in Fq. apply negb_true_iff. apply (negt q o p); auto.
      + intros p Hp. specialize (Fo p). rewrite negb_true_iff in Fo. apply Fo. apply in_app_iff. right. right. exact Hp.
    - intros W. pose proof (unbeaten o t I Ho W) as [_ U]. destruct W as (pre & post & -> & A & B).
      assert (E : forall l, incl l pre -> find (fun o0 => forallb (fun p => negb (bt p o0)) (pre ++ o :: post)) (l ++ o :: post) = Some o).
      { induction l as [|x l IH]; intros Il; simpl.
        - assert (F : forallb (fun p => negb (bt p o)) (pre ++ o :: post) = true) by (apply forallb_forall; intros p Hp; apply negb_true_iff; apply U; exact Hp).
          rewrite F. reflexivity.
        - assert (F : forallb (fun p => negb (bt p x)) (pre ++ o :: post) = false).
          { apply not_true_iff_false. intros F. rewrite forallb_forall in F. assert (Hin : In o (pre ++ o :: post)) by apply in_elt. specialize (F o Hin).
            rewrite A in F; [discriminate|]. apply Il. left. reflexivity. }
          rewrite F. apply IH. intros y Hy. apply Il. right. exact Hy. }
      rewrite (E pre) by apply incl_refl. apply Nat.eqb_refl.
  Qed.

  Lemma someone_wins t : incl t src -> t <> [] -> exists x, In x t /\ wins t x.
  Proof.
    intros I Hne.
    assert (M : forall t, incl t src -> t <> [] -> exists x, In x t /\ forall p, In p t -> bt p x = false).
    { induction t0 as [|y u IH]; intros I' Hn; [congruence|]. destruct u as [|z u].
      - exists y. split; [left; reflexivity|]. intros p [<-|[]]. apply irr. apply I'. left. reflexivity.
      - destruct IH as (x & Hx & U); [intros q Hq; apply I'; right; exact Hq|discriminate|]. destruct (bt y x) eqn:E.
        + exists y. split; [left; reflexivity|]. intros p [<-|Hp]; [apply irr; apply I'; left; reflexivity|].
          apply (negt p x y); [apply I'; right; exact Hp|apply I'; right; exact Hx|apply I'; left; reflexivity|apply U; exact Hp|].
          apply asym; [apply I'; left; reflexivity|apply I'; right; exact Hx|exact E].
        + exists x. split; [right; exact Hx|]. intros p [<-|Hp]; [exact E|apply U; exact Hp]. }
    destruct (M t I Hne) as (x & Hx & U). destruct (first_unbeaten t) as [o|] eqn:E.
    - exists o. assert (Io : In o t) by (apply (find_some _ _ E)). split; [exact Io|]. apply winsb_wins; auto. unfold winsb. rewrite E. apply Nat.eqb_refl.
    - exfalso. apply (find_none _ _ E) in Hx. apply not_true_iff_false in Hx. apply Hx. apply forallb_forall. intros p Hp. apply negb_true_iff. auto.
  Qed.

  Lemma one_winner t a b : incl t src -> In a src -> In b src -> wins t a -> wins t b -> a = b.
  Proof.
    intros I Ha Hb A B. apply winsb_wins in A; auto. apply winsb_wins in B; auto. unfold winsb in *. destruct (first_unbeaten t); [|discriminate].
    apply Nat.eqb_eq in A, B. congruence.
  Qed.

  (** *** Exchanging two individuals *)

  Definition swap (a b x : oid) : oid := if x =? a then b else if x =? b then a else x.

  Lemma swap_swap a b x : swap a b (swap a b x) = x.
  Proof.
    unfold swap. destruct (Nat.eqb_spec x a) as [->|Na].
    - destruct (Nat.eqb_spec b a) as [->|_]; [reflexivity|]. rewrite Nat.eqb_refl. reflexivity.
    - destruct (Nat.eqb_spec x b) as [->|Nb]; [rewrite Nat.eqb_refl; reflexivity|].
      destruct (Nat.eqb_spec x a); [contradiction|]. destruct (Nat.eqb_spec x b); [contradiction|reflexivity].
  Qed.
  Lemma swap_left a b : swap a b a = b.
  Proof. unfold swap. rewrite Nat.eqb_refl. reflexivity. Qed.
  Lemma swap_inj a b x y : swap a b x = swap a b y -> x = y.
  Proof. intros H. rewrite <- (swap_swap a b x), <- (swap_swap a b y), H. reflexivity. Qed.
  Lemma swap_in a b x : In a src -> In b src -> In x src -> In (swap a b x) src.
  Proof. intros Ha Hb Hx. unfold swap. destruct (x =? a); [exact Hb|]. destruct (x =? b); assumption. Qed.

  Lemma swap_drawn r k a b t : In a src -> In b src -> In t (arrangements r k src) -> In (map (swap a b) t) (arrangements r k src).
  Proof.
    intros Ha Hb H. apply in_arrangements in H. apply in_arrangements. destruct H as (L & I & N). rewrite map_length. split; [exact L|]. split.
    - intros y Hy. apply in_map_iff in Hy. destruct Hy as (x & <- & Hx). apply swap_in; auto.
    - intros E. apply FinFun.Injective_map_NoDup; [intros x y; apply swap_inj|auto].
  Qed.

  Lemma count_le r k a b (f g : list oid -> bool) : In a src -> In b src ->
    (forall t, In t (arrangements r k src) -> f t = true -> g (map (swap a b) t) = true) ->
    length (filter f (arrangements r k src)) <= length (filter g (arrangements r k src)).
  Proof.
    intros Ha Hb H. rewrite <- (map_length (map (swap a b))). apply NoDup_incl_length.
    - apply FinFun.Injective_map_NoDup; [|apply NoDup_filter, NoDup_arrangements; exact Nsrc]. intros t u E.
      assert (X : forall l, map (swap a b) (map (swap a b) l) = l).
      { intros l. rewrite map_map. rewrite <- (map_id l) at 2. apply map_ext. apply swap_swap. }
      rewrite <- (X t), <- (X u), E. reflexivity.
    - intros u Hu. apply in_map_iff in Hu. destruct Hu as (t & <- & Ht). apply filter_In in Ht. destruct Ht as [Ht F]. apply filter_In. split; [apply swap_drawn; assumption|].
      apply H; assumption.
  Qed.

  Definition tied (a b : oid) : bool := negb (bt a b) && negb (bt b a).

  Lemma tied_bt a b : tied a b = true <-> bt a b = false /\ bt b a = false.
  Proof. unfold tied. rewrite andb_true_iff, !negb_true_iff. reflexivity. Qed.

  Lemma bt_swap a b x y : In a src -> In b src -> In x src -> In y src -> tied a b = true -> bt (swap a b x) (swap a b y) = bt x y.
  Proof.
    intros Ha Hb Hx Hy T. apply tied_bt in T. destruct T as [T1 T2].
    assert (L : forall u v z, In u src -> In v src -> In z src -> bt u v = false -> bt v u = false -> bt u z = bt v z).
    { intros u v z Hu Hv Hz U V. destruct (bt u z) eqn:E1, (bt v z) eqn:E2; try reflexivity.
      - rewrite <- E1. symmetry. rewrite <- E2 at 1. assert (bt u z = false) by (apply (negt u v z); auto). congruence.
      - assert (bt v z = false) by (apply (negt v u z); auto). congruence. }
    assert (Rr : forall u v z, In u src -> In v src -> In z src -> bt u v = false -> bt v u = false -> bt z u = bt z v).
    { intros u v z Hu Hv Hz U V. destruct (bt z u) eqn:E1, (bt z v) eqn:E2; try reflexivity.
      - assert (bt z u = false) by (apply (negt z v u); auto). congruence.
      - assert (bt z v = false) by (apply (negt z u v); auto). congruence. }
    assert (S : forall x, In x src -> bt (swap a b x) x = false /\ bt x (swap a b x) = false).
    { intros z Hz. unfold swap. destruct (Nat.eqb_spec z a) as [->|]; [auto|]. destruct (Nat.eqb_spec z b) as [->|]; [auto|]. split; apply irr; exact Hz. }
    destruct (S x Hx), (S y Hy). rewrite (L (swap a b x) x); auto using swap_in. 
  Qed.

  Lemma wins_swap a b t o : In a src -> In b src -> In o src -> incl t src -> tied a b = true -> wins t o -> wins (map (swap a b) t) (swap a b o).
  Proof.
    intros Ha Hb Ho I T (pre & post & -> & A & B). exists (map (swap a b) pre), (map (swap a b) post). rewrite map_app. split; [reflexivity|]. split.
    - intros p Hp. apply in_map_iff in Hp. destruct Hp as (q & <- & Hq). rewrite bt_swap; auto. apply I, in_app_iff. auto.
    - intros p Hp. apply in_map_iff in Hp. destruct Hp as (q & <- & Hq). rewrite bt_swap; auto. apply I, in_app_iff. right. right. exact Hq.
  Qed.

  Definition count (r : bool) (k : nat) (o : oid) : nat := length (filter (winsb o) (arrangements r k src)).

  Lemma tied_sym a b : tied a b = true -> tied b a = true.
  Proof. rewrite !tied_bt. tauto. Qed.

  Lemma tied_count r k a b : In a src -> In b src -> tied a b = true -> count r k a = count r k b.
  Proof.
    assert (X : forall a b, In a src -> In b src -> tied a b = true -> count r k a <= count r k b).
    { clear a b. intros a b Ha Hb T. apply (count_le r k a b); auto. intros t Ht W. apply in_arrangements in Ht. destruct Ht as (_ & I & _).
      apply winsb_wins in W; auto. apply winsb_wins; auto.
      - intros y Hy. apply in_map_iff in Hy. destruct Hy as (x & <- & Hx). apply swap_in; auto.
      - pose proof (wins_swap a b t a Ha Hb Ha I T W) as X. rewrite swap_left in X. exact X. }
    intros Ha Hb T. apply Nat.le_antisymm; apply X; auto. apply tied_sym. exact T.
  Qed.

  (** A better individual wins wherever a worse one would. *)
  Lemma better_takes_over a b t : In a src -> In b src -> incl t src -> bt b a = true -> wins t a -> wins (map (swap a b) t) b.
  Proof.
    intros Ha Hb I Hbt W. pose proof (unbeaten a t I Ha W) as [Ia U].
    assert (Nb : ~ In b t) by (intros H; apply U in H; congruence).
    destruct W as (pre & post & -> & A & B). exists (map (swap a b) pre), (map (swap a b) post). rewrite map_app. simpl. rewrite swap_left.
    split; [reflexivity|].
    assert (S : forall q, In q (pre ++ a :: post) -> bt b (swap a b q) = true \/ swap a b q = b).
    { intros q Hq. unfold swap. destruct (Nat.eqb_spec q a) as [->|Na]; [auto|]. destruct (Nat.eqb_spec q b) as [->|_]; [contradiction|]. left.
      destruct (bt b q) eqn:E; [reflexivity|]. assert (bt b a = false); [|congruence]. apply (negt b q a); auto. }
    split.
    - intros p Hp. apply in_map_iff in Hp. destruct Hp as (q & <- & Hq). destruct (S q) as [H|H]; [apply in_app_iff; auto|exact H|].
      exfalso. assert (q = a) as ->. { unfold swap in H. destruct (Nat.eqb_spec q a); [assumption|]. destruct (Nat.eqb_spec q b) as [->|]; [|congruence]. exfalso. apply Nb, in_app_iff. auto. }
      specialize (A a Hq). rewrite irr in A by exact Ha. discriminate.
    - intros p Hp. apply in_map_iff in Hp. destruct Hp as (q & <- & Hq). destruct (S q) as [H|H]; [apply in_app_iff; right; right; exact Hq| |].
      + apply asym; auto. apply swap_in; auto. apply I, in_app_iff. right. right. exact Hq.
      + rewrite H. apply irr. exact Hb.
  Qed.

  Lemma better_count r k a b : In a src -> In b src -> bt b a = true -> count r k a <= count r k b.
  Proof.
    intros Ha Hb Hbt. apply (count_le r k a b); auto. intros t Ht W. apply in_arrangements in Ht. destruct Ht as (_ & I & _).
    apply winsb_wins in W; auto. apply winsb_wins; auto.
    - intros y Hy. apply in_map_iff in Hy. destruct Hy as (x & <- & Hx). apply swap_in; auto.
    - apply better_takes_over; auto.
  Qed.

  (** *** The number of tournaments won *)

  Lemma filter_app_len {A} (f : A -> bool) l : length (filter f l) + length (filter (fun x => negb (f x)) l) = length l.
  Proof. induction l as [|x l IH]; simpl; [reflexivity|]. destruct (f x); simpl; lia. Qed.

  Lemma filter_or {A} (f g : A -> bool) l : (forall x, In x l -> f x = true -> g x = false) ->
    length (filter (fun x => f x || g x) l) = length (filter f l) + length (filter g l).
  Proof.
    induction l as [|x l IH]; intros D; simpl; [reflexivity|]. specialize (IH (fun y Hy => D y (or_intror Hy))). pose proof (D x (or_introl eq_refl)).
    destruct (f x), (g x); simpl; try lia.
  Qed.

  Lemma filter_len_ext {A} (f g : A -> bool) l : (forall x, In x l -> f x = g x) -> length (filter f l) = length (filter g l).
  Proof. intros H. rewrite (filter_ext_in _ _ _ H). reflexivity. Qed.

  Definition below (p : oid -> bool) (r : bool) (k : nat) : nat := length (filter (forallb p) (arrangements r k src)).

  Lemma below_count p r k : below p r k = tournaments r (length (filter p src)) k.
  Proof.
    unfold below. rewrite <- length_arrangements by (apply NoDup_filter; exact Nsrc).
    apply Nat.le_antisymm; apply NoDup_incl_length.
    - apply NoDup_filter, NoDup_arrangements. exact Nsrc.
    - intros t Ht. apply filter_In in Ht. destruct Ht as [Ht F]. apply in_arrangements in Ht. apply in_arrangements. destruct Ht as (L & I & N). split; [exact L|].
      split; [|exact N]. intros x Hx. apply filter_In. split; [apply I; exact Hx|]. rewrite forallb_forall in F. apply F. exact Hx.
    - apply NoDup_arrangements, NoDup_filter. exact Nsrc.
    - intros t Ht. apply in_arrangements in Ht. destruct Ht as (L & I & N). apply filter_In. split.
      + apply in_arrangements. split; [exact L|]. split; [|exact N]. intros x Hx. apply I, filter_In in Hx. apply Hx.
      + apply forallb_forall. intros x Hx. apply I, filter_In in Hx. apply Hx.
  Qed.

  Lemma class_count r k (cl : list oid) c : NoDup cl -> incl cl src -> (forall x, In x cl -> count r k x = c) ->
    length (filter (fun t => existsb (fun x => winsb x t) cl) (arrangements r k src)) = length cl * c.
  Proof.
    induction cl as [|x cl IH]; intros N I C.
    - simpl. induction (arrangements r k src); simpl; auto.
    - inversion_clear N as [|? ? Nx N']. simpl. rewrite filter_or.
      + rewrite (IH N'); [|intros y Hy; apply I; right; exact Hy|intros y Hy; apply C; right; exact Hy]. f_equal. apply C. left. reflexivity.
      + intros t _ W. apply not_true_iff_false. intros H. apply existsb_exists in H. destruct H as (y & Hy & W'). unfold winsb in *.
        destruct (first_unbeaten t); [|discriminate]. apply Nat.eqb_eq in W, W'. subst. contradiction.
  Qed.

  Lemma wins_formula r k o : 1 <= k -> In o src ->
    length (filter (tied o) src) * count r k o =
    tournaments r (length src - length (filter (fun p => bt p o) src)) k -
    tournaments r (length src - length (filter (fun p => bt p o) src) - length (filter (tied o) src)) k.
  Proof.
    intros Hk Ho.
    rewrite <- (class_count r k (filter (tied o) src) (count r k o)).
    2: apply NoDup_filter; exact Nsrc. 2: intros x Hx; apply filter_In in Hx; apply Hx.
    2:{ intros x Hx. apply filter_In in Hx. destruct Hx as [Hx T]. symmetry. apply tied_count; auto. }
    assert (E1 : length src - length (filter (fun p => bt p o) src) = length (filter (fun p => negb (bt p o)) src)).
    { pose proof (filter_app_len (fun p => bt p o) src). unfold oid in *. lia. }
    assert (E2 : length src - length (filter (fun p => bt p o) src) - length (filter (tied o) src) = length (filter (fun p => bt o p) src)).
    { rewrite E1. rewrite (filter_len_ext (fun p => negb (bt p o)) (fun p => tied o p || bt o p)).
      - rewrite (filter_or (tied o) (bt o)); [change (fun p => bt o p) with (bt o); unfold oid in *; lia|]. intros x Hx T. apply tied_bt in T. tauto.
      - intros x Hx. unfold tied. destruct (bt x o) eqn:A, (bt o x) eqn:B; try reflexivity. assert (bt x o = false) by (apply asym; auto). congruence. }
    rewrite E2, E1, <- !below_count. unfold below.
    assert (Y : length (filter (fun t => forallb (fun p => bt o p) t || existsb (fun x => winsb x t) (filter (tied o) src)) (arrangements r k src)) =
                length (filter (forallb (fun p => negb (bt p o))) (arrangements r k src))).
    { apply filter_len_ext. intros t Ht. apply in_arrangements in Ht. destruct Ht as (L & I & _). apply eq_true_iff_eq. rewrite orb_true_iff. split.
      - intros [F|F]; apply forallb_forall; intros p Hp; apply negb_true_iff.
        + rewrite forallb_forall in F. apply asym; auto.
        + apply existsb_exists in F. destruct F as (x & Hx & W). apply filter_In in Hx. destruct Hx as [Hx T]. apply winsb_wins in W; auto.
          destruct (unbeaten x t I Hx W) as [_ U]. apply tied_bt in T. apply (negt p x o); auto. tauto.
      - intros F. rewrite forallb_forall in F.
        destruct (someone_wins t I) as (x & Hx & W); [intros ->; simpl in L; lia|]. destruct (unbeaten x t I (I x Hx) W) as [_ U].
        destruct (bt o x) eqn:E.
        + left. apply forallb_forall. intros p Hp. destruct (bt o p) eqn:E'; [reflexivity|]. assert (bt o x = false); [|congruence]. apply (negt o p x); auto.
        + right. apply existsb_exists. exists x. split; [|apply winsb_wins; auto]. apply filter_In. split; [auto|]. apply tied_bt. split; [exact E|]. apply negb_true_iff. apply F. exact Hx. }
    rewrite <- Y, filter_or; [unfold oid in *; lia|]. intros t Ht F. apply not_true_iff_false. intros H. apply existsb_exists in H. destruct H as (x & Hx & W).
    apply filter_In in Hx. destruct Hx as [Hx T]. apply in_arrangements in Ht. destruct Ht as (_ & I & _). apply winsb_wins in W; auto.
    destruct (unbeaten x t I Hx W) as [Ix _]. rewrite forallb_forall in F. apply F in Ix. apply tied_bt in T. destruct T. congruence.
  Qed.

  Lemma count_number r k o : In o src -> number_of (fun t => drawn_from r k src t /\ wins t o) (count r k o).
  Proof.
    intros Ho. eapply number_ext; [|apply (number_filter (winsb o)); apply NoDup_arrangements; exact Nsrc]. intros t. simpl. split; intros [Ht W].
    - split; [apply drawn_arrangement; auto|]. apply in_arrangements in Ht. apply winsb_wins; auto. tauto.
    - split; [apply drawn_arrangement; auto|]. apply winsb_wins; auto. destruct Ht as (_ & I & _). exact I.
  Qed.

  (** With at least two participants the better one of two has strictly more tournaments: those where it meets the other. *)
  Lemma better_count_strict k a b : In a src -> In b src -> bt b a = true -> 2 <= k -> count true k a < count true k b.
  Proof.
    intros Ha Hb Hbt Hk. destruct k as [|[|k]]; [lia|lia|]. set (k' := S (S k)).
    assert (Nab : a <> b) by (intros ->; rewrite irr in Hbt by exact Hb; discriminate).
    unfold count. rewrite <- (map_length (map (swap a b)) (filter (winsb a) _)).
    set (t0 := b :: repeat a (S k)).
    assert (I0 : incl t0 src) by (intros x [<-|Hx]; [exact Hb|]; apply repeat_spec in Hx; subst; exact Ha).
    apply (NoDup_incl_length (l := t0 :: map (map (swap a b)) (filter (winsb a) (arrangements true k' src)))).
    - constructor.
      + intros H. apply in_map_iff in H. destruct H as (t & E & Ht). apply filter_In in Ht. destruct Ht as [Ht W]. apply in_arrangements in Ht.
        destruct Ht as (_ & I & _). apply winsb_wins in W; auto. destruct (unbeaten a t I Ha W) as [_ U].
        assert (X : map (swap a b) t0 = t). { rewrite <- E, map_map. rewrite <- (map_id t) at 2. apply map_ext. apply swap_swap. }
        assert (Ib : In b t). { rewrite <- X. simpl. right. left. apply swap_left. }
        apply U in Ib. congruence.
      + apply FinFun.Injective_map_NoDup; [|apply NoDup_filter, NoDup_arrangements; exact Nsrc]. intros t u E.
        assert (X : forall l, map (swap a b) (map (swap a b) l) = l).
        { intros l. rewrite map_map. rewrite <- (map_id l) at 2. apply map_ext. apply swap_swap. }
        rewrite <- (X t), <- (X u), E. reflexivity.
    - intros t [<-|H]; apply filter_In.
      + split.
        * apply in_arrangements. split; [simpl; rewrite repeat_length; reflexivity|]. split; [exact I0|discriminate].
        * apply winsb_wins; auto. exists [], (repeat a (S k)). split; [reflexivity|]. split; [intros p []|]. intros p Hp. apply repeat_spec in Hp. subst p.
          apply asym; auto.
      + apply in_map_iff in H. destruct H as (u & <- & Hu). apply filter_In in Hu. destruct Hu as [Hu W]. split; [apply swap_drawn; auto|].
        apply in_arrangements in Hu. destruct Hu as (_ & I & _). apply winsb_wins in W; auto. apply winsb_wins; auto.
        * intros y Hy. apply in_map_iff in Hy. destruct Hy as (x & <- & Hx). apply swap_in; auto.
        * apply better_takes_over; auto.
  Qed.
End Order.

(** ** Scores *)

Definition beats (h : bool) (score : oid -> num) (x y : oid) : bool := if h then nlt (score y) (score x) else nlt (score x) (score y).

Lemma beats_score h score x y : beats h score x y = true <-> better_score h (score x) (score y).
Proof. unfold beats, better_score. destruct h; reflexivity. Qed.
Lemma not_beats h score x y : beats h score x y = false <-> ~ better_score h (score x) (score y).
Proof. rewrite <- beats_score, not_true_iff_false. reflexivity. Qed.
Lemma beats_asym h score src x y : In x src -> In y src -> beats h score x y = true -> beats h score y x = false.
Proof. intros _ _. unfold beats. destruct h; apply nlt_asym. Qed.
Lemma beats_negt h score (src : list oid) : (forall o, In o src -> is_nan (score o) = false) ->
  forall x y z, In x src -> In y src -> In z src -> beats h score x y = false -> beats h score y z = false -> beats h score x z = false.
Proof.
  intros N x y z Hx Hy Hz. unfold beats. destruct h; intros A B.
  - apply (nlt_negtrans (score z) (score y) (score x)); auto.
  - apply (nlt_negtrans (score x) (score y) (score z)); auto.
Qed.

Lemma wins_best h score t o : wins (beats h score) t o <-> first_best h score t o.
Proof.
  unfold wins, first_best. split; intros (pre & post & E & A & B); exists pre, post; (split; [exact E|]); split; intros p Hp.
  - apply beats_score. auto.
  - apply not_beats. auto.
  - apply beats_score. auto.
  - apply not_beats. auto.
Qed.

Lemma victories_count h score replace k src o : NoDup src -> (forall p, In p src -> is_nan (score p) = false) -> In o src ->
  number_of (fun t => drawn_from replace k src t /\ first_best h score t o) (count src (beats h score) replace k o).
Proof.
  intros N S Ho. eapply number_ext; [|apply (count_number src (beats h score)); auto; [apply beats_asym|apply beats_negt; exact S]].
  intros t. simpl. rewrite wins_best. reflexivity.
Qed.

Lemma pressure h score replace k src o r e : NoDup src -> (forall p, In p src -> is_nan (score p) = false) -> In o src -> 1 <= k ->
  number_of (fun p => In p src /\ better_score h (score p) (score o)) r ->
  number_of (fun p => In p src /\ ~ better_score h (score p) (score o) /\ ~ better_score h (score o) (score p)) e ->
  exists m, number_of (fun t => drawn_from replace k src t /\ first_best h score t o) m /\
    e * m = tournaments replace (length src - r) k - tournaments replace (length src - r - e) k.
Proof.
  intros N S Ho Hk Hr He. exists (count src (beats h score) replace k o). split; [apply victories_count; assumption|].
  pose proof (wins_formula src (beats h score) (beats_asym h score src) (beats_negt h score src S) N replace k o Hk Ho) as F.
  assert (r = length (filter (fun p => beats h score p o) src)) as ->.
  { apply (same_number _ _ _ Hr). eapply number_ext; [|apply (number_filter (fun p => beats h score p o)); exact N]. intros p. simpl. rewrite beats_score. reflexivity. }
  assert (e = length (filter (tied (beats h score) o) src)) as ->; [|exact F].
  apply (same_number _ _ _ He). eapply number_ext; [|apply (number_filter (tied (beats h score) o)); exact N]. intros p. simpl.
  rewrite tied_bt, !not_beats. tauto.
Qed.

Lemma better_wins_more h score replace k src a b n m : NoDup src -> (forall p, In p src -> is_nan (score p) = false) -> In a src -> In b src ->
  better_score h (score b) (score a) ->
  number_of (fun t => drawn_from replace k src t /\ first_best h score t a) n ->
  number_of (fun t => drawn_from replace k src t /\ first_best h score t b) m ->
  n <= m /\ (replace = true -> 2 <= k -> n < m).
Proof.
  intros N S Ha Hb B Hn Hm. apply beats_score in B.
  rewrite (same_number _ _ _ Hn (victories_count h score replace k src a N S Ha)), (same_number _ _ _ Hm (victories_count h score replace k src b N S Hb)).
  pose proof (beats_asym h score src) as As. pose proof (beats_negt h score src S) as Ng. split; [apply better_count; auto|].
  intros -> Hk. apply better_count_strict; auto.
Qed.

Lemma worst_never_win h score k src o t : NoDup src -> (forall p, In p src -> is_nan (score p) = false) -> In o src ->
  drawn_from false k src t -> first_best h score t o ->
  exists l, NoDup l /\ length l = k /\ forall p, In p l -> In p src /\ ~ better_score h (score p) (score o).
Proof.
  intros N S Ho D F. exists t. pose proof D as (L & I & _). apply drawn_arrangement in D; [|exact N]. apply in_arrangements in D. destruct D as (_ & _ & Nt).
  split; [auto|]. split; [exact L|]. intros p Hp. split; [auto|]. apply not_beats. apply wins_best in F.
  destruct (unbeaten src (beats h score) (beats_asym h score src) o t I Ho F) as [_ U]. auto.
Qed.

Lemma everyone_can_win h score k src o : NoDup src -> 1 <= k -> In o src -> drawn_from true k src (repeat o k) /\ (forall p, first_best h score (repeat o k) p <-> p = o).
Proof.
  intros N Hk Ho. split; [split; [apply repeat_length|split; [intros x Hx; apply repeat_spec in Hx; subst; exact Ho|discriminate]]|].
  intros p. split.
  - intros (pre & post & E & _). assert (In p (repeat o k)) as H by (rewrite E; apply in_elt). apply repeat_spec in H. exact H.
  - intros ->. destruct k as [|k]; [lia|]. exists [], (repeat o k). split; [reflexivity|]. split; [intros p []|]. intros q Hq. apply repeat_spec in Hq. subst q.
    apply not_beats. unfold beats. destruct h; apply nlt_irrefl.
Qed.

(** ** From draws to participants *)

Definition shrink (pool : list oid) (d : nat) : list oid := removelast (list_set pool d (last pool (nth d pool 0))).

Fixpoint participants (r : bool) (pool : list oid) (ds : list nat) : list oid :=
  match ds with
  | [] => []
  | d :: ds' => nth d pool 0 :: participants r (if r then pool else shrink pool d) ds'
  end.

Definition advance (n : nat) (g : rng) : rng :=
  mkRng (r_py g) (r_np g) (r_pyseed g) (r_pypos g + n) (r_npseed g) (r_nppos g).

Lemma upcoming_cons g d ds : upcoming g (d :: ds) -> d_n (r_py g (r_pyseed g) (r_pypos g)) = N.of_nat d /\ upcoming (advance 1 g) ds.
Proof.
  intros U. split.
  - specialize (U 0 d eq_refl). rewrite Nat.add_0_r in U. exact U.
  - intros i x H. specialize (U (S i) x H). simpl. rewrite <- Nat.add_assoc. exact U.
Qed.

Lemma randbelow_upcoming n g d ds : upcoming g (d :: ds) -> d < n -> randbelow n g = (Ok d, advance 1 g).
Proof.
  intros U L. apply upcoming_cons in U. destruct U as [U _]. unfold randbelow, next_draw, bind, ret. simpl. rewrite U.
  rewrite N.mod_small by lia. rewrite Nnat.Nat2N.id. unfold advance. rewrite Nat.add_1_r. reflexivity.
Qed.

Lemma draws_cons r n d ds k : draws_for r n (S k) (d :: ds) <-> d < n /\ draws_for r (if r then n else n - 1) k ds.
Proof.
  unfold draws_for. split.
  - intros [L B]. split; [specialize (B 0 d eq_refl); destruct r; lia|]. split; [simpl in L; lia|]. intros i x H. specialize (B (S i) x H).
    destruct r; lia.
  - intros (Ld & L & B). split; [simpl; lia|]. intros [|i] x H; simpl in H.
    + injection H as ->. destruct r; lia.
    + specialize (B i x H). destruct r; lia.
Qed.

Lemma nth_in d (pool : list oid) : d < length pool -> nth_error pool d = Some (nth d pool 0).
Proof. intros H. apply nth_error_nth'. exact H. Qed.

Lemma shrink_perm d (pool : list oid) : d < length pool -> Permutation pool (nth d pool 0 :: shrink pool d).
Proof. intros H. unfold shrink. apply removelast_set_perm. apply nth_in. exact H. Qed.

Lemma shrink_length d (pool : list oid) : d < length pool -> length (shrink pool d) = length pool - 1.
Proof. intros H. pose proof (Permutation_length (shrink_perm d pool H)) as E. simpl in E. unfold oid in *. lia. Qed.

Lemma advance_advance n m g : advance n (advance m g) = advance (m + n) g.
Proof. unfold advance. simpl. rewrite Nat.add_assoc. reflexivity. Qed.
Lemma advance_0 g : advance 0 g = g.
Proof. unfold advance. rewrite Nat.add_0_r. destruct g; reflexivity. Qed.

Lemma choices_upcoming (pool : list oid) k : forall ds g, draws_for true (length pool) k ds -> upcoming g ds ->
  choices pool k g = (Ok (participants true pool ds), advance k g).
Proof.
  unfold choices. induction k as [|k IH]; intros ds g D U.
  - destruct ds; [|destruct D; discriminate]. simpl. rewrite advance_0. reflexivity.
  - destruct ds as [|d ds]; [destruct D; discriminate|]. apply draws_cons in D. destruct D as [Ld D]. simpl repeatM.
    assert (E : choice pool g = (Ok (nth d pool 0), advance 1 g)).
    { unfold choice. destruct pool as [|x pool']; [simpl in Ld; lia|]. rewrite (bind_eq_ok _ _ _ _ _ (randbelow_upcoming _ g d ds U Ld)).
      rewrite (nth_in d (x :: pool') Ld). reflexivity. }
    rewrite (bind_eq_ok _ _ _ _ _ E). apply upcoming_cons in U. destruct U as [_ U]. rewrite (bind_eq_ok _ _ _ _ _ (IH ds _ D U)).
    unfold ret. rewrite advance_advance. reflexivity.
Qed.

Lemma sample_upcoming k : forall (pool : list oid) ds g, draws_for false (length pool) k ds -> upcoming g ds ->
  sample_pool k pool g = (Ok (participants false pool ds), advance k g).
Proof.
  induction k as [|k IH]; intros pool ds g D U.
  - destruct ds; [|destruct D; discriminate]. simpl. rewrite advance_0. reflexivity.
  - destruct ds as [|d ds]; [destruct D; discriminate|]. apply draws_cons in D. destruct D as [Ld D]. simpl sample_pool.
    rewrite (bind_eq_ok _ _ _ _ _ (randbelow_upcoming _ g d ds U Ld)). rewrite (nth_in d pool Ld). apply upcoming_cons in U. destruct U as [_ U].
    change (removelast (list_set pool d (last pool (nth d pool 0)))) with (shrink pool d).
    rewrite <- (shrink_length d pool Ld) in D. rewrite (bind_eq_ok _ _ _ _ _ (IH (shrink pool d) ds _ D U)). unfold ret. rewrite advance_advance. reflexivity.
Qed.

Lemma draws_bijection r k : forall pool, NoDup pool -> (r = false -> k <= length pool) ->
  bijection (draws_for r (length pool) k) (drawn_from r k pool) (participants r pool).
Proof.
  intros pool N0 Hk0. unfold bijection.
  assert (G : forall k pool, NoDup pool ->
    (forall ds, draws_for r (length pool) k ds -> In (participants r pool ds) (arrangements r k pool)) /\
    (forall x y, draws_for r (length pool) k x -> draws_for r (length pool) k y -> participants r pool x = participants r pool y -> x = y) /\
    (forall t, In t (arrangements r k pool) -> exists ds, draws_for r (length pool) k ds /\ participants r pool ds = t)).
  { clear. induction k as [|k IH]; intros pool N.
    - split; [intros ds [L _]; destruct ds; [left; reflexivity|discriminate]|]. split.
      + intros x y [Lx _] [Ly _] _. destruct x, y; try discriminate. reflexivity.
      + intros t [<-|[]]. exists []. split; [split; [reflexivity|]|reflexivity]. intros [|i] d; discriminate.
    - assert (Next : forall d, d < length pool -> NoDup (if r then pool else shrink pool d) /\ length (if r then pool else shrink pool d) = (if r then length pool else length pool - 1) /\
                 forall l, In l (arrangements r k (if r then pool else shrink pool d)) <-> In l (arrangements r k (if r then pool else remove Nat.eq_dec (nth d pool 0) pool))).
      { intros d Ld. destruct r; [split; [exact N|split; reflexivity]|]. pose proof (shrink_perm d pool Ld) as Pm.
        assert (Nd : NoDup (nth d pool 0 :: shrink pool d)) by (apply (Permutation_NoDup Pm); exact N). inversion_clear Nd as [|? ? Nx Ns].
        split; [exact Ns|]. split; [apply shrink_length; exact Ld|].
        assert (Q : forall x, In x (shrink pool d) <-> In x (remove Nat.eq_dec (nth d pool 0) pool)).
        { intros x. split.
          - intros Hx. apply in_in_remove; [intros ->; contradiction|]. apply (Permutation_in x (Permutation_sym Pm)). right. exact Hx.
          - intros Hx. apply in_remove in Hx. destruct Hx as [Hx Ne]. apply (Permutation_in x Pm) in Hx. destruct Hx as [E|Hx]; [congruence|exact Hx]. }
        intros l. rewrite !in_arrangements. unfold incl. split; intros (L & I & X); (split; [exact L|split; [intros x Hx; apply Q; auto|exact X]]). }
      split; [|split].
      + intros [|d ds] D; [destruct D; discriminate|]. apply draws_cons in D. destruct D as [Ld D]. destruct (Next d Ld) as (Nn & Ln & An).
        simpl. apply in_flat_map. exists (nth d pool 0). split; [apply nth_In; exact Ld|]. apply in_map. apply An. apply (IH _ Nn). rewrite Ln. exact D.
      + intros [|d ds] [|d' ds'] D D' E; try (destruct D, D'; discriminate). apply draws_cons in D, D'. destruct D as [Ld D], D' as [Ld' D'].
        simpl in E. injection E as E1 E2. assert (d = d') as <- by (apply (proj1 (NoDup_nth pool 0) N); assumption).
        destruct (Next d Ld) as (Nn & Ln & _). f_equal. apply (IH _ Nn); rewrite ?Ln; auto.
      + intros t Ht. simpl in Ht. apply in_flat_map in Ht. destruct Ht as (x & Hx & Ht). apply in_map_iff in Ht. destruct Ht as (u & <- & Hu).
        destruct (In_nth pool x 0 Hx) as (d & Ld & Ed). destruct (Next d Ld) as (Nn & Ln & An). rewrite <- Ed in Hu. apply An in Hu.
        destruct (IH _ Nn) as (_ & _ & Sj). destruct (Sj u Hu) as (ds & D & E). exists (d :: ds). split; [apply draws_cons; split; [exact Ld|]; rewrite <- Ln; exact D|].
        simpl. rewrite E, Ed. reflexivity. }
  destruct (G k pool N0) as (G1 & G2 & G3). split; [|split].
  - intros ds D. apply drawn_arrangement; auto.
  - exact G2.
  - intros t Ht. apply drawn_arrangement in Ht; auto.
Qed.

Lemma upcoming_app g a b : upcoming g (a ++ b) -> upcoming g a /\ upcoming (advance (length a) g) b.
Proof.
  intros U. split.
  - intros i d H. apply U. rewrite nth_error_app1; [exact H|]. apply nth_error_Some. congruence.
  - intros i d H. simpl. rewrite <- Nat.add_assoc. apply U. rewrite nth_error_app2 by lia. replace (length a + i - length a) with i by lia. exact H.
Qed.

Lemma repeated_draws (m : R (list oid)) (f : list nat -> list oid) (P : list nat -> Prop) k :
  (forall ds g, P ds -> upcoming g ds -> m g = (Ok (f ds), advance k g)) -> (forall ds, P ds -> length ds = k) ->
  forall dss w, Forall P dss -> upcoming (w_rng w) (concat dss) ->
  exists w', repeatM (length dss) (liftR m) w = (Ok (map f dss), w') /\ w_heap w' = w_heap w.
Proof.
  intros Hm Hk. induction dss as [|ds dss IH]; intros w F U; [exists w; split; reflexivity|]. inversion_clear F as [|? ? Pd F']. simpl in U.
  apply upcoming_app in U. destruct U as [U1 U2]. rewrite (Hk ds Pd) in U2.
  destruct (IH (mkWorld (w_heap w) (w_next_id w) (advance k (w_rng w))) F' U2) as (w' & E & Hh). exists w'. simpl.
  rewrite (bind_eq_ok _ _ _ _ _ (liftR_eq _ _ _ _ (Hm ds _ Pd U1))), (bind_eq_ok _ _ _ _ _ E). split; [reflexivity|exact Hh].
Qed.

Lemma tournaments_by_draws replace k a src : 1 <= k -> 1 <= a -> NoDup src -> (replace = false -> k <= length src) ->
  exists f, bijection (draws_for replace (length src) k) (drawn_from replace k src) f /\
    forall h score dest dss w, (forall o, In o src -> scored w o (score o) /\ oriented w h o) ->
      length dss = (length src - length dest) / a -> Forall (draws_for replace (length src) k) dss -> upcoming (w_rng w) (concat dss) ->
      exists winners cs w', tournament_select k replace a src dest w = (Ok (dest ++ cs), w') /\
        Forall2 (fun ds o => first_best h score (f ds) o) dss winners /\ copies "TournamentSelection" winners w cs w'.
Proof.
  intros Hk Ha N Hr. exists (participants replace src). split; [apply draws_bijection; assumption|].
  intros h score dest dss w Hsc Ld Fd U. unfold tournament_select.
  assert (E1 : negb replace && (length src <? k) = false).
  { destruct replace; [reflexivity|]. simpl. apply Nat.ltb_ge. auto. }
  rewrite E1. destruct (Nat.eqb_spec a 0); [lia|]. rewrite <- Ld.
  destruct (repeated_draws (if replace then choices src k else sample src k) (participants replace src) (draws_for replace (length src) k) k) with (dss := dss) (w := w) as (w1 & Et & Hh); auto.
  { intros ds g D Ug. destruct replace; [apply choices_upcoming; assumption|]. unfold sample.
    assert (length src <? k = false) as -> by (apply Nat.ltb_ge; auto). apply sample_upcoming; assumption. }
  { intros ds D. apply D. }
  rewrite (bind_eq_ok _ _ _ _ _ Et). set (tours := map (participants replace src) dss).
  assert (Ft : forall t, In t tours -> drawn_from replace k src t).
  { intros t Ht. apply in_map_iff in Ht. destruct Ht as (ds & <- & Hd). rewrite Forall_forall in Fd. apply (draws_bijection replace k src N Hr). auto. }
  assert (Hw : forall t w2, In t tours -> ext w w2 -> exists o, tournament_winner t w2 = (Ok o, w2) /\ first_best h score t o).
  { intros t w2 Ht He. destruct (Ft t Ht) as (Lt' & It & _). apply winner_first_best.
    - intros ->. simpl in Lt'. lia.
    - intros o Ho. apply It in Ho. destruct (Hsc o Ho). split; [eapply ext_scored; eauto|eapply ext_oriented; eauto]. }
  assert (Hin : forall t o, In t tours -> first_best h score t o -> exists i, at_ w o = Some i).
  { intros t o Ht (pre & post & -> & _). destruct (Ft _ Ht) as (_ & It & _).
    destruct (Hsc o) as ((i & Hi & _) & _); [apply It; apply in_or_app; right; left; reflexivity|]. eauto. }
  assert (He : ext w w1) by (apply ext_same; exact Hh).
  destruct (picks_total tournament_winner "TournamentSelection" w tours w1 He) as (cs & w' & Hm).
  { intros t w2 Ht He2. destruct (Hw t w2 Ht He2) as (o & Ho & Hf). destruct (Hin t o Ht Hf) as (i & Hi). exists o, w2, i. auto. }
  destruct (picks_ok tournament_winner "TournamentSelection" (first_best h score) w tours w1 cs w' He) as (os & F & _ & C); [|exact Hm|].
  { intros t w2 o w3 Ht He2 Ew. destruct (Hw t w2 Ht He2) as (o' & Ho & Hf). rewrite Ew in Ho. injection Ho as -> ->. eauto. }
  exists os, cs, w'. rewrite (bind_eq_ok _ _ _ _ _ Hm). split; [reflexivity|].
  split; [|eapply copies_heap; [|exact C]; exact Hh]. unfold tours in F. clear - F. revert os F.
  induction dss as [|ds dss IH]; intros os F; inversion_clear F; constructor; auto.
Qed.
