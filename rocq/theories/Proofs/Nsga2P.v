(** Proofs about NSGA-II on individuals (C48-C53). *)
From Coq Require Import Lia Lqa Permutation Sorted QArith.
From Verif.Proofs Require Export LoopP WorldP IndP BreedP RunP.
From Verif.Model Require Import Num Fitness Tree World Nsga2.
Open Scope nat_scope.
Open Scope list_scope.

(** ** Every individual is in a front *)

Lemma left_list h v l k : exists cur, forall x, In x cur <-> left_after h v l k x.
Proof.
  induction k as [|k (cur & IH)]; [exists l; reflexivity|].
  exists (filter (fun x => existsb (fun p => Db h v p x) cur) cur). intros x. rewrite filter_In, existsb_exists. simpl. rewrite IH. split.
  - intros [H (p & Hp & B)]. split; [exact H|]. exists p. split; [apply IH; exact Hp|apply Db_beats; exact B].
  - intros [H (p & Hp & B)]. split; [exact H|]. exists p. split; [apply IH; exact Hp|apply Db_beats; exact B].
Qed.

Lemma placed h v l k x : In x l -> (exists j, j < k /\ front h v l j x) \/ left_after h v l k x.
Proof.
  intros Hx. induction k as [|k [(j & Hj & H)|H]]; [right; exact Hx|left; exists j; split; [lia|exact H]|].
  destruct (left_list h v l k) as (cur & Hc). destruct (front_dec h v l k cur Hc x) as [G|G]; [apply Hc; exact H|left; exists k; split; [lia|exact G]|right; exact G].
Qed.

(** A set that is left and not empty has a front. *)
Lemma front_exists h v l k x : left_after h v l k x -> exists y, front h v l k y.
Proof.
  intros Hx. destruct (left_list h v l k) as (cur & Hc).
  assert (G : exists y, undominated (Db h v) cur y).
  { apply (undominated_exists (fun a b => Ok (Db h v a b)) (fun _ => Ok []) cur (Db h v)); [reflexivity| | |intros z; auto|].
    - intros a b _ _ H. apply Db_beats_f. apply Db_beats in H. apply pareto_asym. exact H.
    - intros a b c _ _ _. apply (Db_trans [a; b; c] h v a b c); simpl; auto.
    - apply Hc in Hx. intros ->. destruct Hx. }
  destruct G as (y & Hy & Hu). exists y. split; [apply Hc; exact Hy|]. intros p Hp. apply Db_beats_f. apply Hu. apply Hc. exact Hp.
Qed.

Lemma every_front h v l x : In x l -> exists k, front h v l k x.
Proof.
  (* the fronts before [k] hold at least [k] individuals as long as something is left *)
  intros Hx.
  assert (C : forall k, left_after h v l k x -> exists f, NoDup f /\ length f = k /\ incl f l /\ forall y, In y f -> exists j, j < k /\ front h v l j y).
  { induction k as [|k IH]; intros H; [exists []; repeat split; [constructor|intros z []|intros y []]|].
    destruct IH as (f & Nf & Lf & If & Hf); [apply left_mono; exact H|]. destruct (front_exists h v l k x) as (y & Hy); [apply left_mono; exact H|].
    exists (y :: f). split; [|split; [|split]].
    - constructor; [|exact Nf]. intros Hi. destruct (Hf y Hi) as (j & Hj & G). pose proof (front_unique _ _ _ _ _ _ G Hy). lia.
    - simpl. lia.
    - intros z [<-|Hz]; [eapply left_in; apply Hy|auto].
    - intros z [<-|Hz]; [exists k; auto|]. destruct (Hf z Hz) as (j & Hj & G). exists j. split; [lia|exact G]. }
  destruct (placed h v l (S (length l)) x Hx) as [(j & _ & H)|H]; [eauto|].
  destruct (C _ H) as (f & Nf & Lf & If & _). pose proof (NoDup_incl_length Nf If). lia.
Qed.

(** ** The sorting on the heap *)

Lemma write_moo_length s inds h : length (write_moo s inds h) = length h.
Proof. unfold write_moo. rewrite map_length, combine_length, seq_length. lia. Qed.

Lemma nth_combine_seq {A} (l : list A) : forall k o, nth_error (combine (seq k (length l)) l) o = match nth_error l o with Some x => Some (k + o, x) | None => None end.
Proof.
  induction l as [|a l IH]; intros k o; [destruct o; reflexivity|]. destruct o as [|o]; simpl; [rewrite Nat.add_0_r; reflexivity|].
  rewrite IH. destruct (nth_error l o); [|reflexivity]. do 2 f_equal. lia.
Qed.

Lemma write_moo_at s inds h o i : nth_error h o = Some i ->
  nth_error (write_moo s inds h) o = Some (if existsb (Nat.eqb o) inds then set_fit (with_moo (i_fit i) (s_crowd s o) (s_rank s o)) i else i).
Proof. intros H. unfold write_moo. rewrite nth_error_map, nth_combine_seq, H. reflexivity. Qed.

Lemma set_fit_same i : set_fit (with_moo (i_fit i) (ft_crowding (i_fit i)) (ft_rank (i_fit i))) i = i.
Proof. destruct i as [a b f c d e g k m]. destruct f. reflexivity. Qed.

Lemma heap_obj_ok w h v l x : measured w h v l -> In x l -> heap_obj (w_heap w) x = Ok (values h v x).
Proof.
  intros Hm Hx. destruct (Hm x Hx) as (i & Hi & [C E H V L N]). unfold heap_obj. unfold at_ in Hi. rewrite Hi.
  unfold get_pure_fitness, is_fitness_evaluated. rewrite ?C, E, ?V. destruct (ft_relative (i_fit i)); reflexivity.
Qed.

Lemma heap_dom_ok w h v l a b : measured w h v l -> In a l -> In b l -> heap_dom (w_heap w) a b = Ok (Db h v a b).
Proof.
  intros Hm Ha Hb. destruct (Hm a Ha) as (i & Hi & Oi). destruct (Hm b Hb) as (j & Hj & Oj). unfold heap_dom. unfold at_ in *. rewrite Hi, Hj.
  rewrite (ob_class _ _ _ Oi). apply dominate_value; assumption.
Qed.

(** What survivor selection does, in one piece. *)
Record survivors (w : world) (h : list bool) (v : nat -> oid -> Q) (l : list oid) (size : nat) (d : list oid) (w' : world) : Prop := {
  sv_length : length d = size;
  sv_nodup : NoDup d;
  sv_only : only_ranked l w w';
  sv_fronts : exists m,
    (forall k x, k < m -> front h v l k x -> rank_of w' x (rank_number (S k))) /\
    (forall x, left_after h v l m x -> at_ w' x = at_ w x) /\
    (forall k, k < m -> exists F c, NoDup F /\ F <> [] /\ (forall x, In x F <-> front h v l k x) /\ crowded (length h) v F c /\
       forall x, In x F -> crowding_of w' x (c x)) /\
    (forall k x, S k < m -> front h v l k x -> In x d) /\
    (forall x, In x d -> exists k, k < m /\ front h v l k x) /\
    (forall k x y, front h v l k x -> front h v l k y -> In x d -> ~ In y d ->
       exists cx cy, crowding_of w' x cx /\ crowding_of w' y cy /\ nlt cx cy = false) /\
    (forall k, S k = m -> exists x, front h v l k x /\ In x d)
}.

Lemma nsga2_select_ok setorder w h v l n : let size := if n =? 0 then length l / 2 else n in
  measured w h v l -> NoDup l -> any_order setorder -> size <= length l ->
  exists d w', nsga2_select setorder l n w = (Ok d, w') /\ survivors w h v l size d w'.
Proof.
  intros size Hm Hn Ha Hs. unfold nsga2_select.
  set (s0 := mkSst (fun _ => []) (fun _ => 0%Z) (heap_field ft_crowding (w_heap w)) (heap_field ft_rank (w_heap w))).
  destruct (sort_ok (heap_dom (w_heap w)) (heap_obj (w_heap w)) setorder l h v (fun a b => heap_dom_ok w h v l a b Hm) (fun x => heap_obj_ok w h v l x Hm) Ha Hn s0 n Hs)
    as (d & s & E & [L N (m & Hr & H1 & H2 & H3 & H4)]). fold size in L. rewrite E.
  exists d. eexists. split; [reflexivity|].
  assert (Hin : forall x, In x l -> exists i, nth_error (w_heap w) x = Some i) by (intros x Hx; destruct (Hm x Hx) as (i & Hi & _); eauto).
  assert (Hat : forall x i, nth_error (w_heap w) x = Some i -> In x l ->
            nth_error (write_moo s l (w_heap w)) x = Some (set_fit (with_moo (i_fit i) (s_crowd s x) (s_rank s x)) i)).
  { intros x i Hi Hx. rewrite (write_moo_at _ _ _ _ _ Hi). apply existsb_In in Hx. rewrite Hx. reflexivity. }
  assert (Hrk : forall x, In x l -> rank_of (mkWorld (write_moo s l (w_heap w)) (w_next_id w) (w_rng w)) x (s_rank s x)).
  { intros x Hx. destruct (Hin x Hx) as (i & Hi). eexists. split; [apply Hat; eauto|reflexivity]. }
  assert (Hcr : forall x, In x l -> crowding_of (mkWorld (write_moo s l (w_heap w)) (w_next_id w) (w_rng w)) x (s_crowd s x)).
  { intros x Hx. destruct (Hin x Hx) as (i & Hi). eexists. split; [apply Hat; eauto|reflexivity]. }
  constructor; [exact L|exact N| |].
  - split; [reflexivity|]. split; [reflexivity|]. split; [apply write_moo_length|]. intros o i Hi. unfold at_ in *. simpl.
    rewrite (write_moo_at _ _ _ _ _ Hi). destruct (existsb (Nat.eqb o) l) eqn:Eo.
    + exists (s_crowd s o), (s_rank s o). split; [reflexivity|]. apply existsb_In in Eo. contradiction.
    + exists (ft_crowding (i_fit i)), (ft_rank (i_fit i)). rewrite set_fit_same. auto.
  - exists m. destruct Hr as [R1 R2 R3 R4]. split; [|split; [|split; [|split; [exact H1|split; [exact H2|split; [|exact H4]]]]]].
    + intros k x Hk Hx. rewrite <- (R1 k x Hk Hx). apply Hrk. eapply left_in. apply Hx.
    + intros x Hx. destruct (R3 x Hx) as [E1 E2]. destruct (Hin x) as (i & Hi); [eapply left_in; eauto|].
      unfold at_. simpl. rewrite (Hat x i Hi) by (eapply left_in; eauto). rewrite E1, E2. unfold s0, heap_field. simpl. rewrite Hi, set_fit_same. reflexivity.
    + intros k Hk. destruct (R2 k Hk) as (F & NF & NeF & HF & CF). exists F, (s_crowd s). split; [exact NF|]. split; [exact NeF|]. split; [exact HF|].
      split; [exact CF|]. intros x Hx. apply Hcr. apply HF in Hx. eapply left_in. apply Hx.
    + intros k x y Hx Hy Dx Dy. exists (s_crowd s x), (s_crowd s y). split; [apply Hcr; eapply left_in; apply Hx|]. split; [apply Hcr; eapply left_in; apply Hy|].
      eapply H3; eauto.
Qed.

Lemma nsga2_select_too_many setorder w h v l n : measured w h v l -> NoDup l -> any_order setorder -> length l < n ->
  fst (nsga2_select setorder l n w) = Raise IndexError.
Proof.
  intros Hm Hn Ha Hs. unfold nsga2_select.
  set (s0 := mkSst (fun _ => []) (fun _ => 0%Z) (heap_field ft_crowding (w_heap w)) (heap_field ft_rank (w_heap w))).
  destruct (sort_too_many (heap_dom (w_heap w)) (heap_obj (w_heap w)) setorder l h v (fun a b => heap_dom_ok w h v l a b Hm) (fun x => heap_obj_ok w h v l x Hm) Ha Hn s0 n Hs)
    as (s & E). rewrite E. reflexivity.
Qed.

(** ** C48-C50 *)

Section Final.
  Variable setorder : nat -> list nat -> list nat.
  Variables (w : world) (h : list bool) (v : nat -> oid -> Q) (l : list oid) (n : nat).
  Hypothesis Hm : measured w h v l.
  Hypothesis Hn : NoDup l.
  Hypothesis Ha : any_order setorder.
  Hypothesis Hs : (if n =? 0 then length l / 2 else n) <= length l.

  Lemma fronts_ranked : exists d w' m, nsga2_select setorder l n w = (Ok d, w') /\ only_ranked l w w' /\
    (forall k x, k < m -> front h v l k x -> rank_of w' x (rank_number (S k))) /\
    (forall x, left_after h v l m x -> at_ w' x = at_ w x) /\
    (forall k, k < m -> exists x, front h v l k x) /\
    (forall x, In x d -> exists k, k < m /\ front h v l k x) /\
    (forall k, S k = m -> exists x, front h v l k x /\ In x d).
  Proof.
    destruct (nsga2_select_ok setorder w h v l n Hm Hn Ha Hs) as (d & w' & E & [L N O (m & H1 & H2 & H3 & H4 & H5 & H6 & H7)]).
    exists d, w', m. split; [exact E|]. split; [exact O|]. split; [exact H1|]. split; [exact H2|]. split; [|split; [exact H5|exact H7]].
    intros k Hk. destruct (H3 k Hk) as (F & c & _ & NeF & HF & _). destruct F as [|x F]; [congruence|]. exists x. apply HF. simpl. auto.
  Qed.

  Lemma survivors_right : exists d w', nsga2_select setorder l n w = (Ok d, w') /\
    length d = (if n =? 0 then length l / 2 else n) /\ NoDup d /\ incl d l /\
    (forall x y, In x l -> ~ In x d -> In y d -> ~ beats h v x y) /\
    (forall j k x y, front h v l j x -> front h v l k y -> In x d -> In y l -> ~ In y d -> j <= k) /\
    (forall k x y, front h v l k x -> front h v l k y -> In x d -> ~ In y d ->
       exists cx cy, crowding_of w' x cx /\ crowding_of w' y cy /\ nlt cx cy = false).
  Proof.
    destruct (nsga2_select_ok setorder w h v l n Hm Hn Ha Hs) as (d & w' & E & [L N O (m & H1 & H2 & H3 & H4 & H5 & H6 & H7)]).
    exists d, w'. split; [exact E|]. split; [exact L|]. split; [exact N|]. split; [|split; [|split; [|exact H6]]].
    - intros x Hx. destruct (H5 x Hx) as (k & _ & [G _]). eapply left_in; eauto.
    - intros x y Hx Dx Dy B. destruct (H5 y Dy) as (k & Hk & Hy). destruct (placed h v l k x Hx) as [(j & Hj & G)|G].
      + apply Dx. apply (H4 j); [lia|exact G].
      + destruct Hy as [_ Hy]. exact (Hy x G B).
    - intros j k x y Hx Hy Dx _ Dy. destruct (H5 x Dx) as (i & Hi & Hx'). rewrite (front_unique _ _ _ _ _ _ Hx Hx').
      destruct (le_lt_dec i k); [assumption|]. exfalso. apply Dy. apply (H4 k); [lia|exact Hy].
  Qed.

  Lemma crowding_right : exists d w', nsga2_select setorder l n w = (Ok d, w') /\
    forall j y, In y d -> front h v l j y -> exists F c, NoDup F /\ (forall x, In x F <-> front h v l j x) /\
      (forall x, In x F -> crowding_of w' x (c x)) /\ crowded (length h) v F c /\
      (forall x, In x F -> c x = PInf \/ exists s, c x = Fin s /\ (0 <= s <= inject_Z (Z.of_nat (length h)))%Q) /\
      (forall k, k < length h ->
        (exists x, In x F /\ c x = PInf /\ forall z, In z F -> (v k x <= v k z)%Q) /\
        (exists x, In x F /\ c x = PInf /\ forall z, In z F -> (v k z <= v k x)%Q)).
  Proof.
    destruct (nsga2_select_ok setorder w h v l n Hm Hn Ha Hs) as (d & w' & E & [L N O (m & H1 & H2 & H3 & H4 & H5 & H6 & H7)]).
    exists d, w'. split; [exact E|]. intros j y Dy Hy. destruct (H5 y Dy) as (i & Hi & Hy'). pose proof (front_unique _ _ _ _ _ _ Hy Hy'). subst i.
    destruct (H3 j Hi) as (F & c & NF & NeF & HF & CF & Hc). exists F, c. split; [exact NF|]. split; [exact HF|]. split; [exact Hc|]. split; [exact CF|]. split.
    - intros x Hx. eapply crowded_bounds; eauto.
    - intros k Hk. eapply crowded_extremes; eauto.
  Qed.

  (** ** C51 *)

  (** An individual that beats another one has the smaller rank. *)
  Lemma beats_rank j k x y : beats h v x y -> front h v l j x -> front h v l k y -> j < k.
  Proof.
    intros B Hx Hy. destruct (le_lt_dec k j) as [G|G]; [|exact G]. exfalso. destruct Hy as [_ Hy]. apply (Hy x); [|exact B].
    destruct Hx as [Hx _]. eapply left_le; eauto.
  Qed.
End Final.

Lemma comparable_ok f nf g ng h a b : objectives f h a -> objectives g h b -> nsga2_check_comparable f g ng nf = Ok tt.
Proof.
  intros [C E H V L N] [C' E' H' V' L' N']. unfold nsga2_check_comparable. rewrite C'. unfold is_fitness_evaluated. rewrite E, E'.
  replace (negb (if ft_relative f then true else true) || negb (if ft_relative g then true else true)) with false
    by (destruct (ft_relative f), (ft_relative g); reflexivity).
  unfold get_augmented_fitness, get_pure_fitness, is_fitness_evaluated. rewrite C, C', E, E', V, V'.
  simpl. rewrite ?L, ?L', ?Nat.eqb_refl. simpl. reflexivity.
Qed.

Lemma better_ranked f nf g ng h a b r : objectives f h a -> objectives g h b -> neq_num (ft_rank f) PInf = false ->
  nsga2_better_than f nf g ng r = (Ok (if neq_num (ft_rank f) (ft_rank g) then nlt (ft_crowding g) (ft_crowding f) else nlt (ft_rank g) (ft_rank f)), r).
Proof.
  intros Hf Hg Hr. unfold nsga2_better_than. rewrite Hr.
  rewrite (bind_eq_ok _ _ _ tt r) by (unfold lift; rewrite (comparable_ok f nf g ng h a b Hf Hg); reflexivity).
  destruct (neq_num (ft_rank f) (ft_rank g)); reflexivity.
Qed.

Lemma dominate_errors f nf g ng : ft_class f = KNSGA2 ->
  (is_simple_class (ft_class g) = true -> dominate f nf g ng = Raise TypeError) /\
  (ft_class g = KNSGA2 -> ft_evaluated f = false \/ ft_evaluated g = false -> dominate f nf g ng = Raise ValueError) /\
  (forall h k a b, objectives f h a -> objectives g k b -> length a <> length b -> dominate f nf g ng = Raise ValueError) /\
  (ft_class g = KNSGA2 -> ft_evaluated f = true -> ft_evaluated g = true ->
     (forall l, ft_value f <> VList l) \/ (forall l, ft_value g <> VList l) -> dominate f nf g ng = Raise TypeError).
Proof.
  intros C. unfold dominate, nsga2_check_comparable, is_fitness_evaluated, get_augmented_fitness, get_pure_fitness. rewrite C. repeat split.
  - intros ->. reflexivity.
  - intros -> [E|E]; rewrite E; destruct (ft_relative f), (ft_relative g), (ft_evaluated g), (ft_evaluated f); try discriminate; reflexivity.
  - intros h k a b [_ E _ V _ _] [C' E' _ V' _ _] L. rewrite C', E, E', V, V'.
    assert (D : length b =? length a = false) by (apply Nat.eqb_neq; congruence).
    destruct (ft_relative f), (ft_relative g); cbn; rewrite D; reflexivity.
  - intros -> E E' V. rewrite E, E'.
    destruct (ft_relative f), (ft_relative g), (ft_value f) as [| |l|], (ft_value g) as [| |l'|]; try reflexivity; exfalso; destruct V as [V|V]; eapply V; reflexivity.
Qed.

Lemma better_errors f nf g ng r : ft_class f = KNSGA2 -> neq_num (ft_rank f) PInf = false ->
  (is_simple_class (ft_class g) = true -> better_than f nf g ng r = (Raise TypeError, r)) /\
  (ft_class g = KNSGA2 -> ft_evaluated f = false \/ ft_evaluated g = false -> better_than f nf g ng r = (Raise ValueError, r)) /\
  (forall h k a b, objectives f h a -> objectives g k b -> length a <> length b -> better_than f nf g ng r = (Raise ValueError, r)).
Proof.
  intros C R. destruct (dominate_errors f nf g ng C) as (A & B & D & _).
  assert (X : forall e, dominate f nf g ng = Raise e -> nsga2_check_comparable f g ng nf = Raise e \/ nsga2_check_comparable f g ng nf = Ok tt).
  { intros e He. unfold dominate in He. destruct (nsga2_check_comparable f g ng nf) as [[]|e']; [auto|]. cbn in He. left. congruence. }
  unfold better_than, nsga2_better_than. rewrite C, R.
  unfold nsga2_check_comparable, is_fitness_evaluated, get_augmented_fitness, get_pure_fitness. rewrite C. repeat split.
  - intros ->. reflexivity.
  - intros -> [E|E]; rewrite E; destruct (ft_relative f), (ft_relative g), (ft_evaluated g), (ft_evaluated f); try discriminate; reflexivity.
  - intros h k a b [_ E _ V _ _] [C' E' _ V' _ _] L. rewrite C', E, E', V, V'.
    assert (Q : length b =? length a = false) by (apply Nat.eqb_neq; congruence).
    destruct (ft_relative f), (ft_relative g); cbn; rewrite Q; reflexivity.
Qed.

Lemma equal_ranked f nf g ng h a b r : objectives f h a -> objectives g h b ->
  neq_num (ft_rank f) PInf = false -> neq_num (ft_rank g) PInf = false ->
  is_nan (ft_rank f) = false -> is_nan (ft_rank g) = false -> is_nan (ft_crowding f) = false -> is_nan (ft_crowding g) = false ->
  nsga2_equal_to f g = true <->
  (nsga2_better_than f nf g ng r = (Ok false, r) /\ nsga2_better_than g ng f nf r = (Ok false, r)).
Proof.
  intros Hf Hg Rf Rg N1 N2 N3 N4. rewrite (better_ranked f nf g ng h a b r Hf Hg Rf), (better_ranked g ng f nf h b a r Hg Hf Rg).
  unfold nsga2_equal_to. rewrite (neq_num_sym (ft_rank g)).
  destruct (neq_num (ft_rank f) (ft_rank g)) eqn:E; cbn [andb].
  - split.
    + intros H. assert (H' := H). rewrite neq_num_sym in H'. rewrite (neq_nlt _ _ H), (neq_nlt _ _ H'). auto.
    + intros [A B]. injection A as A. injection B as B. destruct (nlt_total _ _ N3 N4) as [H|[H|H]]; congruence.
  - split; [discriminate|]. intros [A B]. injection A as A. injection B as B. destruct (nlt_total _ _ N1 N2) as [H|[H|H]]; congruence.
Qed.

Lemma equal_unranked f g : ft_rank f = PInf -> ft_rank g = PInf -> ft_crowding f = Fin 0 -> ft_crowding g = Fin 0 -> nsga2_equal_to f g = true.
Proof. intros A B C D. unfold nsga2_equal_to. rewrite A, B, C, D. reflexivity. Qed.

Section Again.
  Variable setorder : nat -> list nat -> list nat.
  Variables (w : world) (h : list bool) (v : nat -> oid -> Q) (l : list oid) (n : nat).
  Hypothesis Hm : measured w h v l.
  Hypothesis Hn : NoDup l.
  Hypothesis Ha : any_order setorder.
  Hypothesis Hs : (if n =? 0 then length l / 2 else n) <= length l.

  Lemma better_inverted : exists d w', nsga2_select setorder l n w = (Ok d, w') /\
    forall x y, In x d -> In y d -> beats h v x y -> exists i j, at_ w' x = Some i /\ at_ w' y = Some j /\
      forall r, better_than (i_fit j) (isize j) (i_fit i) (isize i) r = (Ok true, r) /\
                better_than (i_fit i) (isize i) (i_fit j) (isize j) r = (Ok false, r).
  Proof.
    destruct (nsga2_select_ok setorder w h v l n Hm Hn Ha Hs) as (d & w' & E & [L N O (m & H1 & H2 & H3 & H4 & H5 & H6 & H7)]).
    exists d, w'. split; [exact E|]. intros x y Dx Dy B. destruct (H5 x Dx) as (j & Hj & Hx). destruct (H5 y Dy) as (k & Hk & Hy).
    pose proof (beats_rank h v l j k x y B Hx Hy) as Hjk.
    destruct (H1 j x Hj Hx) as (a & Ia & Ra). destruct (H1 k y Hk Hy) as (b & Ib & Rb). exists a, b. split; [exact Ia|]. split; [exact Ib|].
    destruct (Hm x) as (a0 & Ia0 & Oa); [eapply left_in; apply Hx|]. destruct (Hm y) as (b0 & Ib0 & Ob); [eapply left_in; apply Hy|].
    destruct O as (_ & _ & _ & O). destruct (O x a0 Ia0) as (ca & ra & Ea & _). destruct (O y b0 Ib0) as (cb & rb & Eb & _).
    assert (a = set_fit (with_moo (i_fit a0) ca ra) a0) by congruence. assert (b = set_fit (with_moo (i_fit b0) cb rb) b0) by congruence.
    assert (Oa' : objectives (i_fit a) h (values h v x)) by (subst a; destruct Oa; constructor; assumption).
    assert (Ob' : objectives (i_fit b) h (values h v y)) by (subst b; destruct Ob; constructor; assumption).
    assert (Hlt : nlt (rank_number (S j)) (rank_number (S k)) = true).
    { unfold rank_number. simpl. apply Qlt_b_spec. rewrite <- Zlt_Qlt. lia. }
    assert (Hne : neq_num (rank_number (S j)) (rank_number (S k)) = false).
    { unfold rank_number. simpl. apply not_true_iff_false. intros G. apply Qeq_bool_iff in G. unfold inject_Z in G. unfold Qeq in G. simpl in G. lia. }
    assert (Hne' : neq_num (rank_number (S k)) (rank_number (S j)) = false).
    { unfold rank_number. simpl. apply not_true_iff_false. intros G. apply Qeq_bool_iff in G. unfold inject_Z in G. unfold Qeq in G. simpl in G. lia. }
    intros r. unfold better_than. rewrite (ob_class _ _ _ Oa'), (ob_class _ _ _ Ob'). split.
    - rewrite (better_ranked _ _ _ _ h _ _ r Ob' Oa'); rewrite ?Ra, ?Rb; [|reflexivity]. rewrite Hne', Hlt. reflexivity.
    - rewrite (better_ranked _ _ _ _ h _ _ r Oa' Ob'); rewrite ?Ra, ?Rb; [|reflexivity]. rewrite Hne.
      rewrite (nlt_asym _ _ Hlt). reflexivity.
  Qed.
End Again.

(** Before the first sorting the answer is a coin flip. *)
Lemma better_unranked f nf g ng r : ft_class f = KNSGA2 -> ft_rank f = PInf ->
  better_than f nf g ng r = random_bool r.
Proof. intros C H. unfold better_than, nsga2_better_than. rewrite C, H. reflexivity. Qed.

(** ** C52 *)

Lemma mapM_all {S A B} (f : A -> SE S B) (P : A -> B -> Prop) : (forall a s b s', f a s = (Ok b, s') -> P a b) ->
  forall l s bs s', mapM f l s = (Ok bs, s') -> Forall2 P l bs.
Proof.
  intros H. induction l as [|a l IH]; intros s bs s' E; simpl in E; [mr E; constructor|].
  mb E as b s1 E1. mb E as bs1 s2 E2. mr E. constructor; eauto.
Qed.

Lemma clones_plain l : forall w, present l w -> forall cs w', mapM clone l w = (Ok cs, w') ->
  cs = seq (length (w_heap w)) (length l) /\ exists js, w_heap w' = w_heap w ++ js /\
    Forall2 (fun o j => exists i, at_ w o = Some i /\ i_genome j = i_genome i /\ i_cloned_from j = i_id i) l js.
Proof.
  induction l as [|o l IH]; intros w Hp cs w' E; simpl in E.
  { mr E. split; [reflexivity|]. exists []. rewrite app_nil_r. split; [reflexivity|constructor]. }
  mb E as c w1 E1. mb E as cs1 w2 E2. unfold ret in E. injection E as <- <-.
  destruct (Hp o) as (i & Hi); [simpl; auto|]. destruct (clone_copy o w i Hi) as (j & w3 & E3 & Hh & _ & Hg & _ & _ & Hc & _).
  rewrite E3 in E1. injection E1 as <- <-. destruct (IH w3) with (cs := cs1) (w' := w2) as (-> & js & Hh2 & F); [|exact E2|].
  - intros x Hx. destruct (Hp x) as (k & Hk); [simpl; auto|]. exists k. unfold at_ in *. rewrite Hh, nth_error_app1; [exact Hk|]. apply nth_error_Some. congruence.
  - split; [rewrite Hh, app_length; simpl; rewrite Nat.add_1_r; reflexivity|]. exists (j :: js). split; [rewrite Hh2, Hh, <- app_assoc; reflexivity|].
    constructor; [exists i; auto|]. clear - F Hh Hp. assert (Hp' : present l w) by (intros x Hx; apply Hp; simpl; auto). clear Hp.
    induction F as [|x y l js (k & Hk & Hr) F IH]; constructor; [|apply IH; intros z Hz; apply Hp'; simpl; auto].
    destruct (Hp' x) as (k' & Hk'); [simpl; auto|]. exists k'. split; [exact Hk'|].
    unfold at_ in *. rewrite Hh, nth_error_app1 in Hk by (apply nth_error_Some; congruence). replace k' with k by congruence. exact Hr.
Qed.

Lemma reset_all l : forall w u w', iterM set_fitness_not_evaluated l w = (Ok u, w') ->
  length (w_heap w') = length (w_heap w) /\ (forall o i, at_ w o = Some i -> exists j, at_ w' o = Some j /\ i_genome j = i_genome i /\ i_cloned_from j = i_cloned_from i /\
    (ft_evaluated (i_fit i) = false -> ft_evaluated (i_fit j) = false) /\ (In o l -> ft_evaluated (i_fit j) = false)).
Proof.
  induction l as [|o l IH]; intros w u w' E; simpl in E.
  { mr E. split; [reflexivity|]. intros o i Hi. exists i. split; [exact Hi|]. split; [reflexivity|]. split; [reflexivity|]. split; [auto|intros []]. }
  mb E as x w1 E1. apply modify_ok in E1. destruct E1 as (i & Hi & ->). destruct (IH _ _ _ E) as [Hl H].
  split; [rewrite Hl; apply put_at_len|]. intros p k Hk. destruct (Nat.eq_dec o p) as [->|Hne].
  - assert (k = i) by congruence. subst k. destruct (H p (set_fit (set_not_evaluated (i_fit i)) i)) as (j & Hj & G & C & V & _); [eapply at_put_same; eauto|].
    exists j. split; [exact Hj|]. split; [rewrite G; destruct i; reflexivity|]. split; [rewrite C; destruct i; reflexivity|].
    assert (Z : ft_evaluated (i_fit j) = false) by (apply V; unfold set_not_evaluated; destruct i as [? ? [] ? ? ? ? ? ?]; simpl; match goal with |- context [match ?c with _ => _ end] => destruct c end; reflexivity).
    split; intros _; exact Z.
  - destruct (H p k) as (j & Hj & G & C & V & I); [rewrite at_put_other; assumption|]. exists j. split; [exact Hj|]. split; [exact G|]. split; [exact C|].
    split; [exact V|]. intros [Hp|Hp]; [congruence|auto].
Qed.

Lemma tournament_none size replace a src dest w r w' : length src <= length dest ->
  tournament_select size replace a src dest w = (Ok r, w') -> r = dest /\ w' = w.
Proof.
  intros Hl H. unfold tournament_select in H. destruct (negb replace && (length src <? size)); [discriminate|].
  destruct (Nat.eqb_spec a 0); [discriminate|]. replace (length src - length dest) with 0 in H by lia. rewrite Nat.div_0_l in H by assumption.
  simpl in H. mr H. rewrite app_nil_r. auto.
Qed.

Lemma doubling_breed s w s' w' size replace a sels : present (inds_of s) w -> sp_sels s = SelTournament size replace a :: sels ->
  nsga2_breed_subpop s w = (Ok s', w') ->
  exists cs, s' = with_inds s (cs ++ inds_of s) /\ length cs = length (inds_of s) /\ NoDup cs /\
    (forall c, In c cs -> length (w_heap w) <= c) /\
    Forall2 (fun o c => exists i j, at_ w o = Some i /\ at_ w' c = Some j /\ i_genome j = i_genome i /\ i_cloned_from j = i_id i) (inds_of s) cs /\
    (forall o, In o (cs ++ inds_of s) -> unevaluated w' o).
Proof.
  intros Hp Es H. unfold nsga2_breed_subpop in H. rewrite Es in H. mb H as u w1 E0. mb H as old w2 E1. mb H as new w3 E2. mb H as u2 w4 E3. mb H as r w5 E4.
  unfold ret in H. injection H as <- <-.
  assert (X1 : ext w w1).
  { destruct (0 <? sp_n_elite s); [|mr E0; reflexivity]. mb E0 as rev wa Ea. unfold lift in Ea. injection Ea as _ <-.
    mb E0 as el wb Eb. unfold ret in E0. injection E0 as _ <-. apply elitism_ok in Eb; [|exact Hp]. destruct Eb as (ch & cs & _ & C & _). eapply copies_ext; eauto. }
  assert (Hp1 : present (inds_of s) w1) by (intros o Ho; destruct (Hp o Ho) as (i & Hi); exists i; eapply ext_at; eauto).
  destruct (clones_plain _ _ Hp1 _ _ E1) as (Ec & js & Hh & F).
  pose proof (operators_same _ _ _ _ _ E2) as ->.
  assert (L1 : length (w_heap w) <= length (w_heap w1)) by (destruct X1 as (k & ->); rewrite app_length; lia).
  assert (Hfr : frame (fun o => In o (inds_of s)) w2 w3).
  { pose proof (fr_operators (fun o => In o (inds_of s)) (sp_ops s) (inds_of s)) as G.
    assert (G' : steps (frame (fun o => In o (inds_of s))) (apply_operators (sp_ops s) (inds_of s))) by (apply G, Forall_forall; auto).
    specialize (G' w2). rewrite E2 in G'. exact G'. }
  destruct (reset_all _ _ _ _ E3) as [L4 R].
  apply tournament_none in E4; [|rewrite app_length; lia]. destruct E4 as [-> ->].
  assert (Hlen : length old = length (inds_of s)) by (rewrite Ec, seq_length; reflexivity).
  assert (Hcl : Forall2 (fun o c => exists i j, at_ w o = Some i /\ at_ w4 c = Some j /\ i_genome j = i_genome i /\ i_cloned_from j = i_id i) (inds_of s) old).
  { assert (G : forall l js k, Forall2 (fun o j => exists i, at_ w1 o = Some i /\ i_genome j = i_genome i /\ i_cloned_from j = i_id i) l js ->
               incl l (inds_of s) -> (forall n j, nth_error js n = Some j -> at_ w2 (k + n) = Some j) -> length (w_heap w1) <= k ->
               Forall2 (fun o c => exists i j, at_ w o = Some i /\ at_ w4 c = Some j /\ i_genome j = i_genome i /\ i_cloned_from j = i_id i) l (seq k (length l))).
    { clear - X1 Hfr R Hp L1. intros l js k F. revert k. induction F as [|o j l js (i & Hi & Hg & Hc) F IH]; intros k Hi' Hn Hk; simpl; constructor.
      - destruct (Hp o) as (i0 & Hi0); [apply Hi'; simpl; auto|]. pose proof (ext_at _ _ _ _ X1 Hi0) as Hi1. assert (i0 = i) by congruence. subst i0.
        exists i. specialize (Hn 0 j eq_refl). rewrite Nat.add_0_r in Hn.
        assert (Hk3 : at_ w3 k = Some j).
        { destruct Hfr as [_ Hf]. rewrite Hf; [exact Hn|apply nth_error_Some; unfold at_ in Hn; congruence|].
          intros Hin. destruct (Hp k Hin) as (z & Hz). unfold at_ in Hz. assert (k < length (w_heap w)) by (apply nth_error_Some; congruence). lia. }
        destruct (R k j Hk3) as (j' & Hj' & Gg & Gc & _). exists j'. split; [exact Hi0|]. split; [exact Hj'|]. split; congruence.
      - apply IH; [intros z Hz; apply Hi'; simpl; auto| |lia]. intros n z Hz. replace (S k + n) with (k + S n) by lia. apply Hn. exact Hz. }
    rewrite Ec. apply (G _ js); [exact F|intros z; auto| |lia]. intros n j Hj. unfold at_. rewrite Hh, nth_error_app2 by lia.
    replace (length (w_heap w1) + n - length (w_heap w1)) with n by lia. exact Hj. }
  exists old. split; [reflexivity|]. split; [exact Hlen|]. split; [rewrite Ec; apply seq_NoDup|]. split; [intros c Hc; rewrite Ec in Hc; apply in_seq in Hc; lia|].
  split; [exact Hcl|]. intros o Ho.
  assert (exists i, at_ w3 o = Some i) as (i & Hi).
  { unfold at_. destruct (nth_error (w_heap w3) o) eqn:En; [eauto|]. exfalso. apply nth_error_None in En.
    apply in_app_or in Ho. destruct Ho as [Ho|Ho].
    - assert (Hx : exists q, In q (inds_of s) /\ exists i j, at_ w q = Some i /\ at_ w4 o = Some j /\ i_genome j = i_genome i /\ i_cloned_from j = i_id i).
      { clear - Hcl Ho. induction Hcl as [|q c l cs G F IH]; [destruct Ho|]. destruct Ho as [<-|Ho]; [exists q; simpl; auto|]. destruct (IH Ho) as (q' & Hq & Z). exists q'. simpl. auto. }
      destruct Hx as (q & _ & i & j & _ & Hj & _). unfold at_ in Hj. assert (o < length (w_heap w4)) by (apply nth_error_Some; congruence). lia.
    - destruct (Hp o Ho) as (i & Hi). unfold at_ in Hi. assert (o < length (w_heap w)) by (apply nth_error_Some; congruence).
      destruct Hfr as [Hf _]. rewrite Hh, app_length in Hf. lia. }
  destruct (R o i Hi) as (j & Hj & _ & _ & _ & V). exists j. auto.
Qed.

Lemma doubling_fp s w hi a sels : sp_sels s = SelFP hi a :: sels -> forall s', fst (nsga2_breed_subpop s w) <> Ok s'.
Proof.
  intros Es s' H. destruct (nsga2_breed_subpop s w) as [x w'] eqn:E. simpl in H. subst x.
  unfold nsga2_breed_subpop in E. rewrite Es in E. mb E as u w1 E0. mb E as old w2 E1. mb E as new w3 E2. mb E as u2 w4 E3. mb E as r w5 E4.
  pose proof (operators_same _ _ _ _ _ E2) as ->. apply mapM_length in E1.
  simpl in E4. unfold fp_select in E4. mb E4 as ks w6 E5. mb E4 as xs w7 E6.
  replace ((length (inds_of s) =? 0) || existsb (fun x => nlt x (Fin 0)) xs || existsb (fp_bad hi) xs || (length (inds_of s) <? length (old ++ inds_of s))) with true in E4; [discriminate|].
  symmetry. rewrite app_length, E1. destruct (length (inds_of s)) as [|k]; [reflexivity|]. rewrite !orb_true_iff. right. apply Nat.ltb_lt. lia.
Qed.

(** Sizes, for any population *)

Lemma select_loop_size obj setorder size : forall fuel rank cur dest s d s', length dest <= size ->
  select_loop obj setorder fuel rank size cur dest s = (Ok d, s') -> length d = size.
Proof.
  induction fuel as [|fuel IH]; intros rank cur dest s d s' Hl H; cbn [select_loop] in H;
    destruct (Nat.ltb_spec (length dest) size) as [Hlt|Hge].
  - discriminate.
  - mr H. lia.
  - mb H as f s1 E1. mb H as f1 s2 E2. mb H as u s3 E3. mb H as f2 s4 E4. mb H as cur' s5 E5. eapply IH; [|exact H].
    rewrite app_length. destruct (Nat.ltb_spec size (length f1 + length dest)) as [Hc|Hc].
    + unfold cut_front in E4. injection E4 as <- _. rewrite firstn_length. lia.
    + mr E4. lia.
  - mr H. lia.
Qed.

Lemma nsga2_select_size setorder l n w d w' : nsga2_select setorder l n w = (Ok d, w') -> length d = if n =? 0 then length l / 2 else n.
Proof.
  unfold nsga2_select. destruct (sort_select _ _ _ l n _) as [r s] eqn:E. intros H. injection H as -> _.
  unfold sort_select in E. mb E as u s1 E1. eapply select_loop_size; [|exact E]. simpl. lia.
Qed.

Lemma with_inds_of s l : inds_of (with_inds s l) = l. Proof. reflexivity. Qed.

Lemma sizes_all pop pop' (f : nat -> nat) : Forall2 (fun s s' => length (inds_of s') = f (length (inds_of s))) pop pop' -> sizes pop' = map f (sizes pop).
Proof. induction 1; simpl; congruence. Qed.

Lemma breed_len s w s' w' : breed_subpop s w = (Ok s', w') -> (exists sel sels, sp_sels s = sel :: sels /\ sel_arity sel = 1) -> length (inds_of s') = length (inds_of s).
Proof.
  intros H (sel & sels & Es & Ea). unfold breed_subpop in H. rewrite Es in H. mb H as u w1 E0. mb H as el w2 E1. mb H as sd w3 E2. mb H as nx w4 E3. mr H.
  apply operators_same in E3. subst nx. rewrite with_inds_of.
  assert (Le : length el <= length (inds_of s)).
  { destruct (0 <? sp_n_elite s); [|mr E1; simpl; lia]. mb E1 as rev wa Ea'. unfold elitism_select in E1. mb E1 as so wb Eb. mb E1 as cs wc Ec. mr E1.
    apply mapM_length in Ec. apply sorted_ok in Eb. destruct Eb as [_ P]. simpl. rewrite Ec, firstn_length, (Permutation_length P). lia. }
  destruct sel as [size rep a|hi a]; simpl in Ea; subst a; cbv beta iota delta [select] in E2.
  - unfold tournament_select in E2. destruct (negb rep && _); [discriminate|]. change (1 =? 0) with false in E2. cbv iota in E2. mb E2 as ts wa Ea. mb E2 as cs wb Eb. mr E2.
    apply mapM_length in Eb. apply (repeatM_ok (fun x => x)) in Ea. destruct Ea as (L & _). rewrite app_length, Eb, L, Nat.div_1_r. lia.
  - unfold fp_select in E2. mb E2 as ks wa Ea. mb E2 as xs wb Eb. destruct (_ || _) eqn:Eg; [discriminate|]. mb E2 as ps wc Ec. mb E2 as ch wd Ed. mb E2 as cs we Ee. mr E2.
    apply mapM_length in Ee. apply (repeatM_ok (fun x => x)) in Ec. destruct Ec as (L & _). unfold lift in Ed. injection Ed as Ed _. apply rmap_ok in Ed. apply Forall2_len in Ed.
    rewrite app_length, Ee, <- Ed, L. lia.
Qed.

Lemma doubling_len s w s' w' : nsga2_breed_subpop s w = (Ok s', w') -> length (inds_of s') = 2 * length (inds_of s).
Proof.
  intros H. destruct (sp_sels s) as [|[size rep a|hi a] sels] eqn:Es.
  - exfalso. unfold nsga2_breed_subpop in H. rewrite Es in H. mb H as u w1 E0. mb H as old w2 E1. mb H as new w3 E2. mb H as u2 w4 E3. discriminate.
  - unfold nsga2_breed_subpop in H. rewrite Es in H. mb H as u w1 E0. mb H as old w2 E1. mb H as new w3 E2. mb H as u2 w4 E3. mb H as r w5 E4. mr H.
    pose proof (operators_same _ _ _ _ _ E2) as ->. apply mapM_length in E1. simpl in E4. apply tournament_none in E4; [|rewrite app_length; lia]. destruct E4 as [-> _].
    rewrite with_inds_of, app_length. lia.
  - exfalso. apply (doubling_fp s w hi a sels Es s'). rewrite H. reflexivity.
Qed.

Lemma generation_sizes ev sched so (doubling : bool) a w u a' w' :
  (doubling = false -> forall s, In s (a_pop a) -> exists sel sels, sp_sels s = sel :: sels /\ sel_arity sel = 1) ->
  nsga2_generation ev sched so doubling (a, w) = (Ok u, (a', w')) ->
  sizes (a_pop a') = map (fun n => if doubling then n else n / 2) (sizes (a_pop a)).
Proof.
  intros Hd H. unfold nsga2_generation in H. mb H as a0 s E. unfold algo_get in E. injection E as <- <-. simpl in H.
  mb H as pop s E. destruct s as [a1 w1]. la E. mb H as u1 s E1. destruct s as [a2 w2]. unfold algo_mod in E1. injection E1 as _ <- <-.
  mb H as u2 s E2. destruct s as [a3 w3]. unfold algo_mod in E2. injection E2 as _ <- <-. mb H as b s E3. destruct s as [a4 w4].
  mb H as pop' s E4. destruct s as [a5 w5]. la E4. unfold algo_mod in H. injection H as _ <- <-. simpl.
  assert (F2 : sizes pop' = map (fun n => n / 2) (sizes pop)).
  { apply sizes_all. unfold select_for_population in E4.
    apply (mapM_all _ (fun s s' => length (inds_of s') = length (inds_of s) / 2)) in E4; [exact E4|].
    intros s0 v0 s1 v1 Es. mb Es as d v2 Ed. mr Es. apply nsga2_select_size in Ed. exact Ed. }
  rewrite F2. destruct doubling.
  - assert (F1 : sizes pop = map (fun n => 2 * n) (sizes (a_pop a))).
    { apply sizes_all. apply (mapM_all _ (fun s s' => length (inds_of s') = 2 * length (inds_of s))) in E; [exact E|].
      intros s0 v0 s1 v1 Es. eapply doubling_len; eauto. }
    rewrite F1, map_map. apply map_ext. intros k. rewrite Nat.mul_comm. apply Nat.div_mul. discriminate.
  - assert (F1 : sizes pop = sizes (a_pop a)).
    { rewrite <- (map_id (sizes (a_pop a))). apply sizes_all.
      assert (G : forall l v0 l' v1, incl l (a_pop a) -> mapM breed_subpop l v0 = (Ok l', v1) -> Forall2 (fun s s' => length (inds_of s') = length (inds_of s)) l l').
      { induction l as [|s0 l IH]; intros v0 l' v1 Hi Em; simpl in Em; [mr Em; constructor|]. mb Em as s1 v2 Eb. mb Em as l2 v3 El. mr Em. constructor.
        - eapply breed_len; [exact Eb|]. apply Hd; [reflexivity|apply Hi; simpl; auto].
        - eapply IH; [intros z Hz; apply Hi; simpl; auto|exact El]. }
      eapply G; [|exact E]. intros z; auto. }
    rewrite F1. reflexivity.
Qed.
