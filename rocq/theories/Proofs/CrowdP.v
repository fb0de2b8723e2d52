(** Proofs about crowding distances (C50). *)
From Coq Require Import Lia Lqa Permutation Sorted QArith.
From Verif.Proofs Require Export SortP SelP.
From Verif.Spec Require Export Nsga2Spec.
From Verif.Model Require Import Num Fitness Tree World Nsga2.
Open Scope nat_scope.
Open Scope list_scope.

Section Crowding.
  Variable obj : nat -> res (list num).
  Variable U : nat -> nat -> Q.
  Variable M : nat.
  Variable F : list nat.
  Hypothesis obj_ok : forall x, In x F -> obj x = Ok (map (fun k => Fin (U k x)) (seq 0 M)).
  Hypothesis F_nodup : NoDup F.

  Lemma obj_at_ok k x : k < M -> In x F -> obj_at obj k x = Ok (Fin (U k x)).
  Proof.
    intros Hk Hx. unfold obj_at. rewrite obj_ok by exact Hx. simpl.
    rewrite nth_error_map.
    replace (nth_error (seq 0 M) k) with (Some k); [reflexivity|]. symmetry.
    rewrite nth_error_nth' with (d := 0) by (rewrite seq_length; exact Hk). rewrite seq_nth by exact Hk. reflexivity.
  Qed.

  Lemma combine_map (A B : Type) (g : A -> B) l : combine (map g l) l = map (fun x => (g x, x)) l.
  Proof. induction l; simpl; congruence. Qed.

  Lemma sort_front_ok k front : k < M -> Permutation F front -> exists f, sort_front obj k front = Ok f /\
    Permutation F f /\ ascending (U k) f.
  Proof.
    intros Hk P. unfold sort_front.
    assert (Hin : forall x, In x front -> In x F) by (intros x; apply Permutation_in; symmetry; exact P).
    rewrite (rmap_total (obj_at obj k) (fun x => Fin (U k x)) front) by (intros; apply obj_at_ok; auto). simpl. rewrite combine_map.
    set (f := sort_stable (fun a b => nlt (Fin (U k a)) (Fin (U k b))) front).
    exists f. rewrite (sort_map (fun x => (Fin (U k x), x)) _ (fun a b => nlt (Fin (U k a)) (Fin (U k b)))) by reflexivity.
    fold f. rewrite map_map. simpl. rewrite map_id. split; [reflexivity|].
    assert (P' : Permutation F f) by (rewrite P; symmetry; apply sort_perm). split; [exact P'|].
    assert (O : ordered (fun a b => nlt (Fin (U k a)) (Fin (U k b))) f).
    { apply sort_ordered. split.
      - intros x y _ _ H. apply nlt_asym. exact H.
      - intros x y z _ _ _ H1 H2. simpl in *. rewrite Qlt_b_false in *. lra. }
    unfold ordered in O. unfold ascending. clear -O. induction O as [|x l O IH Hx]; constructor; [exact IH|].
    rewrite Forall_forall in *. intros y Hy. specialize (Hx y Hy). simpl in Hx. apply Qlt_b_false in Hx. exact Hx.
  Qed.

  (** ** The middle of one order *)

  Lemma middle_ok k d : k < M -> forall l p s, incl l F -> NoDup l -> exists s',
    crowd_middle obj k (Fin d) (Fin (U k p)) l s = (Ok tt, s') /\
    s_doms s' = s_doms s /\ s_cnt s' = s_cnt s /\ s_rank s' = s_rank s /\
    (forall x, ~ In x l -> s_crowd s' x = s_crowd s x) /\
    (forall l0 x, l = l0 ++ [x] -> s_crowd s' x = s_crowd s x) /\
    (forall l1 a x b l2, p :: l = l1 ++ a :: x :: b :: l2 ->
       s_crowd s' x = if Qeq_bool d 0 then s_crowd s x else nadd (s_crowd s x) (Fin ((U k b - U k a) / d))).
  Proof.
    intros Hk l. induction l as [|cur l IH]; intros p s Hi Hn.
    { exists s. simpl. split; [reflexivity|]. split; [reflexivity|]. split; [reflexivity|]. split; [reflexivity|]. split; [reflexivity|]. split; [reflexivity|].
      intros l1 a x b l2 E. destruct l1 as [|y [|z l1]]; discriminate. }
    destruct l as [|next l].
    { exists s. simpl. split; [reflexivity|]. split; [reflexivity|]. split; [reflexivity|]. split; [reflexivity|]. split; [reflexivity|]. split; [reflexivity|].
      intros l1 a x b l2 E. destruct l1 as [|y [|z [|t l1]]]; discriminate. }
    assert (Hc : In cur F) by (apply Hi; simpl; auto). assert (Hx : In next F) by (apply Hi; simpl; auto).
    inversion Hn as [|? ? Hn1 Hn2]; subst.
    set (s1 := if Qeq_bool d 0 then s else mkSst (s_doms s) (s_cnt s) (upd (s_crowd s) cur (nadd (s_crowd s cur) (Fin ((U k next - U k p) / d)))) (s_rank s)).
    destruct (IH cur s1) as (s' & E & A & B & C & N1 & N2 & N3); [intros z Hz; apply Hi; simpl; auto|exact Hn2|].
    exists s'. split.
    { cbn [crowd_middle]. rewrite (bind_eq_ok _ _ _ (Fin (U k cur)) s) by (unfold lift; rewrite obj_at_ok by assumption; reflexivity).
      rewrite (bind_eq_ok _ _ _ (Fin (U k next)) s) by (unfold lift; rewrite obj_at_ok by assumption; reflexivity).
      rewrite (bind_eq_ok _ _ _ tt s1); [exact E|]. unfold is_zero, s1. simpl. destruct (Qeq_bool d 0) eqn:Ed; [reflexivity|].
      reflexivity. }
    assert (K : s_doms s1 = s_doms s /\ s_cnt s1 = s_cnt s /\ s_rank s1 = s_rank s) by (unfold s1; destruct (Qeq_bool d 0); auto).
    destruct K as (K1 & K2 & K3).
    split; [congruence|]. split; [congruence|]. split; [congruence|].
    assert (K4 : forall x, x <> cur -> s_crowd s1 x = s_crowd s x).
    { intros x H. unfold s1. destruct (Qeq_bool d 0); [reflexivity|]. simpl. unfold upd. destruct (Nat.eqb_spec x cur); congruence. }
    split; [|split].
    - intros x H. rewrite N1; [apply K4; intros H0; apply H; simpl; auto|intros H0; apply H; simpl in *; tauto].
    - intros l0 x El. destruct l0 as [|y l0]; [discriminate|]. injection El as <- El. rewrite (N2 l0 x El). apply K4.
      intros ->. apply Hn1. rewrite El. apply in_or_app. simpl. auto.
    - intros l1 a x b l2 El. destruct l1 as [|y l1].
      + injection El as <- <- <- <-. rewrite N1 by exact Hn1. unfold s1. destruct (Qeq_bool d 0); [reflexivity|].
        simpl. unfold upd. rewrite Nat.eqb_refl. reflexivity.
      + injection El as <- El. rewrite (N3 l1 a x b l2 El).
        assert (Hxc : x <> cur).
        { intros ->. apply Hn1. destruct l1 as [|z l1]; [injection El as <- ->; simpl; auto|].
          injection El as <- ->. apply in_or_app. simpl. auto. }
        rewrite K4 by exact Hxc. reflexivity.
  Qed.

  Lemma last_snoc (l : list nat) d : l <> [] -> exists r, l = r ++ [last l d].
  Proof.
    intros H. exists (removelast l). apply app_removelast_last. exact H.
  Qed.

  Lemma snoc_ex (l : list nat) : l <> [] -> exists r z, l = r ++ [z].
  Proof. intros H. destruct (last_snoc l 0 H) as (r & E). eauto. Qed.

  Lemma at_end_dec f x : at_end f x \/ ~ at_end f x.
  Proof.
    destruct f as [|a f]; [right; intros [(r & E)|(r & E)]; [discriminate|destruct r; discriminate]|].
    destruct (Nat.eq_dec a x) as [->|Ha]; [left; left; exists f; reflexivity|].
    destruct (snoc_ex (a :: f)) as (r & z & E); [discriminate|].
    destruct (Nat.eq_dec z x) as [Hz|Hz]; [left; right; exists r; subst z; exact E|].
    right. intros [(r' & E')|(r' & E')]; [congruence|]. rewrite E in E'. apply app_inj_tail in E'. destruct E'. congruence.
  Qed.

  Lemma split_middle f x : In x f -> ~ at_end f x -> exists p a b s, f = p ++ a :: x :: b :: s.
  Proof.
    intros Hx Hn. apply in_split in Hx. destruct Hx as (l1 & l2 & ->).
    destruct l2 as [|b s]; [exfalso; apply Hn; right; exists l1; reflexivity|].
    destruct l1 as [|c l1]; [exfalso; apply Hn; left; exists (b :: s); reflexivity|].
    destruct (snoc_ex (c :: l1)) as (r & y & ->); [discriminate|]. exists r, y, b, s. rewrite <- app_assoc. reflexivity.
  Qed.

  Lemma objective_ok k front s : k < M -> F <> [] -> Permutation F front -> exists f s',
    crowd_objective obj front k s = (Ok f, s') /\ Permutation F f /\ ascending (U k) f /\
    s_doms s' = s_doms s /\ s_cnt s' = s_cnt s /\ s_rank s' = s_rank s /\
    (forall x, ~ In x F -> s_crowd s' x = s_crowd s x) /\
    (forall x, at_end f x -> s_crowd s' x = PInf) /\
    (forall x, In x F -> ~ at_end f x -> exists q, gap (U k) f x q /\
       (s_crowd s' x = s_crowd s x /\ (q == 0)%Q \/ s_crowd s' x = nadd (s_crowd s x) (Fin q))).
  Proof.
    intros Hk Hne P. destruct (sort_front_ok k front Hk P) as (f & E & Pf & Af). unfold crowd_objective.
    rewrite (bind_eq_ok _ _ _ f s) by (unfold lift; rewrite E; reflexivity).
    destruct f as [|x0 rest]; [apply Permutation_sym, Permutation_nil in Pf; contradiction|].
    assert (Nf : NoDup (x0 :: rest)) by (eapply Permutation_NoDup; eauto).
    set (x1 := last (x0 :: rest) x0).
    assert (Hin : forall x, In x (x0 :: rest) -> In x F) by (intros x; apply Permutation_in; symmetry; exact Pf).
    destruct (last_snoc (x0 :: rest) x0) as (r & Er); [discriminate|]. fold x1 in Er.
    assert (H0 : In x0 F) by (apply Hin; simpl; auto).
    assert (H1 : In x1 F) by (apply Hin; rewrite Er; apply in_or_app; simpl; auto).
    set (s1 := mkSst (s_doms s) (s_cnt s) (upd (upd (s_crowd s) x0 PInf) x1 PInf) (s_rank s)).
    inversion Nf as [|? ? Nf1 Nf2]; subst.
    destruct (middle_ok k (U k x1 - U k x0)%Q Hk rest x0 s1) as (s' & Em & A & B & C & N1 & N2 & N3).
    { intros z Hz. apply Hin. simpl. auto. } { exact Nf2. }
    exists (x0 :: rest), s'. split.
    { rewrite (bind_eq_ok _ _ _ tt (mkSst (s_doms s) (s_cnt s) (upd (s_crowd s) x0 PInf) (s_rank s))) by reflexivity.
      rewrite (bind_eq_ok _ _ _ tt s1) by reflexivity.
      rewrite (bind_eq_ok _ _ _ (Fin (U k x0)) s1) by (unfold lift; rewrite obj_at_ok by assumption; reflexivity).
      rewrite (bind_eq_ok _ _ _ (Fin (U k x1)) s1) by (unfold lift; fold x1; rewrite obj_at_ok by assumption; reflexivity).
      rewrite (bind_eq_ok _ _ _ tt s'); [reflexivity|]. exact Em. }
    split; [exact Pf|]. split; [exact Af|]. split; [exact A|]. split; [exact B|]. split; [exact C|].
    assert (Q : forall x, x <> x0 -> x <> x1 -> s_crowd s1 x = s_crowd s x).
    { intros x Ha Hb. unfold s1, upd. simpl. destruct (Nat.eqb_spec x x1); [congruence|]. destruct (Nat.eqb_spec x x0); congruence. }
    split; [|split].
    - intros x Hx. rewrite N1; [apply Q|]; try (intros ->; contradiction). intros Hx'. apply Hx, Hin. simpl. auto.
    - intros x [(r' & Ex)|(r' & Ex)].
      + injection Ex as <- <-. rewrite N1 by exact Nf1. unfold s1, upd. simpl. rewrite Nat.eqb_refl. destruct (x0 =? x1); reflexivity.
      + assert (x = x1) by (rewrite Er in Ex; apply app_inj_tail in Ex; destruct Ex; congruence). subst x.
        assert (G : s_crowd s1 x1 = PInf) by (unfold s1, upd; simpl; rewrite Nat.eqb_refl; reflexivity).
        destruct r' as [|y r']; [injection Ex as E0 ->; rewrite N1 by (intros []); exact G|].
        injection Ex as <- Ex. rewrite (N2 r' x1 Ex). exact G.
    - intros x Hx Hn. apply (Permutation_in x) in Pf as Hx'; [|exact Hx]. destruct (split_middle _ _ Hx' Hn) as (p & a & b & t & Ef).
      assert (Hx0 : x <> x0) by (intros ->; apply Hn; left; eauto).
      assert (Hx1 : x <> x1) by (intros ->; apply Hn; right; eauto).
      specialize (N3 p a x b t Ef). rewrite Q in N3 by assumption.
      destruct (Qeq_bool (U k x1 - U k x0) 0) eqn:Ew.
      + exists 0%Q. split; [|left; split; [exact N3|reflexivity]].
        exists p, a, b, t. split; [exact Ef|]. exists x0, x1. split; [reflexivity|]. split; [eauto|]. rewrite Ew. reflexivity.
      + exists ((U k b - U k a) / (U k x1 - U k x0))%Q. split; [|right; exact N3].
        exists p, a, b, t. split; [exact Ef|]. exists x0, x1. split; [reflexivity|]. split; [eauto|]. rewrite Ew. reflexivity.
  Qed.

  (** ** All objectives *)

  Definition part (orders : list (list nat)) (c : nat -> num) : Prop :=
    (forall k f, nth_error orders k = Some f -> Permutation F f /\ ascending (U k) f) /\
    forall x, In x F ->
      ((exists f, In f orders /\ at_end f x) -> c x = PInf) /\
      ((forall f, In f orders -> ~ at_end f x) -> exists qs s, length qs = length orders /\ c x = Fin s /\ (s == sumQ qs)%Q /\
         forall k f q, nth_error orders k = Some f -> nth_error qs k = Some q -> gap (U k) f x q).

  Lemma end_of_dec orders x : (exists f, In f orders /\ at_end f x) \/ (forall f, In f orders -> ~ at_end f x).
  Proof.
    induction orders as [|f orders [(g & Hg & E)|IH]]; [right; intros f []|left; exists g; simpl; auto|].
    destruct (at_end_dec f x) as [H|H]; [left; exists f; simpl; auto|right]. intros g [<-|Hg]; auto.
  Qed.

  Lemma sumQ_snoc l q : (sumQ (l ++ [q]) == sumQ l + q)%Q.
  Proof. induction l as [|x l IH]; simpl; [lra|]. rewrite IH. lra. Qed.

  Lemma nth_snoc {A} (l : list A) x k y : nth_error (l ++ [x]) k = Some y ->
    nth_error l k = Some y \/ (k = length l /\ y = x).
  Proof.
    intros H. destruct (Nat.lt_ge_cases k (length l)) as [Hk|Hk].
    - rewrite nth_error_app1 in H by exact Hk. auto.
    - rewrite nth_error_app2 in H by exact Hk. destruct (k - length l) as [|n] eqn:E; [|destruct n; discriminate].
      injection H as <-. right. split; [lia|reflexivity].
  Qed.

  Lemma nadd_fin_Q a q : nadd (Fin a) (Fin q) = Fin (a + q). Proof. reflexivity. Qed.

  Lemma fold_ok n : forall j orders front s, j + n = M -> length orders = j -> F <> [] -> Permutation F front -> part orders (s_crowd s) ->
    exists f s', foldM (crowd_objective obj) (seq j n) front s = (Ok f, s') /\ Permutation F f /\
      s_doms s' = s_doms s /\ s_cnt s' = s_cnt s /\ s_rank s' = s_rank s /\
      (forall x, ~ In x F -> s_crowd s' x = s_crowd s x) /\
      exists orders', length orders' = M /\ part orders' (s_crowd s').
  Proof.
    induction n as [|n IH]; intros j orders front s Hj Ho Hne P Hp.
    - exists front, s. repeat (split; [reflexivity || assumption|]). exists orders. split; [lia|exact Hp].
    - destruct (objective_ok j front s) as (f & s1 & E & Pf & Af & A & B & C & N1 & N2 & N3); [lia|exact Hne|exact P|].
      destruct (IH (S j) (orders ++ [f]) f s1) as (f' & s' & E' & Pf' & A' & B' & C' & N' & orders' & L & Hp').
      + lia. + rewrite app_length. simpl. lia. + exact Hne. + exact Pf.
      + destruct Hp as [Hp1 Hp2]. split.
        * intros k g Hg. apply nth_snoc in Hg. destruct Hg as [Hg|[-> ->]]; [auto|]. rewrite Ho. auto.
        * intros x Hx. destruct (Hp2 x Hx) as [I1 I2]. split.
          -- intros (g & Hg & Ge). apply in_app_or in Hg. destruct (at_end_dec f x) as [Hf|Hf]; [auto|].
             destruct Hg as [Hg|[<-|[]]]; [|contradiction]. destruct (N3 x Hx Hf) as (q & _ & [[-> _]| ->]); rewrite I1 by eauto; reflexivity.
          -- intros Hno. assert (Hf : ~ at_end f x) by (apply Hno; apply in_or_app; simpl; auto).
             destruct I2 as (qs & t & Lq & Ec & Es & G). { intros g Hg. apply Hno. apply in_or_app. auto. }
             destruct (N3 x Hx Hf) as (q & Gq & Hq).
             destruct Hq as [[Eq Q0]|Eq].
             ++ exists (qs ++ [q]), t. split; [rewrite !app_length; simpl; lia|]. split; [congruence|].
                split; [rewrite sumQ_snoc, Q0, Es; lra|].
                intros k g q' Hg Hq'. apply nth_snoc in Hg. apply nth_snoc in Hq'. destruct Hg as [Hg|[-> ->]].
                ** destruct Hq' as [Hq'|[-> ->]]; [eauto|]. apply nth_error_lt in Hg. lia.
                ** destruct Hq' as [Hq'|[_ ->]]; [apply nth_error_lt in Hq'; lia|]. rewrite Ho. exact Gq.
             ++ exists (qs ++ [q]), (t + q)%Q. split; [rewrite !app_length; simpl; lia|]. split; [rewrite Eq, Ec; reflexivity|].
                split; [rewrite sumQ_snoc, Es; lra|].
                intros k g q' Hg Hq'. apply nth_snoc in Hg. apply nth_snoc in Hq'. destruct Hg as [Hg|[-> ->]].
                ** destruct Hq' as [Hq'|[-> ->]]; [eauto|]. apply nth_error_lt in Hg. lia.
                ** destruct Hq' as [Hq'|[_ ->]]; [apply nth_error_lt in Hq'; lia|]. rewrite Ho. exact Gq.
      + exists f', s'. split; [cbn [seq foldM]; rewrite (bind_eq_ok _ _ _ _ _ E); exact E'|]. split; [exact Pf'|].
        split; [congruence|]. split; [congruence|]. split; [congruence|]. split; [intros x Hx; rewrite N', N1 by exact Hx; reflexivity|]. eauto.
  Qed.

  Lemma zero_crowd l : forall s, exists s', iterM (fun o => set_crowd o (Fin 0)) l s = (Ok tt, s') /\
    s_doms s' = s_doms s /\ s_cnt s' = s_cnt s /\ s_rank s' = s_rank s /\
    forall x, s_crowd s' x = if existsb (Nat.eqb x) l then Fin 0 else s_crowd s x.
  Proof.
    induction l as [|o l IH]; intros s; [exists s; repeat (split; [reflexivity|]); reflexivity|].
    cbn [iterM]. rewrite (bind_eq_ok _ _ _ tt (mkSst (s_doms s) (s_cnt s) (upd (s_crowd s) o (Fin 0)) (s_rank s))) by reflexivity.
    destruct (IH (mkSst (s_doms s) (s_cnt s) (upd (s_crowd s) o (Fin 0)) (s_rank s))) as (s' & E & A & B & C & N).
    exists s'. split; [exact E|]. repeat (split; [assumption|]). intros x. rewrite N. simpl. unfold upd.
    destruct (Nat.eqb x o); simpl; [destruct (existsb (Nat.eqb x) l); reflexivity|reflexivity].
  Qed.

  Lemma crowding_ok s : F <> [] -> exists f s', calc_crowding obj F s = (Ok f, s') /\ Permutation F f /\
      s_doms s' = s_doms s /\ s_cnt s' = s_cnt s /\ s_rank s' = s_rank s /\
      (forall x, ~ In x F -> s_crowd s' x = s_crowd s x) /\ crowded M U F (s_crowd s').
  Proof.
    intros Hne. unfold calc_crowding. destruct (zero_crowd F s) as (s1 & E & A & B & C & N). rewrite (bind_eq_ok _ _ _ _ _ E).
    destruct F as [|o F'] eqn:EF; [congruence|]. rewrite <- EF in *.
    rewrite (bind_eq_ok _ _ _ (map (fun k => Fin (U k o)) (seq 0 M)) s1).
    2:{ unfold lift. rewrite obj_ok; [reflexivity|]. rewrite EF. simpl. auto. }
    rewrite map_length, seq_length.
    destruct (fold_ok M 0 [] F s1) as (f & s' & E' & Pf & A' & B' & C' & N' & orders & L & [P1 P2]); auto.
    - split; [intros [|k] f H; discriminate|]. intros x Hx. split; [intros (f & [] & _)|]. intros _.
      exists [], 0%Q. split; [reflexivity|]. split; [rewrite N; apply existsb_In in Hx; rewrite Hx; reflexivity|].
      split; [reflexivity|]. intros [|k] f q H; discriminate.
    - exists f, s'. split; [exact E'|]. split; [exact Pf|]. split; [congruence|]. split; [congruence|]. split; [congruence|]. split.
      + intros x Hx. rewrite N', N by exact Hx. apply existsb_notIn in Hx. rewrite Hx. reflexivity.
      + exists orders. split; [exact L|]. split; [exact P1|]. rewrite L in P2. exact P2.
  Qed.
End Crowding.

(** ** Consequences *)

Lemma ascending_split u p a s : ascending u (p ++ a :: s) -> (forall x, In x p -> (u x <= u a)%Q) /\ (forall x, In x s -> (u a <= u x)%Q).
Proof.
  unfold ascending. induction p as [|y p IH]; simpl; intros H; inversion H as [|? ? H1 H2]; subst; rewrite Forall_forall in H2.
  - split; [intros x []|exact H2].
  - destruct (IH H1) as [I1 I2]. split; [|exact I2]. intros x [<-|Hx]; [|auto]. apply H2. apply in_or_app. simpl. auto.
Qed.

Lemma gap_bounds u f x q : ascending u f -> gap u f x q -> (0 <= q <= 1)%Q.
Proof.
  intros Ha (p & a & b & s & Ef & x0 & x1 & H0 & (r & Hr) & Hq).
  destruct (Qeq_bool (u x1 - u x0) 0) eqn:Ew; [rewrite Hq; lra|].
  assert (Hx0 : forall y, In y f -> (u x0 <= u y)%Q).
  { destruct f as [|z f]; [discriminate|]. injection H0 as ->. intros y [<-|Hy]; [lra|]. apply (ascending_split u [] x0 f Ha). exact Hy. }
  assert (Hx1 : forall y, In y f -> (u y <= u x1)%Q).
  { rewrite Hr in *. intros y Hy. apply in_app_or in Hy. destruct Hy as [Hy|[<-|[]]]; [|lra]. apply (ascending_split u r x1 [] Ha). exact Hy. }
  assert (Hab : (u a <= u b)%Q). { rewrite Ef in Ha. apply (ascending_split u p a (x :: b :: s) Ha). simpl. auto. }
  assert (Ha0 : (u x0 <= u a)%Q) by (apply Hx0; rewrite Ef; apply in_or_app; simpl; auto).
  assert (Hb1 : (u b <= u x1)%Q) by (apply Hx1; rewrite Ef; apply in_or_app; simpl; auto).
  assert (W : ~ (u x1 - u x0 == 0)%Q) by (intros G; apply Qeq_bool_iff in G; congruence).
  assert (W0 : (0 < u x1 - u x0)%Q) by lra.
  rewrite Hq. split.
  - apply Qle_shift_div_l; [exact W0|]. lra.
  - apply Qle_shift_div_r; [exact W0|]. lra.
Qed.

Lemma sum_bounds qs : (forall q, In q qs -> (0 <= q <= 1)%Q) -> (0 <= sumQ qs <= inject_Z (Z.of_nat (length qs)))%Q.
Proof.
  induction qs as [|q qs IH]; intros H; [simpl; unfold inject_Z; lra|].
  destruct IH as [I1 I2]; [intros; apply H; simpl; auto|]. destruct (H q) as [J1 J2]; [simpl; auto|].
  cbn [sumQ length]. rewrite Nat2Z.inj_succ, <- Z.add_1_r, inject_Z_plus. change (inject_Z 1) with 1%Q. lra.
Qed.

Lemma crowded_bounds m v F c x : crowded m v F c -> In x F ->
  c x = PInf \/ exists s, c x = Fin s /\ (0 <= s <= inject_Z (Z.of_nat m))%Q.
Proof.
  intros (orders & L & H1 & H2) Hx. destruct (H2 x Hx) as [I1 I2]. destruct (end_of_dec orders x) as [H|H]; [left; auto|right].
  destruct (I2 H) as (qs & s & Lq & Ec & Es & G). exists s. split; [exact Ec|]. rewrite Es, <- Lq. apply sum_bounds. intros q Hq.
  apply In_nth_error in Hq. destruct Hq as (k & Hk). destruct (nth_error_ex orders k) as (f & Hf); [apply nth_error_lt in Hk; lia|].
  eapply gap_bounds; [apply (H1 k f Hf)|]. eauto.
Qed.

(** In every objective, some individual with the least and some with the greatest value has infinite distance. *)
Lemma crowded_extremes m v F c k : crowded m v F c -> F <> [] -> k < m ->
  (exists x, In x F /\ c x = PInf /\ forall y, In y F -> (v k x <= v k y)%Q) /\
  (exists x, In x F /\ c x = PInf /\ forall y, In y F -> (v k y <= v k x)%Q).
Proof.
  intros (orders & L & H1 & H2) Hne Hk. destruct (nth_error_ex orders k) as (f & Hf); [lia|]. destruct (H1 k f Hf) as [P A].
  assert (Hin : forall x, In x f <-> In x F) by (intros x; split; apply Permutation_in; [symmetry|]; exact P).
  assert (Hne' : f <> []) by (intros ->; apply Permutation_sym, Permutation_nil in P; contradiction).
  assert (Hof : In f orders) by (eapply nth_error_In; eauto). split.
  - destruct f as [|x f]; [congruence|]. exists x. split; [apply Hin; simpl; auto|]. split.
    + apply (H2 x); [apply Hin; simpl; auto|]. exists (x :: f). split; [exact Hof|left; eauto].
    + intros y Hy. apply Hin in Hy. destruct Hy as [<-|Hy]; [lra|]. apply (ascending_split _ [] x f A). exact Hy.
  - destruct (snoc_ex f Hne') as (r & x & E).
    assert (Hx : In x F) by (apply Hin; rewrite E; apply in_or_app; simpl; auto). exists x. split; [exact Hx|]. split.
    + apply (H2 x Hx). exists f. split; [exact Hof|right; exists r; exact E].
    + intros y Hy. apply Hin in Hy. rewrite E in Hy, A. apply in_app_or in Hy. destruct Hy as [Hy|[<-|[]]]; [|lra].
      apply (ascending_split _ r x [] A). exact Hy.
Qed.
