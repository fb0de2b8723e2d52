(** Proofs about the values of the functions offered for program trees (C70). *)
From Coq Require Import Lia Lqa QArith Qabs.
From Verif.Proofs Require Export BaseP.
From Verif.Spec Require Import TreeSpec BaseSpec.
From Verif.Model Require Import BaseFns.
Open Scope nat_scope.

Lemma is_number_int z : is_number (EInt z) (inject_Z z).
Proof. split; [exact I|]. eexists. split; reflexivity. Qed.

Lemma is_number_eq a x y : is_number a x -> (x == y)%Q -> is_number a y.
Proof. intros [N (q & E & H)] H2. split; [exact N|]. exists q. split; [exact E|]. rewrite H. exact H2. Qed.

Lemma Qle_bool_eq x x' y y' : (x == x')%Q -> (y == y')%Q -> Qle_bool x y = Qle_bool x' y'.
Proof. intros H1 H2. apply eq_true_iff_eq. rewrite !Qle_bool_iff, H1, H2. reflexivity. Qed.
Lemma Qeq_bool_eq x x' : (x == x')%Q -> Qeq_bool x 0 = Qeq_bool x' 0.
Proof. intros H. apply eq_true_iff_eq. rewrite !Qeq_bool_iff, H. reflexivity. Qed.
Lemma at_most_eq x x' y y' a a' b b' : (x == x' -> y == y' -> a == a' -> b == b' -> at_most x y a b == at_most x' y' a' b')%Q.
Proof. intros. unfold at_most. rewrite (Qle_bool_eq x x' y y') by assumption. destruct (Qle_bool x' y'); assumption. Qed.
Lemma quotient_eq x x' y y' : (x == x' -> y == y' -> protected_quotient x y == protected_quotient x' y')%Q.
Proof.
  intros H1 H2. unfold protected_quotient. rewrite (Qle_bool_eq (Qabs y) (Qabs y') c0001 c0001) by (rewrite ?H2; reflexivity).
  destruct (Qle_bool _ _); [reflexivity|]. rewrite H1, H2. reflexivity.
Qed.
Lemma lt_le x y : Qlt_b x y = negb (Qle_bool y x).
Proof. reflexivity. Qed.
Lemma le_fin x y : nle (Fin x) (Fin y) = Qle_bool x y.
Proof.
  unfold nle. simpl. rewrite lt_le. destruct (Qle_bool y x) eqn:E; cbn [negb orb].
  - apply eq_true_iff_eq. rewrite Qeq_bool_iff, Qle_bool_iff. apply Qle_bool_iff in E. split; [intros ->; apply Qle_refl|intros; apply Qle_antisym; assumption].
  - symmetry. apply Qle_bool_iff. apply Qlt_le_weak. apply Qnot_le_lt. intros H. apply Qle_bool_iff in H. congruence.
Qed.

Definition val (r : res el) (x : Q) : Prop := exists v, r = Ok v /\ is_number v x.

Lemma val_binary fb fi ff (op : Q -> Q -> Q) a b x y : is_number a x -> is_number b y ->
  (forall p p' q q', p == p' -> q == q' -> op p q == op p' q')%Q ->
  (forall z z', inject_Z (fi z z') == op (inject_Z z) (inject_Z z'))%Q ->
  (forall p q, exists r, ff (Fin p) (Fin q) = Fin r /\ (r == op p q)%Q) ->
  val (binary fb fi ff a b) (op x y).
Proof.
  intros [Na (p & Ea & Hp)] [Nb (q & Eb & Hq)] Pr Hi Hf.
  destruct a as [z|[u| | |]|?], b as [z'|[u'| | |]|?]; simpl in Na, Nb; try contradiction; simpl in Ea, Eb; injection Ea as <-; injection Eb as <-;
    (eexists; split; [reflexivity|]); (split; [|]); cbn [number el_num];
    try (eexists; split; [reflexivity|]; rewrite Hi; apply Pr; assumption); try exact I;
    unfold nof_Z in *;
    match goal with |- context[ff (Fin ?p) (Fin ?q)] => destruct (Hf p q) as (r & E & Hr) end; rewrite E; try exact I;
    (eexists; split; [reflexivity|]; rewrite Hr; apply Pr; assumption).
Qed.

Lemma val_where c a b x y : is_number a x -> is_number b y -> is_number (np_where c a b) (if c then x else y).
Proof.
  intros [Na (p & Ea & Hp)] [Nb (q & Eb & Hq)].
  destruct a as [z|[u| | |]|?], b as [z'|[u'| | |]|?], c; simpl in Na, Nb; try contradiction; simpl in Ea, Eb; injection Ea as <-; injection Eb as <-;
    (split; [exact I|]); cbn; eexists; (split; [reflexivity|]); assumption.
Qed.

Lemma val_div a b x y : is_number a x -> is_number b y -> val (f_div a b) (protected_quotient x y).
Proof.
  intros [Na (p & Ea & Hp)] [Nb (q & Eb & Hq)]. destruct (division a b p q Ea Eb) as (r & E & R0 & R1 & _).
  exists (EFloat (Fin r)). split; [exact E|]. split; [exact I|]. exists r. split; [reflexivity|].
  rewrite <- (quotient_eq p x q y Hp Hq). unfold protected_quotient. destruct (Qle_bool (Qabs q) c0001) eqn:El.
  - apply Qle_bool_iff in El. apply R0. exact El.
  - assert (L : (c0001 < Qabs q)%Q) by (apply Qnot_le_lt; intros H; apply Qle_bool_iff in H; congruence).
    rewrite <- (R1 L). field. intros Z. rewrite Z in L. pose proof c0001_pos. change (Qabs 0) with 0%Q in L. lra.
Qed.

Lemma val_abs a x : is_number a x -> val (Ok (np_absolute a)) (Qabs x).
Proof.
  intros [Na (p & Ea & Hp)]. eexists. split; [reflexivity|]. destruct a as [z|[u| | |]|?]; simpl in Na; try contradiction; simpl in Ea; injection Ea as <-;
    (split; [exact I|]); eexists; (split; [reflexivity|]); rewrite <- Hp; reflexivity.
Qed.
Lemma val_neg a x : is_number a x -> val (np_negative a) (- x).
Proof.
  intros [Na (p & Ea & Hp)]. destruct a as [z|[u| | |]|?]; simpl in Na; try contradiction; simpl in Ea; injection Ea as <-;
    (eexists; split; [reflexivity|]); (split; [exact I|]); eexists; (split; [reflexivity|]); rewrite <- Hp; reflexivity.
Qed.

Lemma truthy_value a x : is_number a x -> truthy a = negb (Qeq_bool x 0).
Proof.
  intros [Na (p & Ea & Hp)]. rewrite <- (Qeq_bool_eq p x Hp). destruct a as [z|[u| | |]|?]; simpl in Na; try contradiction; simpl in Ea; injection Ea as <-.
  - unfold truthy. f_equal. apply eq_true_iff_eq. rewrite Z.eqb_eq, Qeq_bool_iff. unfold Qeq. simpl. lia.
  - reflexivity.
Qed.

Section Values.
  Variables (us ul usin ucos utan : num -> num).
  Notation sem := (base_sem us ul usin ucos utan).

  Lemma val_max a b x y : is_number a x -> is_number b y -> val (np_maximum a b) (at_most x y y x).
  Proof.
    intros Ha Hb. apply (val_binary _ _ _ (fun x y => at_most x y y x) a b x y Ha Hb).
    - intros. apply at_most_eq; assumption.
    - intros z z'. unfold at_most. destruct (Qle_bool (inject_Z z) (inject_Z z')) eqn:E.
      + apply Qle_bool_iff in E. rewrite <- Zle_Qle in E. rewrite Z.max_r by exact E. reflexivity.
      + assert (~ (z <= z')%Z). { intros H. rewrite Zle_Qle in H. apply Qle_bool_iff in H. congruence. } rewrite Z.max_l by lia. reflexivity.
    - intros p q. unfold nmaximum. simpl. rewrite lt_le. unfold at_most. destruct (Qle_bool q p) eqn:E1; cbn [negb]; eexists; (split; [reflexivity|]).
      + destruct (Qle_bool p q) eqn:E2; [|reflexivity]. apply Qle_bool_iff in E1, E2. apply Qle_antisym; assumption.
      + destruct (Qle_bool p q) eqn:E2; [reflexivity|]. exfalso. destruct (Qlt_le_dec p q) as [L|L]; [apply Qlt_le_weak in L|]; apply Qle_bool_iff in L; congruence.
  Qed.
  Lemma val_min a b x y : is_number a x -> is_number b y -> val (np_minimum a b) (at_most x y x y).
  Proof.
    intros Ha Hb. apply (val_binary _ _ _ (fun x y => at_most x y x y) a b x y Ha Hb).
    - intros. apply at_most_eq; assumption.
    - intros z z'. unfold at_most. destruct (Qle_bool (inject_Z z) (inject_Z z')) eqn:E.
      + apply Qle_bool_iff in E. rewrite <- Zle_Qle in E. rewrite Z.min_l by exact E. reflexivity.
      + assert (~ (z <= z')%Z). { intros H. rewrite Zle_Qle in H. apply Qle_bool_iff in H. congruence. } rewrite Z.min_r by lia. reflexivity.
    - intros p q. unfold nminimum. simpl. rewrite lt_le. unfold at_most. destruct (Qle_bool p q) eqn:E1; cbn [negb]; eexists; (split; reflexivity).
  Qed.

  Lemma val_le_where a b x y c d u v : is_number a x -> is_number b y -> is_number c u -> is_number d v ->
    val (Ok (np_where (nle (el_num a) (el_num b)) c d)) (at_most x y u v).
  Proof.
    intros [_ (p & Ea & Hp)] [_ (q & Eb & Hq)] Hc Hd. eexists. split; [reflexivity|]. rewrite Ea, Eb, le_fin, (Qle_bool_eq p x q y Hp Hq).
    apply val_where; assumption.
  Qed.
  Lemma val_gt_where a b x y c d u v : is_number a x -> is_number b y -> is_number c u -> is_number d v ->
    val (Ok (np_where (nlt (el_num b) (el_num a)) c d)) (at_most x y v u).
  Proof.
    intros [_ (p & Ea & Hp)] [_ (q & Eb & Hq)] Hc Hd. eexists. split; [reflexivity|]. rewrite Ea, Eb. simpl. rewrite lt_le, (Qle_bool_eq p x q y Hp Hq).
    unfold at_most. pose proof (fun t => val_where t _ _ _ _ Hc Hd) as V. destruct (Qle_bool x y); [exact (V false)|exact (V true)].
  Qed.
  Lemma zero_number : is_number (EInt 0) 0.
  Proof. split; [exact I|]. eexists. split; reflexivity. Qed.
  Lemma val_b2z x : is_number (EInt (b2z (negb (negb (Qeq_bool x 0))))) (if Qeq_bool x 0 then 1 else 0).
  Proof. rewrite Bool.negb_involutive. destruct (Qeq_bool x 0); apply is_number_int. Qed.
  Lemma val_argmax a b x y : is_number a x -> is_number b y -> val (argmax2floats a b) (at_most y x 0 1).
  Proof.
    intros [_ (p & Ea & Hp)] [_ (q & Eb & Hq)]. eexists. split; [reflexivity|]. unfold np_argmax2. rewrite Ea, Eb. simpl.
    rewrite lt_le, (Qle_bool_eq q y p x Hq Hp). unfold at_most. destruct (Qle_bool y x); apply is_number_int.
  Qed.

  Lemma val_add a b x y : is_number a x -> is_number b y -> val (np_add2 a b) (x + y).
  Proof.
    intros Ha Hb. apply (val_binary _ _ _ Qplus a b x y Ha Hb); [intros p p' q q' -> ->; reflexivity|intros; rewrite inject_Z_plus; reflexivity|].
    intros p q. eexists. split; reflexivity.
  Qed.
  Lemma val_sub a b x y : is_number a x -> is_number b y -> val (np_subtract a b) (x - y).
  Proof.
    intros Ha Hb. apply (val_binary _ _ _ Qminus a b x y Ha Hb); [intros p p' q q' -> ->; reflexivity| |].
    - intros z z'. unfold Z.sub, Qminus. rewrite inject_Z_plus, inject_Z_opp. reflexivity.
    - intros p q. eexists. split; [reflexivity|]. reflexivity.
  Qed.
  Lemma val_mul a b x y : is_number a x -> is_number b y -> val (np_multiply a b) (x * y).
  Proof.
    intros Ha Hb. apply (val_binary _ _ _ Qmult a b x y Ha Hb); [intros p p' q q' -> ->; reflexivity|intros; rewrite inject_Z_mult; reflexivity|].
    intros p q. eexists. split; reflexivity.
  Qed.
  Lemma val_not a x : is_number a x -> val (f_not a) (if Qeq_bool x 0 then 1 else 0)%Q.
  Proof. intros Ha. eexists. split; [reflexivity|]. rewrite (truthy_value a x Ha). apply val_b2z. Qed.
  Lemma val_not_float a x : is_number a x -> val (not2floats a) (if Qeq_bool x 0 then 1 else 0)%Q.
  Proof.
    intros Ha. eexists. split; [reflexivity|]. rewrite (truthy_value a x Ha), Bool.negb_involutive. split; [exact I|]. eexists. split; [reflexivity|].
    destruct (Qeq_bool x 0); reflexivity.
  Qed.
  Lemma val_ite a x b y c z : is_number a x -> is_number b y -> is_number c z -> val (f_if_then_else a b c) (if Qeq_bool x 0 then z else y).
  Proof.
    intros Ha Hb Hc. eexists. split; [reflexivity|]. rewrite (truthy_value a x Ha). pose proof (fun t => val_where t _ _ _ _ Hb Hc) as V.
    destruct (Qeq_bool x 0); [exact (V false)|exact (V true)].
  Qed.

  Lemma meaning_ok f args xs n g : meaning (f_name f) = Some (n, g) -> length args = n -> Forall2 is_number args xs ->
    exists v, sem f args = Ok v /\ is_number v (g xs).
  Proof.
    change (meaning (f_name f) = Some (n, g) -> length args = n -> Forall2 is_number args xs -> val (sem f args) (g xs)).
    unfold base_sem. destruct f as [fid nm ps rt]. cbn [f_name]. unfold meaning.
    cbv [meanings flat_map map app]. cbn [meaning_in].
    repeat (match goal with |- context[String.eqb nm ?s] => destruct (String.eqb_spec nm s) as [->|_] end; [
      intros [= <- <-] L F; cbn -[f_div f_inv np_negative np_absolute argmax2floats binary np_where];
      repeat (destruct args as [|? args]; try discriminate L); clear L;
      repeat match goal with HF : Forall2 is_number (_ :: _) _ |- _ => inversion HF; clear HF; subst end;
      repeat match goal with HF : Forall2 is_number [] _ |- _ => inversion HF; clear HF; subst end;
      cbn [arg nth]; unfold arg; cbn [nth]|]);
    try discriminate.
    all: try (apply val_div; assumption).
    all: try (apply val_div; [apply (is_number_int 1)|assumption]).
    all: try (apply val_abs; assumption).
    all: try (apply val_neg; assumption).
    all: try (apply val_argmax; assumption).
    all: try (apply val_max; assumption).
    all: try (apply val_min; assumption).
    all: try (apply val_le_where; assumption).
    all: try (apply val_gt_where; assumption).
    all: try (apply val_add; assumption).
    all: try (apply val_sub; assumption).
    all: try (apply val_mul; assumption).
    all: try (apply (val_le_where _ (EInt 0) _ 0 _ _ _ _); try assumption; apply zero_number).
    all: try (apply (val_gt_where _ (EInt 0) _ 0 _ _ _ _); try assumption; apply zero_number).
    all: try (apply val_not; assumption).
    all: try (apply val_not_float; assumption).
    all: apply val_ite; assumption.
  Qed.

  (** The value of a tree of such functions. *)
  Lemma eval_worth (env : string -> Q) (lookup : string -> option el) t :
    saturated t -> (forall f, In (FNode f) (flatten t) -> exists g, meaning (f_name f) = Some (arity f, g)) ->
    (forall s a, In (TNode (TVar s) a) (flatten t) -> exists v, lookup s = Some v /\ is_number v (env s)) ->
    (forall b x tag a, In (TNode (TNum b x tag) a) (flatten t) -> is_fin x = true) ->
    val (eval el sem el_const lookup t) (worth env t).
  Proof.
    induction t as [n ks IH] using rose_ind. intros [Hl Hs] Hf Hv Hc. rewrite All_In in IH, Hs. destruct n as [f|v a].
    - cbn [eval worth].
      assert (C : exists vs, collect el (map (eval el sem el_const lookup) ks) = Ok vs /\ length vs = length ks /\ Forall2 is_number vs (map (worth env) ks)).
      { assert (K : forall k, In k ks -> val (eval el sem el_const lookup k) (worth env k)).
        { intros k Hk. apply IH; auto.
          - intros g Hg. apply Hf. right. apply in_flat_map. eauto.
          - intros s b H. apply (Hv s b). right. apply in_flat_map. eauto.
          - intros b x tag c H. apply (Hc b x tag c). right. apply in_flat_map. eauto. }
        clear - K. induction ks as [|k ks IHk]; [exists []; simpl; auto|].
        destruct (K k (or_introl eq_refl)) as (v & E & N). destruct IHk as (vs & E2 & L & F); [intros; apply K; right; assumption|].
        exists (v :: vs). simpl. rewrite E, E2. simpl. auto. }
      destruct C as (vs & -> & L & F). destruct (Hf f) as (g & M); [left; reflexivity|]. rewrite M.
      eapply meaning_ok; [exact M| |exact F]. rewrite L, Hl. reflexivity.
    - cbn [eval]. eexists. split; [reflexivity|]. destruct v as [s|b x tag]; cbn [eval_terminal worth].
      + destruct (Hv s a) as (v & -> & N); [left; reflexivity|]. exact N.
      + pose proof (Hc b x tag a (or_introl eq_refl)) as Fx. destruct x as [q| | |]; try discriminate. unfold el_const. destruct b.
        * split; [exact I|]. eexists. split; reflexivity.
        * unfold num_to_Z. destruct (Qnum q mod Z.pos (Qden q) =? 0)%Z eqn:Em.
          -- apply Z.eqb_eq in Em. split; [exact I|]. eexists. split; [reflexivity|]. unfold Qeq, inject_Z. cbn [Qnum Qden].
             rewrite Z.mul_1_r. rewrite (Z.div_mod (Qnum q) (QDen q)) at 2 by discriminate. lia.
          -- split; [exact I|]. eexists. split; reflexivity.
  Qed.
End Values.

Lemma trees_worth us ul usin ucos utan t rt kw env :
  saturated rt -> flatten rt = t_nodes t -> exact_arguments t kw ->
  (forall f, In (FNode f) (t_nodes t) -> exists g, meaning (f_name f) = Some (arity f, g)) ->
  (forall s a, In (TNode (TVar s) a) (t_nodes t) -> In (TVar s) (map fst (t_tset t))) ->
  finite_constants t -> (forall s v, argument kw s = Some v -> is_number v (env s)) ->
  exists v, execute el (base_sem us ul usin ucos utan) el_const t kw = Ok v /\ is_number v (worth env rt).
Proof.
  intros Hs E X Hf Hv Hc Hk. rewrite (execute_accepts _ _ t rt kw Hs E X). apply eval_worth; auto; rewrite E; auto.
  intros s a H. pose proof (Hv s a H) as Hin. destruct X as [_ X2]. destruct (X2 _ Hin) as (s' & Es & Hs'). injection Es as <-.
  destruct (argument_some kw s Hs') as [v Ev]. exists v. split; [exact Ev|]. apply Hk. exact Ev.
Qed.

Lemma integers_stay us ul usin ucos utan f z z' : 
  (In (f_name f) ["f_add"; "f_sub"; "f_mul"; "f_max"; "f_min"]%string -> exists r, base_sem us ul usin ucos utan f [EInt z; EInt z'] = Ok (EInt r)) /\
  (In (f_name f) ["f_abs"; "f_neg"; "f_not"]%string -> exists r, base_sem us ul usin ucos utan f [EInt z] = Ok (EInt r)).
Proof.
  unfold base_sem. destruct f as [fid nm ps rt]. cbn [f_name].
  split; intros H; cbn [In] in H; repeat (destruct H as [<-|H]; [eexists; reflexivity|]); contradiction.
Qed.

Lemma argmax_nan x y : is_nan x = true \/ is_nan y = true ->
  argmax2floats (EFloat x) (EFloat y) = Ok (EInt (if is_nan x then 0 else 1)).
Proof. intros H. unfold argmax2floats, np_argmax2. cbn [el_num]. destruct (is_nan x), (is_nan y); try reflexivity. destruct H; discriminate. Qed.

(** ** Booleans *)

Ltac table H := repeat (destruct H as [<-|H]); [..|contradiction].

Lemma booleans us ul usin ucos utan f bs n g : boolean_meaning (f_name f) = Some (n, g) -> length bs = n ->
  base_sem us ul usin ucos utan f (map EBool bs) = match g bs with Some b => Ok (EBool b) | None => Raise TypeError end.
Proof.
  intros H L. destruct f as [fid nm ps rt]. cbn [f_name] in H. unfold base_sem. cbn [f_name].
  assert (In nm (map fst boolean_meanings)) as I.
  { unfold boolean_meaning in H. revert H. generalize boolean_meanings. intros l. induction l as [|[k m] l IH]; [discriminate|].
    cbn [boolean_meaning_in map In fst]. destruct (String.eqb nm k) eqn:E; [apply String.eqb_eq in E; auto|right; auto]. }
  cbn in I. table I; cbn in H; injection H as <- <-;
    (destruct bs as [|x [|y [|z [|t bs]]]]; try discriminate); try destruct x; try destruct y; try destruct z; reflexivity.
Qed.

Lemma booleans_mixed us ul usin ucos utan f args : In (f_name f) mixing -> Exists not_boolean args ->
  base_sem us ul usin ucos utan f args = base_sem us ul usin ucos utan f (map as_number args).
Proof.
  intros I E. destruct f as [fid nm ps rt]. cbn [f_name] in I. unfold base_sem. cbn [f_name].
  destruct args as [|a [|b [|c args]]]; cbn in I.
  1, 2, 4 : table I; reflexivity.
  destruct a as [x|x|[|]], b as [y|y|[|]]; try (table I; reflexivity).
  all : exfalso; inversion E as [? ? N|? ? E1]; subst; [eapply N; reflexivity|]; inversion E1 as [? ? N|? ? E2]; subst; [eapply N; reflexivity|inversion E2].
Qed.

Lemma booleans_count us ul usin ucos utan f args : In (f_name f) counting ->
  base_sem us ul usin ucos utan f args = base_sem us ul usin ucos utan f (map as_number args).
Proof.
  intros I. destruct f as [fid nm ps rt]. cbn [f_name] in I. unfold base_sem. cbn [f_name].
  destruct args as [|a [|b [|c args]]]; cbn in I.
  - table I; reflexivity.
  - destruct a as [x|x|[|]]; table I; reflexivity.
  - destruct a as [x|x|[|]], b as [y|y|[|]]; table I; reflexivity.
  - table I; reflexivity.
Qed.

Lemma wrong_arguments us ul usin ucos utan f n args : In (f_name f, n) offered -> length args <> n ->
  base_sem us ul usin ucos utan f args = Raise TypeError.
Proof.
  intros I L. destruct f as [fid nm ps rt]. cbn [f_name] in I. unfold base_sem. cbn [f_name].
  cbn in I. repeat (destruct I as [E|I]; [injection E as <- <-; destruct args as [|a [|b [|c [|d [|e args]]]]]; try reflexivity; exfalso; apply L; reflexivity|]). destruct I.
Qed.

Ltac comp := intros us ul usin ucos utan f Hf; destruct f as [fid nm ps rt]; cbn [f_name] in Hf; subst nm; unfold base_sem; cbn [f_name].

Lemma sign_zero q x : (q == x)%Q -> Z.sgn (Qnum q) = if Qeq_bool x 0 then 0%Z else if above_zero x then 1%Z else (-1)%Z.
Proof.
  intros H. unfold above_zero. rewrite <- (Qeq_bool_eq _ _ H), <- (Qle_bool_eq q x 0 0 H) by reflexivity. destruct q as [[|p|p] d]; reflexivity.
Qed.

Lemma infinite_values up a x : is_number a x ->
  (forall s, In s ["f_add"; "add2floats"]%string ->
     computes s [inf up; a] (inf up) /\ computes s [a; inf up] (inf up) /\ computes s [inf up; inf up] (inf up) /\ computes s [inf up; inf (negb up)] nan) /\
  (forall s, In s ["f_sub"; "sub2floats"]%string ->
     computes s [inf up; a] (inf up) /\ computes s [a; inf up] (inf (negb up)) /\ computes s [inf up; inf up] nan /\ computes s [inf up; inf (negb up)] (inf up)) /\
  (forall s, In s ["f_mul"; "mul2floats"]%string ->
     let r := if Qeq_bool x 0 then nan else inf (Bool.eqb up (above_zero x)) in
     computes s [inf up; a] r /\ computes s [a; inf up] r /\ computes s [inf up; inf up] (inf true) /\ computes s [inf up; inf (negb up)] (inf false)) /\
  (forall s, In s ["f_div"; "div2floats"]%string ->
     computes s [inf up; a] (if Qle_bool (Qabs x) c0001 then EFloat (Fin 0) else inf (Bool.eqb up (above_zero x))) /\
     computes s [a; inf up] (EFloat (Fin 0)) /\ computes s [inf up; inf up] nan /\ computes s [inf up; inf (negb up)] nan) /\
  (forall s, In s ["f_inv"; "inv_float"]%string -> computes s [inf up] (EFloat (Fin 0))) /\
  (forall s, In s ["f_abs"; "abs_float"]%string -> computes s [inf up] (inf true)) /\
  (forall s, In s ["f_neg"; "neg_float"]%string -> computes s [inf up] (inf (negb up))) /\
  (forall s, In s ["f_max"; "max2floats"]%string ->
     computes s [inf true; a] (inf true) /\ computes s [a; inf true] (inf true) /\ computes s [inf up; inf (negb up)] (inf true) /\
     exists v, is_number v x /\ computes s [inf false; a] v /\ computes s [a; inf false] v) /\
  (forall s, In s ["f_min"; "min2floats"]%string ->
     computes s [inf false; a] (inf false) /\ computes s [a; inf false] (inf false) /\ computes s [inf up; inf (negb up)] (inf false) /\
     exists v, is_number v x /\ computes s [inf true; a] v /\ computes s [a; inf true] v).
Proof.
  intros [Na (q & Eq & Hq)]. pose proof (sign_zero q x Hq) as Sg.
  assert (Bl : forall fb fi ff w, binary fb fi ff (EFloat w) a = Ok (EFloat (ff w (Fin q)))) by (intros; destruct a as [z|[p| | |]|?]; simpl in Na; try contradiction; injection Eq as <-; reflexivity).
  assert (Br : forall fb fi ff w, binary fb fi ff a (EFloat w) = Ok (EFloat (ff (Fin q) w))) by (intros; destruct a as [z|[p| | |]|?]; simpl in Na; try contradiction; injection Eq as <-; reflexivity).
  assert (Ab : nlt (Fin c0001) (nabs (Fin q)) = negb (Qle_bool (Qabs x) c0001)).
  { cbn [nabs]. unfold nlt; cbn [negb is_nan andb]; rewrite ?lt_le. f_equal. apply Qle_bool_eq; [rewrite Hq|]; reflexivity. }
  (split; [|split; [|split; [|split; [|split; [|split; [|split; [|split]]]]]]]); intros s Hs; (destruct Hs as [<-|[<-|[]]]); cbn zeta.
  all : try (repeat (split; [|try (exists (EFloat (Fin q)); split; [split; [exact I|exists q; split; [reflexivity|exact Hq]]|])])).
  all : comp.
  all : cbn [lookup base_table String.eqb Ascii.eqb Bool.eqb ap2 ap1 inf nan].
  all : try (unfold inf, np_add2, np_subtract, np_multiply, np_maximum, np_minimum; rewrite ?Bl, ?Br; destruct up; reflexivity).
  all : try (unfold inf, np_add2, np_subtract, np_multiply, np_maximum, np_minimum; rewrite ?Bl, ?Br; reflexivity).
  all : try (destruct up; reflexivity).
  all : try (unfold inf, nan, np_multiply; rewrite ?Bl, ?Br; destruct up; cbn [nmul nsign Bool.eqb negb]; rewrite Sg; destruct (Qeq_bool x 0), (above_zero x); reflexivity).
  all : try (unfold f_div; rewrite Eq; destruct up; cbn; reflexivity).
  all : unfold f_div, inf; rewrite Eq, Ab; destruct (Qle_bool (Qabs x) c0001) eqn:El; [destruct up; reflexivity|]; cbn [negb el_num].
  all : assert (Z0 : Qeq_bool x 0 = false) by
    (destruct (Qeq_bool x 0) eqn:E; [|reflexivity]; apply Qeq_bool_iff in E; rewrite (Qle_bool_eq (Qabs x) 0 c0001 c0001) in El; [discriminate|rewrite E; reflexivity|reflexivity]).
  all : unfold npdiv; rewrite (Qeq_bool_eq _ _ Hq), Z0; destruct up; cbn [nmul nsign]; rewrite Sg, Z0; destruct (above_zero x); reflexivity.
Qed.

Lemma nan_passed_on b : (forall c, b <> EBool c) -> forall s, In s ["f_add"; "add2floats"; "f_sub"; "sub2floats"; "f_mul"; "mul2floats"; "f_max"; "max2floats"; "f_min"; "min2floats"]%string ->
  computes s [nan; b] nan /\ computes s [b; nan] nan.
Proof.
  intros Hb s Hs. cbn in Hs. repeat (destruct Hs as [<-|Hs]; [split; comp; destruct b as [z|[q| | |]|c]; try (exfalso; eapply Hb; reflexivity); reflexivity|]). destruct Hs.
Qed.
