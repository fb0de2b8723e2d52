(** Proofs about the functions offered for program trees. *)
From Coq Require Import QArith Qabs Lqa Lia.
From Verif.Proofs Require Export Lib TreeP TreeExecP.
From Verif.Spec Require Export TreeSpec BaseSpec.
From Verif.Model Require Import BaseFns.
Open Scope nat_scope.

Definition fins (a : el) (q : Q) : Prop := el_num a = Fin q.

Lemma number_fin a : number a -> exists q, el_num a = Fin q.
Proof. destruct a as [z|[q| | |]|b]; simpl; intros H; try contradiction; eexists; reflexivity. Qed.

Lemma c0001_pos : (0 < c0001)%Q.
Proof. reflexivity. Qed.

(** ** Division *)

Lemma div_cases a b x y : el_num a = Fin x -> el_num b = Fin y ->
  ((Qabs y <= c0001)%Q /\ f_div a b = Ok (EFloat (Fin 0))) \/ ((c0001 < Qabs y)%Q /\ ~ (y == 0)%Q /\ f_div a b = Ok (EFloat (Fin (x / y)))).
Proof.
  intros Ha Hb. unfold f_div. rewrite Ha, Hb. cbn [nabs nlt].
  destruct (Qlt_b c0001 (Qabs y)) eqn:E.
  - right. apply Qlt_b_spec in E. split; [exact E|].
    assert (N : ~ (y == 0)%Q). { intros Z. rewrite Z in E. apply (Qlt_irrefl 0). eapply Qlt_trans; [apply c0001_pos|exact E]. }
    split; [exact N|]. unfold npdiv. destruct (Qeq_bool y 0) eqn:Z; [apply Qeq_bool_iff in Z; contradiction|]. reflexivity.
  - left. apply Qlt_b_false in E. split; [exact E|reflexivity].
Qed.

Lemma division a b x y : el_num a = Fin x -> el_num b = Fin y ->
  exists q, f_div a b = Ok (EFloat (Fin q)) /\ ((Qabs y <= c0001)%Q -> (q == 0)%Q) /\ ((c0001 < Qabs y)%Q -> (q * y == x)%Q) /\
    (Qabs q * c0001 <= Qabs x)%Q.
Proof.
  intros Ha Hb. destruct (div_cases a b x y Ha Hb) as [(L & E)|(L & N & E)]; rewrite E.
  - exists 0%Q. split; [reflexivity|]. split; [reflexivity|]. split; [intros; lra|]. pose proof (Qabs_nonneg x). simpl. lra.
  - exists (x / y)%Q. split; [reflexivity|]. split; [intros; lra|]. split; [intros _; field; exact N|].
    apply Qle_trans with (Qabs (x / y) * Qabs y)%Q.
    + pose proof (Qabs_nonneg (x / y)).
      assert (c0001 * Qabs (x / y) <= Qabs y * Qabs (x / y))%Q by (apply Qmult_le_compat_r; lra). lra.
    + rewrite <- Qabs_Qmult. apply Qle_lteq. right. apply Qabs_wd. field. exact N.
Qed.

Lemma inverse a x : el_num a = Fin x ->
  exists q, f_inv a = Ok (EFloat (Fin q)) /\ ((Qabs x <= c0001)%Q -> (q == 0)%Q) /\ ((c0001 < Qabs x)%Q -> (q * x == 1)%Q).
Proof.
  intros H. destruct (division (EInt 1) a 1 x eq_refl H) as (q & E & A & B & _). exists q. auto.
Qed.

(** ** Root and logarithm *)

Lemma nabs_nonneg x : is_nan x = false -> nlt (nabs x) (Fin 0) = false.
Proof. destruct x as [q| | |]; simpl; intros H; try discriminate; auto. apply Qlt_b_false, Qabs_nonneg. Qed.

Lemma sqrt_domain s1 s2 a : is_nan (el_num a) = false -> (forall v, is_nan v = false -> nlt v (Fin 0) = false -> s1 v = s2 v) ->
  f_sqrt s1 a = f_sqrt s2 a.
Proof.
  intros N H. unfold f_sqrt. rewrite H; [reflexivity| |].
  - destruct a as [z|x|b]; simpl in *; [reflexivity|destruct x; simpl in *; congruence|reflexivity].
  - destruct a as [z|x|b]; simpl in *.
    + apply Qlt_b_false. unfold Qle. simpl. pose proof (Z.abs_nonneg z). lia.
    + apply nabs_nonneg. exact N.
    + destruct b; reflexivity.
Qed.

Lemma log_domain l1 l2 a : (forall v, nlt (Fin c0001) v = true -> l1 v = l2 v) -> f_log l1 a = f_log l2 a.
Proof.
  intros H. unfold f_log. destruct (nlt (Fin c0001) (nabs (el_num a))) eqn:E; [rewrite H by exact E|]; reflexivity.
Qed.

Lemma log_default l a x : el_num a = Fin x -> (Qabs x <= c0001)%Q -> f_log l a = Ok (EFloat (Fin 0)).
Proof.
  intros Ha L. unfold f_log. rewrite Ha. cbn [nabs nlt]. apply Qlt_b_false in L. rewrite L. reflexivity.
Qed.

Lemma log_value l a x : el_num a = Fin x -> (c0001 < Qabs x)%Q -> f_log l a = Ok (EFloat (l (Fin (Qabs x)))).
Proof.
  intros Ha L. unfold f_log. rewrite Ha. cbn [nabs nlt]. apply Qlt_b_spec in L. rewrite L. reflexivity.
Qed.

(** ** Trees stay finite *)

Section Finite.
  Variables (us ul usin ucos utan : num -> num).
  Hypothesis FF : finite_functions us ul usin ucos utan.

  Lemma num_binary fb fi ff a b : number a -> number b -> (forall x y, exists z, ff (Fin x) (Fin y) = Fin z) ->
    exists v, binary fb fi ff a b = Ok v /\ number v.
  Proof.
    intros Na Nb H. destruct a as [z|[q| | |]|b0], b as [z'|[q'| | |]|b1]; simpl in *; try contradiction;
      (eexists; split; [reflexivity|]); simpl; auto; try (destruct (H q q') as [? ->]; exact I);
      [destruct (H (inject_Z z) q') as [? E]|destruct (H q (inject_Z z')) as [? E]]; unfold nof_Z; rewrite E; exact I.
  Qed.

  Lemma num_where c a b : number a -> number b -> number (np_where c a b).
  Proof.
    intros Na Nb. destruct a as [z|[q| | |]|b0], b as [z'|[q'| | |]|b1], c; simpl in *; try contradiction; auto.
  Qed.

  Lemma num_float x : is_fin x = true -> number (EFloat x).
  Proof. destruct x; simpl; auto; discriminate. Qed.

  Lemma max_fin x y : exists z, nmaximum (Fin x) (Fin y) = Fin z.
  Proof. unfold nmaximum. simpl. destruct (Qlt_b x y); eauto. Qed.
  Lemma min_fin x y : exists z, nminimum (Fin x) (Fin y) = Fin z.
  Proof. unfold nminimum. simpl. destruct (Qlt_b y x); eauto. Qed.

  Lemma num_div a b : number a -> number b -> exists v, f_div a b = Ok v /\ number v.
  Proof.
    intros Na Nb. destruct (number_fin a Na) as [x Ex], (number_fin b Nb) as [y Ey].
    destruct (division a b x y Ex Ey) as (q & E & _). exists (EFloat (Fin q)). split; [exact E|exact I].
  Qed.

  Lemma num_sqrt a : number a -> exists v, f_sqrt us a = Ok v /\ number v.
  Proof.
    intros Na. eexists. split; [reflexivity|]. destruct a as [z|[q| | |]|b]; simpl in *; try contradiction.
    - destruct (ff_sqrt _ _ _ _ _ FF (inject_Z (Z.abs z))) as [y E].
      { unfold Qle. simpl. pose proof (Z.abs_nonneg z). lia. }
      unfold nof_Z. rewrite E. exact I.
    - destruct (ff_sqrt _ _ _ _ _ FF (Qabs q)) as [y E]; [apply Qabs_nonneg|]. rewrite E. exact I.
  Qed.

  Lemma num_log a : number a -> exists v, f_log ul a = Ok v /\ number v.
  Proof.
    intros Na. destruct (number_fin a Na) as [x Ex].
    destruct (Qlt_le_dec c0001 (Qabs x)) as [L|L].
    - rewrite (log_value ul a x Ex L). destruct (ff_log _ _ _ _ _ FF (Qabs x)) as [y E].
      { eapply Qlt_trans; [apply c0001_pos|exact L]. }
      rewrite E. eexists; split; [reflexivity|exact I].
    - rewrite (log_default ul a x Ex L). eexists; split; [reflexivity|exact I].
  Qed.

  Lemma num_un u a : (forall x, exists y, u (Fin x) = Fin y) -> number a -> exists v, un u [a] = Ok v /\ number v.
  Proof.
    intros H Na. destruct (number_fin a Na) as [x Ex]. simpl. rewrite Ex. destruct (H x) as [y ->]. eexists; split; [reflexivity|exact I].
  Qed.

  Lemma num_abs a : number a -> exists v, Ok (np_absolute a) = Ok v /\ number v.
  Proof. intros Na. eexists; split; [reflexivity|]. destruct a as [z|[q| | |]|b]; simpl in *; auto. Qed.

  Lemma num_neg a : number a -> exists v, np_negative a = Ok v /\ number v.
  Proof. destruct a as [z|[q| | |]|b]; simpl; intros Na; try contradiction; eexists; (split; [reflexivity|exact I]). Qed.

  Definition ok (r : res el) : Prop := exists v, r = Ok v /\ number v.

  Lemma numeric_ok f args : In (f_name f, arity f) numeric -> length args = arity f -> Forall number args ->
    ok (base_sem us ul usin ucos utan f args).
  Proof.
    unfold ok, base_sem. destruct f as [fid nm ps rt]. unfold arity. cbn [f_name f_params].
    generalize (length ps). intros k H L F. 
    cbn [numeric In] in H.
    repeat (destruct H as [H|H]; [injection H as <- <-; cbn -[f_div f_log f_sqrt f_inv np_negative un];
       repeat (destruct args as [|? args]; try discriminate L); clear L;
       repeat match goal with HF : Forall number (_ :: _) |- _ => inversion HF; clear HF; subst end;
       first [ now apply num_div | now apply num_sqrt | now apply num_log | now (apply num_un; [apply FF|]) | now apply num_abs | now apply num_neg
             | now (apply num_div; [exact I|])
             | now (apply num_binary; auto; simpl; eauto using max_fin, min_fin)
             | (eexists; split; [reflexivity|]; now apply num_where)
             | (eexists; split; [reflexivity|]; exact I) ]|]).
    contradiction.
  Qed.

  Lemma eval_numeric (const : tval -> el) (env : string -> option el) t :
    saturated t -> (forall f, In (FNode f) (flatten t) -> In (f_name f, arity f) numeric) ->
    (forall v a, In (TNode v a) (flatten t) -> number (eval_terminal el const env v)) ->
    ok (eval el (base_sem us ul usin ucos utan) const env t).
  Proof.
    induction t as [n ks IH] using rose_ind. intros [Hl Hs] Hf Ht. rewrite All_In in IH, Hs. destruct n as [f|v a].
    - cbn [eval].
      assert (C : exists vs, collect el (map (eval el (base_sem us ul usin ucos utan) const env) ks) = Ok vs /\ length vs = length ks /\ Forall number vs).
      { assert (K : forall k, In k ks -> ok (eval el (base_sem us ul usin ucos utan) const env k)).
        { intros k Hk. apply IH; auto.
          - intros g Hg. apply Hf. right. apply in_flat_map. eauto.
          - intros v a Hv. apply (Ht v a). right. apply in_flat_map. eauto. }
        clear - K. induction ks as [|k ks IHk]; [exists []; simpl; auto|].
        destruct (K k (or_introl eq_refl)) as (v & E & N). destruct IHk as (vs & E2 & L & F); [intros; apply K; right; assumption|].
        exists (v :: vs). simpl. rewrite E, E2. simpl. auto. }
      destruct C as (vs & -> & L & F). apply numeric_ok; [apply Hf; left; reflexivity| |exact F]. rewrite L, Hl. reflexivity.
    - cbn [eval]. eexists. split; [reflexivity|]. apply (Ht v a). left. reflexivity.
  Qed.
End Finite.

Lemma argument_number kw s v : Forall (fun e => number (snd e)) kw -> argument kw s = Some v -> number v.
Proof.
  induction kw as [|[k x] kw IH]; intros F H; [discriminate|]. inversion F; subst. simpl in H. destruct (String.eqb s k); [injection H as <-; assumption|auto].
Qed.

Lemma argument_some {val} (kw : list (string * val)) s : In s (map fst kw) -> exists v, argument kw s = Some v.
Proof.
  induction kw as [|[k x] kw IH]; simpl; intros []; subst; [rewrite String.eqb_refl; eauto|]. destruct (String.eqb s k); eauto.
Qed.

Lemma const_number b x tag : is_fin x = true -> number (el_const (TNum b x tag)).
Proof. destruct x; try discriminate. intros _. destruct b; simpl; [exact I|]. destruct (_ =? _)%Z; exact I. Qed.

Lemma finite_trees us ul usin ucos utan t rt kw : finite_functions us ul usin ucos utan ->
  saturated rt -> flatten rt = t_nodes t -> exact_arguments t kw ->
  (forall f, In (FNode f) (t_nodes t) -> In (f_name f, arity f) numeric) ->
  (forall s a, In (TNode (TVar s) a) (t_nodes t) -> In (TVar s) (map fst (t_tset t))) ->
  finite_constants t -> Forall (fun e => number (snd e)) kw ->
  exists v, execute el (base_sem us ul usin ucos utan) el_const t kw = Ok v /\ number v.
Proof.
  intros FF Hs E X Hf Hv Hc Hk. rewrite (execute_accepts _ _ t rt kw Hs E X).
  apply (eval_numeric us ul usin ucos utan FF); auto.
  - intros f H. apply Hf. rewrite <- E. exact H.
  - intros v a H. rewrite E in H. destruct v as [s|b x tag]; cbn [eval_terminal].
    + pose proof (Hv s a H) as Hin. destruct X as [_ X2]. destruct (X2 _ Hin) as (s' & Es & Hs'). injection Es as <-.
      destruct (argument_some kw s Hs') as [v Ev]. rewrite Ev. eapply argument_number; eauto.
    + apply const_number. eapply Hc; eauto.
Qed.

(** ** Logic *)

Lemma logic_bits x y :
  f_and (EInt (b2z x)) (EInt (b2z y)) = Ok (EInt (b2z (x && y))) /\
  f_or (EInt (b2z x)) (EInt (b2z y)) = Ok (EInt (b2z (x || y))) /\
  f_not (EInt (b2z x)) = Ok (EInt (b2z (negb x))).
Proof. destruct x, y; repeat split. Qed.

Lemma ite_bits t z w : f_if_then_else (EInt (b2z t)) (EInt z) (EInt w) = Ok (EInt (if t then z else w)).
Proof. destruct t; reflexivity. Qed.

Lemma not_bits a : exists b, f_not a = Ok (EInt (b2z b)) /\ b = negb (truthy a).
Proof. eexists; split; reflexivity. Qed.

Lemma where_swap c a b : np_where c a b = np_where (negb c) b a.
Proof. destruct a, b, c; reflexivity. Qed.

Lemma lte_gt x y z w : is_nan (el_num x) = false -> is_nan (el_num y) = false ->
  f_iflte x y z w = f_ifgt x y w z.
Proof.
  intros Nx Ny. unfold f_iflte, f_ifgt. rewrite nle_not_lt by assumption. rewrite where_swap, negb_involutive. reflexivity.
Qed.

Lemma lte0_gt0 x z w : is_nan (el_num x) = false -> f_iflte0 x z w = f_ifgt0 x w z.
Proof.
  intros Nx. unfold f_iflte0, f_ifgt0. rewrite nle_not_lt by auto. rewrite where_swap, negb_involutive. reflexivity.
Qed.

Lemma typed_de_morgan x y a na nx ny o : and2 x y = Ok a -> f_not a = Ok na -> f_not x = Ok nx -> f_not y = Ok ny -> or2 nx ny = Ok o ->
  truthy na = truthy o.
Proof.
  intros A B C D E. injection A as <-. injection B as <-. injection C as <-. injection D as <-. injection E as <-.
  simpl. destruct (truthy x), (truthy y); reflexivity.
Qed.
