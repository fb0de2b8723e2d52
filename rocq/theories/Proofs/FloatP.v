(** * Lemmas about program trees in double precision (C94). *)
From Coq Require Import Lia QArith Lqa Qabs.
From Verif.Proofs Require Import DoubleP ExamplesP TargetP TreeP TreeExecP CompleteTreeP ProgramP BaseP SetupP CheckP ClassP RegP ColumnsP LeadP InterruptP SkClassifierP SkRegressorP.
From Verif.Model Require Import Double Num Fitness Tree World Creators Evolution Statistics Execute Setup Make BaseFns SkClassifier SkRegressor Float Regressor.
From Verif.Spec Require Import WorldSpec FitnessSpec TreeSpec SelSpec EvoSpec CompleteSpec ShowSpec StatSpec BaseSpec RegSpec ClassSpec SkClassifierSpec FloatSpec.
Open Scope string_scope.
Open Scope nat_scope.
Open Scope list_scope.

(** ** Rounding *)

Lemma floor_unique q z : (inject_Z z <= q)%Q -> (q < inject_Z (z + 1))%Q -> Qfloor q = z.
Proof.
  intros A B. pose proof (Qfloor_le q) as C. pose proof (Qlt_floor q) as D.
  assert (inject_Z z < inject_Z (Qfloor q + 1))%Q by lra. assert (inject_Z (Qfloor q) < inject_Z (z + 1))%Q by lra. rewrite <- Zlt_Qlt in *. lia.
Qed.

Lemma round_even_opp q : round_even (- q) = (- round_even q)%Z.
Proof.
  pose proof (Qfloor_le q) as A. pose proof (Qlt_floor q) as B. set (f := Qfloor q) in *. rewrite inject_Z_plus in B. change (inject_Z 1) with 1%Q in B.
  destruct (Qeq_dec q (inject_Z f)) as [E|E].
  { rewrite E. rewrite <- inject_Z_opp, !round_even_Z. reflexivity. }
  assert (A' : (inject_Z f < q)%Q) by (apply Qle_lteq in A as [A|A]; [exact A|symmetry in A; contradiction]).
  assert (F : Qfloor (- q) = (- f - 1)%Z).
  { apply floor_unique; rewrite ?inject_Z_plus; unfold Z.sub; rewrite ?inject_Z_plus, ?inject_Z_opp; change (inject_Z 1) with 1%Q; lra. }
  unfold round_even. fold f. rewrite F. set (d := (- q - inject_Z (- f - 1))%Q).
  assert (D : (d == 1 - (q - inject_Z f))%Q) by (unfold d, Z.sub; rewrite inject_Z_plus, !inject_Z_opp; ring). clearbody d. set (e := (q - inject_Z f)%Q) in *. clearbody e.
  destruct (Qcompare_spec e (1 # 2)) as [H|H|H]; destruct (Qcompare_spec d (1 # 2)) as [K|K|K]; try (exfalso; lra); try lia.
  replace (- f - 1)%Z with (- (f + 1))%Z by lia. rewrite Z.even_opp. rewrite Z.add_1_r, Z.even_succ, <- Z.negb_even. destruct (Z.even f); cbn [negb]; lia.
Qed.

Lemma double_opp q : (double (- q) == - double q)%Q.
Proof.
  unfold double. destruct (Qeq_bool q 0) eqn:E.
  - apply Qeq_bool_iff in E. replace (Qeq_bool (- q) 0) with true by (symmetry; apply Qeq_bool_iff; lra). reflexivity.
  - apply Qeq_bool_neq in E. destruct (Qeq_bool (- q) 0) eqn:E'; [apply Qeq_bool_iff in E'; lra|]. replace (Qabs (- q)) with (Qabs q) by (destruct q as [n d]; cbn; rewrite Z.abs_opp; reflexivity). set (u := ulp_exp (Qabs q)).
    assert (D : (- q / 2 ^ u == - (q / 2 ^ u))%Q) by (unfold Qdiv; ring). rewrite D, round_even_opp, inject_Z_opp. ring.
Qed.

(** The form of a rounded positive number. *)
Lemma double_form q : (0 < q)%Q -> exists m, (0 <= m <= 2 ^ 53)%Z /\ (double q == inject_Z m * 2 ^ ulp_exp q)%Q.
Proof.
  intros P. exists (round_even (q / 2 ^ ulp_exp q)). split; [|apply double_pos, P]. split.
  - rewrite <- (round_even_Z 0). apply round_even_mono. apply Qle_shift_div_l; [apply two_pos|]. change (inject_Z 0) with 0%Q. lra.
  - rewrite <- (round_even_Z (2 ^ 53)). apply round_even_mono. rewrite two_Z by lia. apply Qle_shift_div_r; [apply two_pos|]. rewrite <- two_add.
    destruct (ilog2_spec q P) as [_ B]. apply Qlt_le_weak. eapply Qlt_le_trans; [exact B|]. apply two_le. unfold ulp_exp. lia.
Qed.

Lemma double_power e : (-1074 <= e)%Z -> (double (2 ^ e) == 2 ^ e)%Q.
Proof. intros H. pose proof (double_exact 1 e ltac:(lia) H) as D. rewrite Qmult_1_l in D. exact D. Qed.

Lemma too_large_power : (too_large == 2 ^ 1024)%Q.
Proof. unfold too_large. apply two_Z. lia. Qed.

(** Below the largest double the exponent is small. *)
Lemma ulp_small q : (0 < q)%Q -> (double q < too_large)%Q -> (ulp_exp q <= 971)%Z.
Proof.
  intros P L. destruct (Z.le_gt_cases (ulp_exp q) 971) as [C|C]; [exact C|]. exfalso. assert (I : (1024 <= ilog2 q)%Z) by (unfold ulp_exp in C; lia).
  destruct (ilog2_spec q P) as [B _]. assert (Q : (2 ^ 1024 <= q)%Q) by (eapply Qle_trans; [apply two_le, I|exact B]).
  pose proof (double_mono (2 ^ 1024) q (Qlt_le_weak _ _ (two_pos _)) Q) as M. rewrite double_power in M by lia. rewrite too_large_power in L. lra.
Qed.

Lemma rounded_double x : is_double (rounded x).
Proof.
  intros r E. destruct x as [q| | |]; try discriminate. cbn [rounded] in E.
  destruct (Qle_bool too_large (double q)) eqn:T1; [discriminate|]. destruct (Qle_bool (double q) (- too_large)) eqn:T2; [discriminate|]. injection E as <-.
  assert (U : (double q < too_large)%Q) by (apply Qnot_le_lt; intros H; apply Qle_bool_iff in H; congruence).
  assert (V : (- too_large < double q)%Q) by (apply Qnot_le_lt; intros H; apply Qle_bool_iff in H; congruence).
  assert (B : (Qabs (double q) < too_large)%Q) by (apply Qabs_Qlt_condition; split; lra).
  destruct (Qlt_le_dec 0 q) as [P|P]; [|destruct (Qlt_le_dec q 0) as [N|N]].
  - destruct (double_form q P) as (m & Hm & Em). exists m, (ulp_exp q). split; [exact Hm|]. split; [split; [unfold ulp_exp; lia|apply ulp_small; assumption]|]. auto.
  - assert (P' : (0 < - q)%Q) by lra. destruct (double_form (- q) P') as (m & Hm & Em). rewrite double_opp in Em. exists m, (ulp_exp (- q)). split; [exact Hm|].
    split; [split; [unfold ulp_exp; lia|apply ulp_small; [exact P'|]; rewrite double_opp; lra]|]. split; [right; lra|exact B].
  - assert (Z : (q == 0)%Q) by lra. exists 0%Z, 0%Z. split; [lia|]. split; [lia|]. split; [left|exact B]. rewrite (double_0 q Z). reflexivity.
Qed.

(** Doubles stay as they are. *)
Lemma rounded_exact x : is_double x -> neq_num (rounded x) x = true \/ rounded x = x.
Proof.
  intros H. destruct x as [q| | |]; auto. left. destruct (H q eq_refl) as (m & e & Hm & He & Q & B).
  assert (D : (double q == q)%Q) by (destruct Q as [Q|Q]; rewrite Q; [apply double_exact|apply double_exact_neg]; lia).
  apply Qabs_Qlt_condition in B as [B1 B2]. cbn [rounded].
  destruct (Qle_bool too_large (double q)) eqn:T1; [apply Qle_bool_iff in T1; rewrite D in T1; lra|].
  destruct (Qle_bool (double q) (- too_large)) eqn:T2; [apply Qle_bool_iff in T2; rewrite D in T2; lra|]. cbn [neq_num]. apply Qeq_bool_iff. exact D.
Qed.

(** The relative error. *)
Lemma rounded_near q r : rounded (Fin q) = Fin r -> (Qabs (r - q) <= Qabs q * 2 ^ (-53) + 2 ^ (-1075))%Q.
Proof.
  intros E. cbn [rounded] in E. destruct (Qle_bool too_large (double q)); [discriminate|]. destruct (Qle_bool (double q) (- too_large)); [discriminate|]. injection E as <-.
  destruct (Qlt_le_dec q 0) as [N|N].
  - assert (P : (0 <= - q)%Q) by lra. pose proof (double_error (- q) P) as D. rewrite double_opp in D.
    setoid_replace (double q - q)%Q with (- (- double q - - q))%Q by ring. rewrite Qabs_opp. rewrite (Qabs_neg q) by lra. exact D.
  - rewrite (Qabs_pos q N). apply double_error, N.
Qed.

(** It overflows only from 2^1024 on, up to half a last place. *)
Lemma rounded_finite q : (Qabs q < 2 ^ 1024 - 2 ^ 970)%Q -> exists r, rounded (Fin q) = Fin r.
Proof.
  intros H. assert (K : forall x, (0 <= x)%Q -> (x < 2 ^ 1024 - 2 ^ 970)%Q -> (double x < too_large)%Q).
  { intros x P L. set (top := (inject_Z (2 ^ 53 - 1) * 2 ^ 971)%Q).
    destruct (Qlt_le_dec x top) as [C|C].
    - pose proof (double_mono x top P (Qlt_le_weak _ _ C)) as M. assert (D : (double top == top)%Q) by (apply double_exact; lia).
      assert (T : (top < too_large)%Q) by (vm_compute; reflexivity). rewrite D in M. lra.
    - (* between the largest double and the middle to the next *)
      assert (P0 : (0 < x)%Q) by (eapply Qlt_le_trans; [|exact C]; vm_compute; reflexivity).
      assert (I : ilog2 x = 1023%Z).
      { destruct (ilog2_spec x P0) as [I1 I2]. assert (T1 : (2 ^ 1023 <= top)%Q) by (vm_compute; discriminate). assert (T2 : (2 ^ 970 > 0)%Q) by apply two_pos.
        assert (J1 : (2 ^ 1023 < 2 ^ (ilog2 x + 1))%Q) by lra. apply two_lt_inv in J1. assert (J2 : (2 ^ ilog2 x < 2 ^ 1024)%Q) by lra. apply two_lt_inv in J2. lia. }
      rewrite double_pos by exact P0. assert (U : ulp_exp x = 971%Z) by (unfold ulp_exp; rewrite I; reflexivity). rewrite U.
      assert (R : (round_even (x / 2 ^ 971) < 2 ^ 53)%Z).
      { assert (Y : (x / 2 ^ 971 < inject_Z (2 ^ 53) - (1 # 2))%Q).
        { apply Qlt_shift_div_r; [apply two_pos|]. eapply Qlt_le_trans; [exact L|]. vm_compute. discriminate. }
        pose proof (round_even_near (x / 2 ^ 971)) as [N1 _]. rewrite Zlt_Qlt. lra. }
      eapply Qle_lt_trans; [apply Qmult_le_compat_r; [rewrite <- Zle_Qle; apply Z.lt_le_pred, R|apply Qlt_le_weak, two_pos]|]. vm_compute. reflexivity. }
  apply Qabs_Qlt_condition in H as [H1 H2]. cbn [rounded].
  assert (B : (double q < too_large)%Q /\ (- too_large < double q)%Q).
  { destruct (Qlt_le_dec q 0) as [N|N].
    - assert (D : (double (- q) < too_large)%Q) by (apply K; lra). rewrite double_opp in D. pose proof (double_nonneg (- q)) as D2. rewrite double_opp in D2.
      assert (0 < too_large)%Q by (vm_compute; reflexivity). assert (0 <= - q)%Q by lra. specialize (D2 H0). lra.
    - pose proof (K q N H2). pose proof (double_nonneg q N). assert (0 < too_large)%Q by (vm_compute; reflexivity). lra. }
  destruct B as [B1 B2]. destruct (Qle_bool too_large (double q)) eqn:T1; [apply Qle_bool_iff in T1; lra|].
  destruct (Qle_bool (double q) (- too_large)) eqn:T2; [apply Qle_bool_iff in T2; lra|]. eauto.
Qed.

(** ** Functions *)

Lemma base_rows us ul usin ucos utan fset : numeric_functions fset -> row_functions fset (base_array us ul usin ucos utan) (base_scalar us ul usin ucos utan).
Proof. intros H t n Hf. apply base_elementwise. intros f Hin. apply H, Hf, Hin. Qed.

Lemma double_rows us ul usin ucos utan fset : numeric_functions fset -> row_functions fset (double_array us ul usin ucos utan) (double_scalar us ul usin ucos utan).
Proof.
  intros H t n Hf f args Hin L F. apply of_rows_total; [|exact F]. intros xs Lx. unfold double_scalar, base_scalar.
  rewrite (numeric_floats us ul usin ucos utan f xs (H f (Hf f Hin))) by congruence. cbn [rbind]. destruct (base_sem _ _ _ _ _ _ _); reflexivity.
Qed.

(** What a program computes is a double if the table and the constants have doubles. *)
Lemma eval_doubles us ul usin ucos utan env rt x : saturated rt -> (forall s y, env s = Some y -> is_double y) ->
  (forall b y tag a, In (TNode (TNum b y tag) a) (flatten rt) -> is_double y) -> (forall s a, In (TNode (TVar s) a) (flatten rt) -> env s <> None) ->
  eval num (fun f xs => Ok (double_scalar us ul usin ucos utan f xs)) number_const env rt = Ok x -> is_double x.
Proof.
  intros Hs He Hc Hv. apply (eval_class is_double); [exact Hs|..].
  - intros f xs _ _ _. apply rounded_double.
  - intros [s|b y tag] a Hin; cbn [eval_terminal].
    + specialize (Hv s a Hin). destruct (env s) as [y|] eqn:E; [|congruence]. apply (He s y E).
    + cbn [number_const]. eapply Hc. exact Hin.
Qed.

Section Answers.
  Variables (fsem : func -> list nval -> res nval) (fs : func -> list num -> num) (unspecified : num -> num) (t0 : tree).
  Hypothesis RF : row_functions (t_fset t0) fsem fs.
  Notation cst := (fun v => Scalar (number_const v)).

  Lemma tree_answers t rt X : float_table X -> map fst (t_tset t0) = create_terminal_set X -> same_primitives t0 t -> saturated rt -> flatten rt = t_nodes t ->
    (forall nd, In nd (t_nodes t) -> program_node t0 nd) ->
    exists p, execute_array fsem cst unspecified t X = Ok (Column p) /\ answers fs rt X p.
  Proof.
    intros FX Ht (P1 & P2 & P3 & P4) Hs E Hq. pose proof FX as (F1 & F2 & F3 & F4).
    destruct (execute_array_rows fsem fs number_const unspecified t rt X Hs E) as (l & El & Ll & Hl); auto.
    - now rewrite P2.
    - intros c Hc. apply (F4 c Hc).
    - apply RF. intros f H. apply (Hq _ H).
    - exists l. split; [exact El|]. split; [exact Ll|exact Hl].
  Qed.
End Answers.

(** ** Classifiers *)

Lemma rounded_unit q : (0 <= q <= 1)%Q -> rounded (Fin q) = Fin (double q).
Proof.
  intros H. assert (L : (double q <= 1)%Q) by (pose proof (double_mono q 1 (proj1 H) (proj2 H)) as M; change (double 1) with (double (inject_Z 1)) in M; rewrite double_Z in M by lia; exact M).
  pose proof (double_nonneg q (proj1 H)) as P. assert (T : (1 < too_large)%Q) by (vm_compute; reflexivity). cbn [rounded].
  destruct (Qle_bool too_large (double q)) eqn:T1; [apply Qle_bool_iff in T1; lra|]. destruct (Qle_bool (double q) (- too_large)) eqn:T2; [apply Qle_bool_iff in T2; lra|]. reflexivity.
Qed.

Lemma count_pos n : 0 < n -> (0 < inject_Z (Z.of_nat n))%Q.
Proof. intros H. change 0%Q with (inject_Z 0). rewrite <- Zlt_Qlt. lia. Qed.

Lemma share_quotient k n m : 0 < n -> share k n m -> (m == inject_Z (Z.of_nat k) / inject_Z (Z.of_nat n))%Q.
Proof. intros Hn S. pose proof (count_pos n Hn). unfold share in S. rewrite <- S. field. lra. Qed.

Lemma rounded_value ys l : ys <> [] -> length ys = length l ->
  exists m, rounded_accuracy (Some (map label ys)) (map nof_nat l) = Ok (Fin m) /\ rounded_share (hits ys l) (length ys) m.
Proof.
  intros N L. destruct (accuracy_value ys l N L) as (m & E & S & B & _). exists (double m). unfold rounded_accuracy. rewrite E. cbn [rbind]. rewrite (rounded_unit m B).
  split; [reflexivity|]. unfold rounded_share. apply double_comp. apply share_quotient; [destruct ys; [congruence|cbn; lia]|exact S].
Qed.

(** Up to 2^50 rows rounding keeps the order of shares. *)
Lemma rounded_share_le k k' n m m' : 0 < n -> (Z.of_nat n <= 2 ^ 50)%Z -> k <= n -> k' <= n -> rounded_share k n m -> rounded_share k' n m' -> ((m <= m')%Q <-> k <= k').
Proof.
  unfold rounded_share. intros Hn Hb K K' -> ->. pose proof (count_pos n Hn) as P. set (d := inject_Z (Z.of_nat n)) in *. split.
  - intros L. destruct (Nat.le_gt_cases k k') as [C|C]; [exact C|]. exfalso.
    assert (B : forall j, j <= n -> (0 <= inject_Z (Z.of_nat j) / d <= 1)%Q).
    { intros j Hj. split; [apply Qle_shift_div_l; [exact P|]|apply Qle_shift_div_r; [exact P|]]; rewrite ?Qmult_0_l, ?Qmult_1_l.
      - change 0%Q with (inject_Z 0). rewrite <- Zle_Qle. lia.
      - unfold d. rewrite <- Zle_Qle. lia. }
    destruct (B k K) as [B1 B2]. destruct (B k' K') as [B3 B4]. pose proof (double_error _ B1) as E. pose proof (double_error _ B3) as E'.
    apply Qabs_Qle_condition in E as [E _]. apply Qabs_Qle_condition in E' as [_ E'].
    assert (G : (inject_Z (Z.of_nat k') / d + 1 / d <= inject_Z (Z.of_nat k) / d)%Q).
    { setoid_replace (inject_Z (Z.of_nat k') / d + 1 / d)%Q with (inject_Z (Z.of_nat k' + 1) / d)%Q by (rewrite inject_Z_plus; change (inject_Z 1) with 1%Q; field; lra).
      unfold Qdiv. apply Qmult_le_compat_r; [rewrite <- Zle_Qle; lia|]. apply Qlt_le_weak, Qinv_lt_0_compat, P. }
    assert (S : (2 ^ (-50) <= 1 / d)%Q).
    { apply Qle_shift_div_l; [exact P|]. assert (D : (d <= 2 ^ 50)%Q) by (unfold d; rewrite <- two_Z by lia; rewrite <- Zle_Qle; exact Hb).
      setoid_replace 1%Q with (2 ^ (-50) * 2 ^ 50)%Q by (rewrite <- two_add; reflexivity). rewrite (Qmult_comm (2 ^ (-50)) d), (Qmult_comm (2 ^ (-50)) (2 ^ 50)).
      apply Qmult_le_compat_r; [exact D|apply Qlt_le_weak, two_pos]. }
    set (x := (inject_Z (Z.of_nat k) / d)%Q) in *. set (y := (inject_Z (Z.of_nat k') / d)%Q) in *.
    assert (Sm : (2 ^ (-53) + 2 ^ (-1075) <= (1 # 4) * 2 ^ (-50))%Q) by (vm_compute; discriminate).
    assert (Px : (x * 2 ^ (-53) <= 2 ^ (-53))%Q) by (rewrite <- (Qmult_1_l (2 ^ (-53))) at 2; apply Qmult_le_compat_r; [exact B2|apply Qlt_le_weak, two_pos]).
    assert (Py : (y * 2 ^ (-53) <= 2 ^ (-53))%Q) by (rewrite <- (Qmult_1_l (2 ^ (-53))) at 2; apply Qmult_le_compat_r; [exact B4|apply Qlt_le_weak, two_pos]).
    pose proof (two_pos (-50)) as T. revert E E' L G S Sm Px Py T. generalize (x * 2 ^ (-53))%Q (y * 2 ^ (-53))%Q (2 ^ (-53))%Q (2 ^ (-1075))%Q (2 ^ (-50))%Q (1 / d)%Q (double x) (double y). intros. lra.
  - intros L. apply double_mono.
    + apply Qle_shift_div_l; [exact P|]. rewrite Qmult_0_l. change 0%Q with (inject_Z 0). rewrite <- Zle_Qle. lia.
    + unfold Qdiv. apply Qmult_le_compat_r; [rewrite <- Zle_Qle; lia|apply Qlt_le_weak, Qinv_lt_0_compat, P].
Qed.

(** ** Runs *)

Section Run.
  Variables (fsem : func -> list nval -> res nval) (fs : func -> list num -> num) (unspecified : num -> num) (t0 : tree).
  Hypothesis RF : row_functions (t_fset t0) fsem fs.
  Variables (h : bool) (sched : nat -> list nat) (stats : list stat) (sp : subpop) (X : array) (a : algo) (w : world).
  Hypothesis Hf : fair sched.
  Hypothesis FX : float_table X.
  Hypothesis Htr : a_trace a = [].
  Hypothesis Hst : a_stats a = 0.
  Hypothesis Hfin : a_final a = None.
  Hypothesis Hw : w_heap w = [].
  Hypothesis C : configured h a w sp.
  Hypothesis Hi : sp_inds sp = None.
  Hypothesis Ht : map fst (t_tset t0) = create_terminal_set X.
  Hypothesis Hs : supplied t0 (t_root_type t0).
  Hypothesis Htt : typed_terminals t0 (t_root_type t0).
  Hypothesis Hp : printable_terminals t0.
  Hypothesis He : forall lo hi, t_erc t0 = Some (ErcFloat lo hi) -> exists a b, lo = Fin a /\ hi = Fin b /\ (a <= b)%Q.
  Hypothesis Ho : Forall tree_operator (sp_ops sp).
  Hypothesis Hop : forall op mu sigma, In op (sp_ops sp) -> op_kind op = OErc mu sigma -> is_fin mu = true /\ is_fin sigma = true.
  Hypothesis Hc : Forall (tree_creator t0 (sp_size sp)) (sp_creators sp).
  Hypothesis Hk : Forall (made_with no_penalty) (sp_creators sp).

  Notation cst := (fun v => Scalar (number_const v)).
  Notation G := (trees_of t0 (program_node t0)).

  Lemma float_closed : closed_under G w sp.
  Proof.
    eapply program_run_closed; eauto. 2:{ rewrite Hi. exact Hc. }
    apply program_kind; auto. intros v ty Hv b x tag ->. apply (in_map fst) in Hv. rewrite Ht in Hv. apply in_map_iff in Hv as (i & [=] & _).
  Qed.

  Lemma float_printable g : G g -> printable g.
  Proof. intros [Hg _]. apply (trees_printable t0); auto. Qed.

  Lemma genome_answers t : G (GTree t) -> exists rt, saturated rt /\ flatten rt = t_nodes t /\ (forall nd, In nd (flatten rt) -> program_node t0 nd) /\
    forall X', float_table X' -> length (a_cols X') = length (a_cols X) -> exists p, execute_array fsem cst unspecified t X' = Ok (Column p) /\ answers fs rt X' p.
  Proof.
    intros [(t' & rt & [= <-] & Sp & _ & Sat & Fl & _) Hq]. exists rt. split; [exact Sat|]. split; [exact Fl|].
    assert (Hq' : forall nd, In nd (t_nodes t) -> program_node t0 nd) by (intros nd Hnd; eapply Hq; [reflexivity|exact Hnd]).
    split; [rewrite Fl; exact Hq'|]. intros X' FX' L. apply (tree_answers fsem fs unspecified t0 RF); auto. rewrite (same_columns X X' L). exact Ht.
  Qed.

  (** *** Classifiers *)
  Section Clf.
    Variables (sg : num -> num) (n : nat) (X0 : option array) (y0 : option (list num)) (ys : list Z) (f0 : bool).
    Hypothesis Sg : sigmoid_like sg.
    Hypothesis Hn : 0 < n.
    Hypothesis Ly : length ys = a_rows X.
    Hypothesis Ht' : h = true.

    Notation ev := (evaluate_with sg fsem cst unspecified rounded_accuracy (mkClf Sigmoid n (Some X) (Some (map label ys)))).
    Notation start := (mkClassifier f0 (mkClf Sigmoid n X0 y0) (a, w) []).
    Notation fitted := (clf_fit sg fsem cst unspecified rounded_accuracy sched stats X (map label ys) start).
    Notation judged := (judged_rounded sg n fs t0 X ys).

    Lemma answers_classes rt X' p : answers fs rt X' p -> classes sg n fs rt X' (map (classify sg n) p).
    Proof.
      intros [L H]. split; [rewrite map_length; exact L|]. intros r Hr. destruct (H r Hr) as (x & Ex & Ev). exists x, (classify sg n x).
      split; [exact Ev|]. split; [apply map_nth_error, Ex|]. apply class_of_classify; assumption.
    Qed.

    Lemma float_clf : exists s' b rt l m k,
      fitted = (Ok tt, s') /\ evolve ev sched (length stats) (a, w) = (Ok tt, cl_algo s') /\
      a_best_run (fst (cl_algo s')) = Some b /\ In b (concat (evals (a_trace (fst (cl_algo s'))))) /\
      judged (snd (cl_algo s')) b rt l m /\
      fst (clf_predict sg fsem cst unspecified X s') = Ok (map nof_nat l) /\
      (forall X', float_table X' -> length (a_cols X') = length (a_cols X) ->
         exists l', fst (clf_predict sg fsem cst unspecified X' s') = Ok (map nof_nat l') /\ classes sg n fs rt X' l') /\
      length (evals (a_trace (fst (cl_algo s')))) = S k /\ (a_final (fst (cl_algo s')) = Some k \/ k = a_max_gen a /\ a_final (fst (cl_algo s')) = None) /\
      forall g, In g (evals (a_trace (fst (cl_algo s')))) -> length g = sp_size sp /\
        forall o, In o g -> exists rt' l' m', judged (snd (cl_algo s')) o rt' l' m' /\ (m' <= m)%Q /\
          ((Z.of_nat (length ys) <= 2 ^ 50)%Z -> hits ys l' <= hits ys l).
    Proof.
      assert (Yn : ys <> []) by (intros ->; destruct FX as (_ & _ & P & _); cbn in Ly; lia).
      assert (Out : forall t, G (GTree t) -> exists rt, saturated rt /\ flatten rt = t_nodes t /\ (forall nd, In nd (flatten rt) -> program_node t0 nd) /\
                forall X', float_table X' -> length (a_cols X') = length (a_cols X) ->
                exists l, classify_individual sg fsem cst unspecified Sigmoid n t X' = Ok (map nof_nat l) /\ classes sg n fs rt X' l).
      { intros t Gt. destruct (genome_answers t Gt) as (rt & Sat & Fl & Q & O). exists rt. repeat (split; [assumption|]). intros X' FX' L.
        destruct (O X' FX' L) as (p & Ep & Ap). exists (map (classify sg n) p). split; [|apply answers_classes, Ap]. unfold classify_individual. rewrite Ep. cbn [rbind]. rewrite map_map. reflexivity. }
      assert (Val : forall t, G (GTree t) -> exists rt l m, saturated rt /\ flatten rt = t_nodes t /\ (forall nd, In nd (flatten rt) -> program_node t0 nd) /\
                classify_individual sg fsem cst unspecified Sigmoid n t X = Ok (map nof_nat l) /\ classes sg n fs rt X l /\ rounded_share (hits ys l) (length ys) m /\
                ev (GTree t) = Ok (VNum (Fin m)) /\
                forall X', float_table X' -> length (a_cols X') = length (a_cols X) ->
                exists l, classify_individual sg fsem cst unspecified Sigmoid n t X' = Ok (map nof_nat l) /\ classes sg n fs rt X' l).
      { intros t Gt. destruct (Out t Gt) as (rt & Sat & Fl & Q & O). destruct (O X FX eq_refl) as (l & El & Cl).
        destruct (rounded_value ys l Yn) as (m & Em & Sm); [rewrite Ly; symmetry; apply Cl|]. exists rt, l, m.
        repeat (split; [assumption|]). split; [|exact O]. unfold evaluate_with, clf_evaluate. cbn [c_X c_y c_method c_classes]. rewrite El. cbn [rbind]. rewrite Em. reflexivity. }
      assert (N : numbers_on G ev).
      { intros g Hg. pose proof Hg as [(t & rt & -> & _) _]. destruct (Val t Hg) as (_ & _ & m & _ & _ & _ & _ & _ & _ & E & _). exists (Fin m). split; [exact E|reflexivity]. }
      destruct (program_run G ev sched h sp stats a w) as (a' & w' & b & k & ls & Eall & Ev & B & Ib & Lk & Fk & V & Best); auto using float_closed, float_printable.
      { rewrite Forall_forall in Hk. exact Hk. }
      assert (D : forall o, In o (concat (evals (a_trace a'))) -> exists t rt l m, tree_at w' o t /\ judged w' o rt l m /\
                classify_individual sg fsem cst unspecified Sigmoid n t X = Ok (map nof_nat l) /\
                forall X', float_table X' -> length (a_cols X') = length (a_cols X) ->
                exists l, classify_individual sg fsem cst unspecified Sigmoid n t X' = Ok (map nof_nat l) /\ classes sg n fs rt X' l).
      { intros o Hin. apply in_concat in Hin as (g & Hg & Hin). destruct (V g Hg) as [_ Vo]. destruct (Vo o Hin) as (i & x & A & Gi & Ex & Px).
        pose proof Gi as [(t & rt0 & Eg & _) _]. rewrite Eg in Gi, Ex. destruct (Val t Gi) as (rt & l & m & Sat & Fl & Q & El & Cl & Sm & Em & O).
        rewrite Em in Ex. injection Ex as <-. exists t, rt, l, m. assert (T : tree_at w' o t) by (exists i; auto). split; [exact T|].
        split; [exists t; repeat (split; [assumption|]); exists i; auto|]. split; [exact El|exact O]. }
      destruct (D b Ib) as (t & rt & l & m & T & J & El & O).
      set (s' := mkClassifier true (mkClf Sigmoid n (Some X) (Some (map label ys))) (a', w') ls).
      assert (Pr : forall X', fst (clf_predict sg fsem cst unspecified X' s') = classify_individual sg fsem cst unspecified Sigmoid n t X').
      { intros X'. unfold clf_predict. cbn [cl_fitted cl_algo cl_eval s' negb fst snd]. rewrite B. destruct T as (i & A & Eg). unfold at_ in A. rewrite A, Eg. reflexivity. }
      exists s', b, rt, l, m, k. split.
      { unfold clf_fit. rewrite (table_accepted X (map label ys) FX); [|split; [rewrite map_length; exact Ly|apply Forall_forall; intros x Hx; apply in_map_iff in Hx as (z & <- & _); reflexivity]].
        cbn zeta. cbn [cl_eval cl_algo cl_lines]. unfold set_context. cbn [c_method c_classes].
        match goal with |- (let (r, p) := ?e in _) = _ => replace e with (Ok tt : res unit, ((a', w'), ls)) by (symmetry; exact Eall) end. reflexivity. }
      cbn [cl_algo s' fst snd]. split; [exact Ev|]. split; [exact B|]. split; [exact Ib|]. split; [exact J|].
      split; [rewrite Pr; exact El|]. split; [intros X' FX' L; rewrite Pr; apply O; assumption|]. split; [exact Lk|]. split; [exact Fk|].
      intros g Hg. destruct (V g Hg) as [Lg _]. split; [exact Lg|]. intros o Hin. assert (Hin' : In o (concat (evals (a_trace a')))) by (apply in_concat; eauto).
      destruct (D o Hin') as (t' & rt' & l' & m' & _ & J' & _). exists rt', l', m'. split; [exact J'|].
      destruct J as (_ & _ & _ & _ & _ & _ & Sb & Pb). destruct J' as (_ & _ & _ & _ & _ & _ & So & Po). specialize (Best o _ _ Hin' Po Pb). rewrite Ht' in Best.
      assert (Le : (m' <= m)%Q) by (cbn [better_score nlt] in Best; unfold Qlt_b in Best; destruct (Qle_bool m' m) eqn:Q; [apply Qle_bool_iff in Q; exact Q|elim Best; reflexivity]).
      split; [exact Le|]. intros Small. eapply (rounded_share_le _ _ (length ys)); eauto using hits_bound. rewrite Ly. apply FX.
    Qed.
  End Clf.

  (** *** Regressors *)
  Section Reg.
    Variables (metric : list num -> list num -> res num) (y : list num) (f0 : bool).
    Hypothesis Ty : targets X y.
    Hypothesis Em : error_measure metric y.

    Notation ev := (regression_evaluate fsem cst unspecified metric X y).
    Notation fitted := (fit fsem cst unspecified metric sched (length stats) X y (mkReg f0 (a, w))).
    Notation trained := (trained fs t0 metric X y).

    Let ev' (g : genome) : res fval := match ev g with Ok v => Ok v | Raise _ => Ok (VNum (Fin 0)) end.

    Lemma measure_number p m : metric y p = Ok m -> is_nan m = false.
    Proof.
      intros E. destruct (Em p) as [A B]. destruct (Nat.eq_dec (length p) (length y)) as [L|L]; [|rewrite A in E by auto; discriminate].
      destruct (forallb is_fin p) eqn:F.
      - destruct (B L) as (m' & E' & N); [apply Forall_forall, forallb_forall; exact F|]. congruence.
      - assert (N : exists x, In x p /\ is_fin x = false).
        { clear - F. induction p as [|x p IH]; [discriminate|]. cbn [forallb] in F. destruct (is_fin x) eqn:Ex; [|exists x; split; [now left|exact Ex]].
          destruct (IH F) as (z & Hz & Ez). exists z. split; [now right|exact Ez]. }
        rewrite A in E by auto. discriminate.
    Qed.

    Lemma measure_cases p : length p = length y -> (exists m, metric y p = Ok m /\ Forall (fun x => is_fin x = true) p) \/
      metric y p = Raise ValueError /\ exists x, In x p /\ is_fin x = false.
    Proof.
      intros L. destruct (Em p) as [A B]. destruct (forallb is_fin p) eqn:F.
      - left. assert (F' : Forall (fun x => is_fin x = true) p) by (apply Forall_forall, forallb_forall; exact F). destruct (B L F') as (m & E & _). eauto.
      - right. assert (N : exists x, In x p /\ is_fin x = false).
        { clear - F. induction p as [|x p IH]; [discriminate|]. cbn [forallb] in F. destruct (is_fin x) eqn:Ex; [|exists x; split; [now left|exact Ex]].
          destruct (IH F) as (z & Hz & Ez). exists z. split; [now right|exact Ez]. }
        split; [apply A; auto|exact N].
    Qed.

    Lemma genome_value t : G (GTree t) -> exists rt p, saturated rt /\ flatten rt = t_nodes t /\ (forall nd, In nd (flatten rt) -> program_node t0 nd) /\
      outputs fsem cst unspecified t X = Ok p /\ answers fs rt X p /\ length p = length y /\
      forall X', float_table X' -> length (a_cols X') = length (a_cols X) -> exists p', outputs fsem cst unspecified t X' = Ok p' /\ answers fs rt X' p'.
    Proof.
      intros Gt. destruct (genome_answers t Gt) as (rt & Sat & Fl & Q & O). destruct (O X FX eq_refl) as (p & Ep & Ap). exists rt, p.
      repeat (split; [assumption|]). split; [unfold outputs; rewrite Ep; reflexivity|]. split; [exact Ap|]. split; [rewrite (proj1 Ap); symmetry; apply Ty|].
      intros X' FX' L. destruct (O X' FX' L) as (p' & Ep' & Ap'). exists p'. split; [unfold outputs; rewrite Ep'; reflexivity|exact Ap'].
    Qed.

    Lemma float_reg :
      (exists s' b rt p m k, fitted = (Ok tt, s') /\ evolve ev sched (length stats) (a, w) = (Ok tt, rg_algo s') /\
         a_best_run (fst (rg_algo s')) = Some b /\ In b (concat (evals (a_trace (fst (rg_algo s'))))) /\
         trained (snd (rg_algo s')) b rt p m /\ predict fsem cst unspecified X s' = Ok p /\
         (forall X', float_table X' -> length (a_cols X') = length (a_cols X) ->
            exists p', predict fsem cst unspecified X' s' = Ok p' /\ answers fs rt X' p') /\
         length (evals (a_trace (fst (rg_algo s')))) = S k /\ (a_final (fst (rg_algo s')) = Some k \/ k = a_max_gen a /\ a_final (fst (rg_algo s')) = None) /\
         forall g, In g (evals (a_trace (fst (rg_algo s')))) -> length g = sp_size sp /\
           forall o, In o g -> exists rt' p' m', trained (snd (rg_algo s')) o rt' p' m' /\ ~ better_score h m' m) \/
      (exists s' rt p, fitted = (Raise ValueError, s') /\ rg_fitted s' = f0 /\
         saturated rt /\ (forall nd, In nd (flatten rt) -> program_node t0 nd) /\ answers fs rt X p /\ exists x, In x p /\ is_fin x = false).
    Proof.
      assert (Chk : check_X_y X y = Ok tt) by (apply table_accepted; assumption).
      pose proof (regression_numbers fsem cst unspecified metric X y measure_number) as Gn.
      destruct (evolve ev sched (length stats) (a, w)) as [[[]|e] [a1 w1]] eqn:E.
      - left. assert (N : numbers_on G ev').
        { intros g _. unfold ev'. destruct (ev g) as [v|e] eqn:Eg; [destruct (Gn g v Eg) as (x & -> & Nx); eauto|]. exists (Fin 0). auto. }
        destruct (program_run G ev' sched h sp stats a w) as (a' & w' & b & k & ls & Eall & Ev & B & Ib & Lk & Fk & V & Best); auto using float_closed, float_printable.
        { rewrite Forall_forall in Hk. exact Hk. }
        assert (Eq : evolve ev' sched (length stats) (a, w) = (Ok tt, (a1, w1))).
        { apply (evolve_lead ev ev'); [|exact E]. intros g v H. unfold ev'. rewrite H. reflexivity. }
        rewrite Eq in Ev. injection Ev as -> ->. clear Eq Eall.
        assert (Sp : scalar_population w h (a_pop a)).
        { exists sp. split; [apply (cf_pop _ _ _ _ C)|]. rewrite Hi. rewrite (cf_hib _ _ _ _ C). split; [reflexivity|].
          pose proof (cf_inds _ _ _ _ C) as Y. rewrite Hi in Y. apply Y. }
        destruct (best_of_run ev sched _ _ _ _ _ h Gn Hf Htr (cf_method _ _ _ _ C) Sp E) as (b2 & B2 & _ & Vb). assert (b2 = b) as -> by congruence. clear B2.
        assert (D : forall o, In o (concat (evals (a_trace a'))) -> exists t rt p m, tree_at w' o t /\ trained w' o rt p m /\ outputs fsem cst unspecified t X = Ok p /\
                  forall X', float_table X' -> length (a_cols X') = length (a_cols X) -> exists p', outputs fsem cst unspecified t X' = Ok p' /\ answers fs rt X' p').
        { intros o Hin. destruct (Vb o Hin) as [(i & v & A & Ei & Pi) _]. apply in_concat in Hin as (g & Hg & Hin). destruct (V g Hg) as [_ Vo].
          destruct (Vo o Hin) as (i' & x & A' & Gi & _ & Px). assert (i' = i) as -> by congruence. pose proof Gi as [(t & rt0 & Eg & _) _]. rewrite Eg in Gi, Ei.
          destruct (genome_value t Gi) as (rt & p & Sat & Fl & Q & Ep & Ap & Lp & O). cbn [regression_evaluate] in Ei. rewrite Ep in Ei. cbn [rbind] in Ei.
          destruct (measure_cases p Lp) as [(m & Emm & Fp)|[Er _]]; [|rewrite Er in Ei; discriminate]. rewrite Emm in Ei. injection Ei as <-.
          exists t, rt, p, m. assert (T : tree_at w' o t) by (exists i; auto). split; [exact T|]. split; [|split; [exact Ep|exact O]].
          exists t. repeat (split; [assumption|]). exists i. auto. }
        destruct (D b Ib) as (t & rt & p & m & T & J & Ep & O). set (s' := mkReg true (a', w')).
        assert (Pr : forall X', predict fsem cst unspecified X' s' = outputs fsem cst unspecified t X').
        { intros X'. destruct T as (i & A & Eg). exact (predict_best fsem cst unspecified t X' s' b i eq_refl B A Eg). }
        exists s', b, rt, p, m, k. split; [unfold fit; rewrite Chk; cbn [rg_algo]; rewrite E; reflexivity|].
        cbn [rg_algo s' fst snd]. split; [reflexivity|]. split; [exact B|]. split; [exact Ib|]. split; [exact J|].
        split; [rewrite Pr; exact Ep|]. split; [intros X' FX' L; rewrite Pr; apply O; assumption|]. split; [exact Lk|]. split; [exact Fk|].
        intros g Hg. destruct (V g Hg) as [Lg _]. split; [exact Lg|]. intros o Hin. assert (Hin' : In o (concat (evals (a_trace a')))) by (apply in_concat; eauto).
        destruct (D o Hin') as (t' & rt' & p' & m' & _ & J' & _). exists rt', p', m'. split; [exact J'|].
        destruct J as (_ & _ & _ & _ & _ & _ & _ & _ & Pb). destruct J' as (_ & _ & _ & _ & _ & _ & _ & _ & Po). apply (Best o _ _ Hin' Po Pb).
      - right. destruct (run_resumable G ev sched h sp (length stats) a w e a1 w1 Gn Hf Htr C float_closed float_printable E) as [_ (g & Gg & Eg)].
        pose proof Gg as [(t & rt0 & -> & _) _]. destruct (genome_value t Gg) as (rt & p & Sat & Fl & Q & Ep & Ap & Lp & _).
        cbn [regression_evaluate] in Eg. rewrite Ep in Eg. cbn [rbind] in Eg. destruct (measure_cases p Lp) as [(m & Emm & _)|[Er N]]; [rewrite Emm in Eg; discriminate|].
        rewrite Er in Eg. injection Eg as <-. exists (mkReg f0 (a1, w1)), rt, p. split; [unfold fit; rewrite Chk; cbn [rg_algo]; rewrite E; reflexivity|].
        split; [reflexivity|]. split; [exact Sat|]. split; [exact Q|]. split; [exact Ap|exact N].
    Qed.
  End Reg.
End Run.

(** ** Measures *)

Lemma finite_targets y : Forall (fun x => is_fin x = true) y -> y <> [] -> exists q, y = map Fin q /\ q <> [].
Proof. intros F N. destruct (fins_all y F) as (q & ->). exists q. split; [reflexivity|]. intros ->. apply N. reflexivity. Qed.

Lemma exact_measure y : y <> [] -> Forall (fun x => is_fin x = true) y -> error_measure mean_absolute_error y.
Proof.
  intros N F p. split.
  - intros H. apply error_rejects. destruct H as [H|(x & Hx & E)]; [left; congruence|right; right; exists x; split; [apply in_or_app; auto|exact E]].
  - intros L Fp. destruct (finite_targets y F N) as (ys & -> & Ny). destruct (fins_all p Fp) as (ps & ->). rewrite !map_length in L.
    destruct (error_value ys ps Ny (eq_sym L)) as (m & E & _). exists (Fin m). split; [exact E|reflexivity].
Qed.

Lemma rounded_number x : is_nan x = false -> is_nan (rounded x) = false.
Proof. destruct x as [q| | |]; cbn [rounded]; auto. intros _. destruct (Qle_bool _ _); [reflexivity|]. destruct (Qle_bool _ _); reflexivity. Qed.

Lemma rounded_positive x : nle (Fin 0) x = true -> nle (Fin 0) (rounded x) = true.
Proof.
  destruct x as [q| | |]; cbn [rounded]; auto. intros H. destruct (Qle_bool too_large (double q)); [reflexivity|].
  assert (P : (0 <= double q)%Q) by (apply double_nonneg, nle_fin, H). assert (T : (0 < too_large)%Q) by (vm_compute; reflexivity).
  destruct (Qle_bool (double q) (- too_large)) eqn:E; [apply Qle_bool_iff in E; lra|]. apply nle_fin, P.
Qed.

Lemma rounded_summation : summation rounded_sum.
Proof.
  assert (K : forall l s, nle (Fin 0) s = true -> Forall (fun x => nle (Fin 0) x = true) l -> nle (Fin 0) (fold_left (fun s x => rounded (nadd s x)) l s) = true).
  { induction l as [|x l IH]; intros s Hs F; [exact Hs|]. inversion F as [|? ? Hx F']; subst. apply IH; [|exact F']. apply rounded_positive.
    destruct s as [a| | |], x as [b| | |]; try discriminate; try reflexivity. apply nle_fin in Hs, Hx. apply nle_fin. lra. }
  intros l F. pose proof (K l (Fin 0) eq_refl F) as H. unfold rounded_sum. destruct (fold_left _ l (Fin 0)); try discriminate; reflexivity.
Qed.

Lemma rounded_measure sum y : summation sum -> y <> [] -> Forall (fun x => is_fin x = true) y -> error_measure (rounded_error sum) y.
Proof.
  intros S N F p. split.
  - intros H. unfold rounded_error. destruct (length y =? length p) eqn:E1; [|reflexivity]. apply Nat.eqb_eq in E1. destruct (length y =? 0); [reflexivity|].
    destruct (forallb is_fin y); [|reflexivity]. destruct (forallb is_fin p) eqn:E4; [|reflexivity]. exfalso.
    destruct H as [H|(x & Hx & E)]; [congruence|]. rewrite forallb_forall in E4. rewrite (E4 x Hx) in E. discriminate.
  - intros L Fp. unfold rounded_error. rewrite L, Nat.eqb_refl. replace (length y =? 0) with false by (destruct y; [congruence|reflexivity]).
    replace (forallb is_fin y) with true by (symmetry; apply forallb_forall; rewrite Forall_forall in F; exact F).
    replace (forallb is_fin p) with true by (symmetry; apply forallb_forall; rewrite Forall_forall in Fp; exact Fp). cbn [negb orb].
    set (d := map _ (combine y p)). assert (P : is_nan (sum d) = false).
    { apply S. apply Forall_forall. intros x Hx. apply in_map_iff in Hx as ((u, v) & <- & Huv). cbn [fst snd].
      pose proof (in_combine_l _ _ _ _ Huv) as Hu. pose proof (in_combine_r _ _ _ _ Huv) as Hv. rewrite Forall_forall in F, Fp. specialize (F _ Hu). specialize (Fp _ Hv).
      destruct u as [u| | |]; try discriminate. destruct v as [v| | |]; try discriminate.
      assert (R : is_nan (rounded (nsub (Fin u) (Fin v))) = false) by (apply rounded_number; reflexivity).
      destruct (rounded (nsub (Fin u) (Fin v))) as [z| | |]; try discriminate; try reflexivity. destruct (nabs_fin z) as (z' & -> & Ez). apply nle_fin. rewrite Ez. apply Qabs_nonneg. }
    assert (Pn : (0 < inject_Z (Z.of_nat (length y)))%Q) by (apply count_pos; destruct y; [congruence|cbn; lia]). unfold nof_nat. set (c := inject_Z (Z.of_nat (length y))) in *. clearbody c.
    assert (Dv : exists z, ndiv (sum d) (Fin c) = Ok z /\ is_nan z = false).
    { unfold ndiv. destruct (Qeq_bool c 0) eqn:Ez; [apply Qeq_bool_iff in Ez; lra|]. destruct (sum d) as [s| | |]; try discriminate; eexists; (split; [reflexivity|]); try reflexivity; destruct c as [[|z|z] e]; try reflexivity; exfalso; apply Qeq_bool_neq in Ez; apply Ez; reflexivity. }
    destruct Dv as (z & -> & Nz). cbn [rbind]. exists (rounded z). split; [reflexivity|]. apply rounded_number, Nz.
Qed.

(** ** The regression program *)

Lemma double_program : forall us ul usin ucos utan unspecified summed max_gen sum stamp sched w X y,
  summation summed -> sum = sum_plain \/ sum = sum_compensated -> fair sched -> w_heap w = [] -> float_table X -> targets X y ->
  let t0 := mkTree regression_functions (column_terminals false (length (a_cols X))) (Some (ErcFloat (Fin (-100)) (Fin 100))) None [] in
  let fs := double_scalar us ul usin ucos utan in
  exists su, regression_program (length (a_cols X)) max_gen sum stamp = Ok su /\
    ((exists s' b rt p m k,
        fit (double_array us ul usin ucos utan) (fun v => Scalar (number_const v)) unspecified (rounded_error summed) sched 1 X y (mkReg false (su_algo su, w)) = (Ok tt, s') /\
        a_best_run (fst (rg_algo s')) = Some b /\ In b (concat (evals (a_trace (fst (rg_algo s'))))) /\
        trained fs t0 (rounded_error summed) X y (snd (rg_algo s')) b rt p m /\
        predict (double_array us ul usin ucos utan) (fun v => Scalar (number_const v)) unspecified X s' = Ok p /\
        (forall X', float_table X' -> length (a_cols X') = length (a_cols X) ->
           exists p', predict (double_array us ul usin ucos utan) (fun v => Scalar (number_const v)) unspecified X' s' = Ok p' /\ answers fs rt X' p') /\
        length (evals (a_trace (fst (rg_algo s')))) = S k /\
        (forall g, In g (evals (a_trace (fst (rg_algo s')))) -> length g = 1000 /\ forall o, In o g -> exists rt' p' m',
           trained fs t0 (rounded_error summed) X y (snd (rg_algo s')) o rt' p' m' /\ nlt m' m = false) /\
        ((exists q, m = Fin q /\ (Qabs q <= double (1 # 100))%Q) /\ a_final (fst (rg_algo s')) = Some k \/
         ~ (exists q, m = Fin q /\ (Qabs q <= double (1 # 100))%Q) /\ a_final (fst (rg_algo s')) = None /\ k = max_gen)) \/
     (exists s' rt p,
        fit (double_array us ul usin ucos utan) (fun v => Scalar (number_const v)) unspecified (rounded_error summed) sched 1 X y (mkReg false (su_algo su, w)) = (Raise ValueError, s') /\
        rg_fitted s' = false /\ saturated rt /\ (forall nd, In nd (flatten rt) -> program_node t0 nd) /\ answers fs rt X p /\ exists x, In x p /\ is_fin x = false)).
Proof.
  intros us ul usin ucos utan unspecified summed max_gen sum stamp sched w X y Sm Hsum Hf Hw FX Ty t0 fs.
  destruct (reg_setup (length (a_cols X)) max_gen sum stamp Hsum) as (su & q & E & Es & Hq & Ea). exists su. split; [exact E|]. clear E. revert Ea.
  assert (H6 : 6 <= 1000) by (repeat apply le_n_S; lia). assert (H2 : Nat.divide 2 1000) by (exists 500; reflexivity).
  revert H6 H2. generalize 1000 as size. intros size H6 H2 Ea.
  assert (Hc : 0 < length (a_cols X)) by (destruct FX as (_ & N & _); destruct (a_cols X); [congruence|cbn; lia]).
  assert (HE : reg_erc = None \/ exists lo hi, reg_erc = Some (ErcFloat (Fin lo) (Fin hi)) /\ (lo <= hi)%Q) by (right; eexists _, _; split; [reflexivity|discriminate]).
  pose proof regression_suitable as Su. change t0 with (column_tree false regression_functions (length (a_cols X)) reg_erc) in *. clear t0.
  set (t0 := column_tree false regression_functions (length (a_cols X)) reg_erc) in *.
  assert (Yn : y <> []) by (intros ->; destruct FX as (_ & _ & P & _); destruct Ty as [T _]; cbn in T; lia).
  destruct (float_reg (double_array us ul usin ucos utan) fs unspecified t0
    (double_rows us ul usin ucos utan (t_fset t0) (column_numeric false regression_functions _ reg_erc Su)) false sched [SBestAverageWorst]
    (reg_sub (length (a_cols X)) size q) X (reg_algo (length (a_cols X)) size max_gen stamp q) w) with (metric := rounded_error summed) (y := y) (f0 := false) as [Good|Bad]; auto.
  { constructor; try reflexivity; auto.
    - cbn. lia.
    - intros d. cbn. intros [<-|[<-|[<-|[<-|[]]]]]; (split; [discriminate|]); [apply Nat.divide_1_l|exact H2|apply Nat.divide_1_l|apply Nat.divide_1_l].
    - eexists _, _. split; [reflexivity|]. cbn. repeat split; [lia|discriminate].
    - cbn. split; [reflexivity|]. split; [exists (0 + q)%Q; split; [reflexivity|]; rewrite Qplus_0_l; exact Hq|]. intros c0 [<-|[]]. split; reflexivity.
    - constructor; [exact I|constructor]. }
  { apply column_names. }
  { apply column_supplied; auto. }
  { apply column_typed; auto. }
  { apply column_printable; auto. }
  { apply (column_constants false regression_functions (length (a_cols X)) reg_erc HE). }
  { repeat constructor. }
  { cbn. intros op mu sigma [<-|[<-|[<-|[]]]]; try discriminate. intros [= <- <-]. split; reflexivity. }
  { constructor; [|constructor]. apply column_creates; auto. }
  { constructor; [|constructor]. split; reflexivity. }
  { apply rounded_measure; auto. apply Ty. }
  - left. destruct Good as (s' & b & rt & p & m & k & Ef & Ev & B & Ib & J & Pr & PrX & Lk & Fk & V). rewrite <- Ea in Ef, Ev.
    exists s', b, rt, p, m, k. split; [exact Ef|]. split; [exact B|]. split; [exact Ib|]. split; [exact J|]. split; [exact Pr|]. split; [exact PrX|]. split; [exact Lk|]. split.
    { intros g Hg. destruct (V g Hg) as [Lg Vg]. split; [exact Lg|]. intros o Hin. destruct (Vg o Hin) as (rt' & p' & m' & J' & N). exists rt', p', m'. split; [exact J'|].
      cbn [better_score] in N. destruct (nlt m' m); [elim N; reflexivity|reflexivity]. }
    destruct s' as [fi [a' w']]. cbn [rg_algo fst snd] in *. pose proof J as (_ & _ & _ & _ & _ & _ & _ & _ & Pb).
    assert (T : a_final a' <> None <-> exists z, m = Fin z /\ (Qabs z <= double (1 # 100))%Q).
    { match type of Ev with evolve ?ev _ _ _ = _ =>
        destruct (target_exact ev sched 1 (su_algo su) w a' w' 0 (double (1 # 100))) as (b' & i & x & B' & A & Px & F); [rewrite Ea; reflexivity|rewrite Ea; reflexivity|exact Ev|] end.
      assert (b' = b) as -> by congruence. destruct Pb as (j & A' & Pj). assert (j = i) as -> by congruence. rewrite Pj in Px. injection Px as <-. rewrite F.
      split; intros (z & -> & Q); exists z; (split; [reflexivity|]); [|setoid_replace (z - 0)%Q with z by ring; exact Q].
      setoid_replace (z - 0)%Q with z in Q by ring. exact Q. }
    destruct Fk as [F|[Fk F]].
    + left. split; [apply T; congruence|exact F].
    + right. split; [|split; [exact F|exact Fk]]. intros Z. apply T in Z. congruence.
  - right. rewrite <- Ea in Bad. exact Bad.
Qed.

Lemma measures y : y <> [] -> Forall (fun x => is_fin x = true) y ->
  error_measure mean_absolute_error y /\ summation rounded_sum /\ forall sum, summation sum -> error_measure (rounded_error sum) y.
Proof. intros N F. split; [apply exact_measure; assumption|]. split; [apply rounded_summation|]. intros sum S. apply rounded_measure; assumption. Qed.

Lemma double_classifier : forall us ul usin ucos utan unspecified t0, numeric_functions (t_fset t0) ->
  forall sched stats sp X a w, fair sched -> float_table X ->
  a_trace a = [] -> a_stats a = 0 -> a_final a = None -> w_heap w = [] -> configured true a w sp -> sp_inds sp = None ->
  map fst (t_tset t0) = create_terminal_set X ->
  supplied t0 (t_root_type t0) -> typed_terminals t0 (t_root_type t0) -> printable_terminals t0 ->
  (forall lo hi, t_erc t0 = Some (ErcFloat lo hi) -> exists a b, lo = Fin a /\ hi = Fin b /\ (a <= b)%Q) ->
  Forall tree_operator (sp_ops sp) ->
  (forall op mu sigma, In op (sp_ops sp) -> op_kind op = OErc mu sigma -> is_fin mu = true /\ is_fin sigma = true) ->
  Forall (tree_creator t0 (sp_size sp)) (sp_creators sp) -> Forall (made_with no_penalty) (sp_creators sp) ->
  forall sg n X0 y0 ys f0, sigmoid_like sg -> 0 < n -> length ys = a_rows X ->
  exists s' b rt l m k,
    clf_fit sg (double_array us ul usin ucos utan) (fun v => Scalar (number_const v)) unspecified rounded_accuracy sched stats X (map label ys)
      (mkClassifier f0 (mkClf Sigmoid n X0 y0) (a, w) []) = (Ok tt, s') /\
    evolve (evaluate_with sg (double_array us ul usin ucos utan) (fun v => Scalar (number_const v)) unspecified rounded_accuracy
              (mkClf Sigmoid n (Some X) (Some (map label ys)))) sched (length stats) (a, w) = (Ok tt, cl_algo s') /\
    a_best_run (fst (cl_algo s')) = Some b /\ In b (concat (evals (a_trace (fst (cl_algo s'))))) /\
    judged_rounded sg n (double_scalar us ul usin ucos utan) t0 X ys (snd (cl_algo s')) b rt l m /\
    fst (clf_predict sg (double_array us ul usin ucos utan) (fun v => Scalar (number_const v)) unspecified X s') = Ok (map nof_nat l) /\
    (forall X', float_table X' -> length (a_cols X') = length (a_cols X) ->
       exists l', fst (clf_predict sg (double_array us ul usin ucos utan) (fun v => Scalar (number_const v)) unspecified X' s') = Ok (map nof_nat l') /\
         classes sg n (double_scalar us ul usin ucos utan) rt X' l') /\
    length (evals (a_trace (fst (cl_algo s')))) = S k /\ (a_final (fst (cl_algo s')) = Some k \/ k = a_max_gen a /\ a_final (fst (cl_algo s')) = None) /\
    forall g, In g (evals (a_trace (fst (cl_algo s')))) -> length g = sp_size sp /\
      forall o, In o g -> exists rt' l' m', judged_rounded sg n (double_scalar us ul usin ucos utan) t0 X ys (snd (cl_algo s')) o rt' l' m' /\ (m' <= m)%Q /\
        ((Z.of_nat (length ys) <= 2 ^ 50)%Z -> hits ys l' <= hits ys l).
Proof.
  intros us ul usin ucos utan unspecified t0 NF sched stats sp X a w. intros.
  eapply (float_clf (double_array us ul usin ucos utan) (double_scalar us ul usin ucos utan) unspecified t0 (double_rows us ul usin ucos utan _ NF) true sched stats sp X a w); eauto.
Qed.
