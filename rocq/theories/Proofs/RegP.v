(** * Regression. *)
From Coq Require Import Lia QArith Qabs Lqa Qfield.
From Verif.Proofs Require Import KindP ProgramP EvoFinalP AgainP TreeP TreeExecP BaseP CompleteP CompleteTreeP ShowP.
From Verif.Model Require Import Tree World Evolution Regressor.
From Verif.Spec Require Import WorldSpec FitnessSpec TreeSpec SelSpec EvoSpec CompleteSpec BaseSpec RegSpec ShowSpec.
Open Scope nat_scope.
Open Scope list_scope.

(** ** The error *)

Lemma fins_all l : Forall (fun x => is_fin x = true) l -> exists q, l = map Fin q.
Proof.
  induction l as [|x l IH]; intros H; [exists []; reflexivity|]. inversion H; subst. destruct IH as (q & ->); auto.
  destruct x; try discriminate. eexists (_ :: q). reflexivity.
Qed.

Lemma fins_b l : forallb is_fin (map Fin l) = true.
Proof. induction l; auto. Qed.

Lemma nsum_fins l : forall a, fold_left nadd (map Fin l) (Fin a) = Fin (fold_left Qplus l a).
Proof. induction l as [|x l IH]; intros a; cbn; auto. Qed.

Lemma fold_plus l : forall a, (fold_left Qplus l a == a + fold_left Qplus l 0)%Q.
Proof.
  induction l as [|x l IH]; intros a; cbn; [ring|]. rewrite IH, (IH (0 + x)%Q). ring.
Qed.

Lemma differences y : forall p, map (fun e => nabs (nsub (fst e) (snd e))) (combine (map Fin y) (map Fin p)) =
  map Fin (map (fun e => Qabs (fst e + - snd e)) (combine y p)).
Proof. induction y as [|a y IH]; intros [|b p]; cbn; auto. rewrite IH. reflexivity. Qed.

Lemma total_fold y : forall p, length y = length p ->
  (fold_left Qplus (map (fun e => Qabs (fst e + - snd e)) (combine y p)) 0 == total_difference y p)%Q.
Proof.
  induction y as [|a y IH]; intros [|b p] L; try discriminate; [reflexivity|].
  cbn [combine map fold_left total_difference fst snd]. rewrite fold_plus. assert (L' : length y = length p) by (cbn in L; lia).
  specialize (IH p L'). rewrite IH. unfold Qminus. ring.
Qed.

Lemma total_nonneg y : forall p, (0 <= total_difference y p)%Q.
Proof. induction y as [|a y IH]; intros [|b p]; cbn [total_difference]; try apply Qle_refl. pose proof (IH p). pose proof (Qabs_nonneg (a - b)). lra. Qed.

Lemma total_zero y : forall p, length y = length p -> (total_difference y p == 0)%Q <-> Forall2 Qeq y p.
Proof.
  induction y as [|a y IH]; intros [|b p] L; try discriminate; cbn [total_difference]; [split; [constructor|reflexivity]|].
  pose proof (Qabs_nonneg (a - b)) as H1. pose proof (total_nonneg y p) as H2. specialize (IH p ltac:(cbn in L; lia)). split.
  - intros H. constructor; [|apply IH; lra]. assert (H3 : (Qabs (a - b) <= 0)%Q) by lra. apply Qabs_Qle_condition in H3. lra.
  - intros H. inversion H as [|? ? ? ? E F]; subst. apply IH in F. rewrite F. assert (E2 : (a - b == 0)%Q) by lra. rewrite E2. reflexivity.
Qed.

Lemma error_value y p : y <> [] -> length y = length p ->
  exists m, mean_absolute_error (map Fin y) (map Fin p) = Ok (Fin m) /\ mean_of (total_difference y p) (length y) m /\
    (0 <= m)%Q /\ ((m == 0)%Q <-> Forall2 Qeq y p).
Proof.
  intros Hn L. unfold mean_absolute_error. rewrite !map_length, !fins_b, L, Nat.eqb_refl. cbn [negb orb].
  destruct (length p =? 0) eqn:E0; [destruct p; [destruct y; [congruence|discriminate]|discriminate]|].
  rewrite differences. unfold nsum. rewrite nsum_fins. cbn [orb negb]. unfold ndiv, nof_nat.
  apply Nat.eqb_neq in E0. set (n := inject_Z (Z.of_nat (length p))).
  assert (Pn : (0 < n)%Q) by (unfold n; change 0%Q with (inject_Z 0); rewrite <- Zlt_Qlt; lia).
  destruct (Qeq_bool n 0) eqn:Ez; [apply Qeq_bool_eq in Ez; lra|].
  eexists. split; [reflexivity|]. pose proof (total_fold y p L) as T. pose proof (total_nonneg y p) as P. pose proof (total_zero y p L) as Z0.
  set (s := fold_left Qplus _ 0%Q) in *. assert (M : (s / n * n == total_difference y p)%Q) by (rewrite <- T; field; lra).
  split; [exact M|]. split; [apply Qle_shift_div_l; lra|]. rewrite <- Z0. split; intros H.
  - rewrite <- M, H. ring.
  - rewrite T, H. field. lra.
Qed.

Lemma error_rejects y p : length y <> length p \/ y = [] \/ (exists x, In x (y ++ p) /\ is_fin x = false) ->
  mean_absolute_error y p = Raise ValueError.
Proof.
  intros H. unfold mean_absolute_error. destruct (length y =? length p) eqn:E1; [|reflexivity]. apply Nat.eqb_eq in E1.
  destruct (length y =? 0) eqn:E2; [reflexivity|]. apply Nat.eqb_neq in E2. destruct H as [H|[->|(x & Hx & F)]]; [congruence|cbn in E2; lia|].
  apply in_app_or in Hx. destruct (forallb is_fin y) eqn:E3; [|reflexivity]. destruct (forallb is_fin p) eqn:E4; [|reflexivity].
  rewrite forallb_forall in E3, E4. destruct Hx as [Hx|Hx]; [apply E3 in Hx|apply E4 in Hx]; congruence.
Qed.

Lemma error_data y p m : mean_absolute_error y p = Ok m ->
  exists ys ps, y = map Fin ys /\ p = map Fin ps /\ length ys = length ps /\ ys <> [].
Proof.
  intros H. unfold mean_absolute_error in H. destruct (_ || _ || _ || _) eqn:B; [discriminate|].
  apply orb_false_elim in B as [B B4]. apply orb_false_elim in B as [B B3]. apply orb_false_elim in B as [B1 B2].
  apply negb_false_iff in B1, B3, B4. apply Nat.eqb_eq in B1. apply Nat.eqb_neq in B2. clear H.
  destruct (fins_all y) as (ys & ->); [apply Forall_forall, forallb_forall; exact B3|].
  destruct (fins_all p) as (ps & ->); [apply Forall_forall, forallb_forall; exact B4|]. rewrite !map_length in *.
  exists ys, ps. repeat split; auto. intros ->. cbn in B2. lia.
Qed.

Lemma error_number y p m : mean_absolute_error y p = Ok m -> exists q, m = Fin q /\ (0 <= q)%Q.
Proof.
  intros H. destruct (error_data y p m H) as (ys & ps & -> & -> & L & N).
  destruct (error_value ys ps N L) as (q & E & _ & P & _). exists q. split; [congruence|exact P].
Qed.

(** ** Functions on scalars and columns *)

Lemma all_scalars args : flat_map (fun v => match v with Column l => [length l] | Scalar _ => [] end) args = [] ->
  exists l, args = map Scalar l.
Proof.
  induction args as [|[x|l] args IH]; cbn; intros H; [exists []; reflexivity| |discriminate].
  destruct (IH H) as (l & ->). exists (x :: l). reflexivity.
Qed.

Lemma column_lengths n args : Forall (rows_ok n) args ->
  forall k, In k (flat_map (fun v => match v with Column l => [length l] | Scalar _ => [] end) args) -> k = n.
Proof.
  intros F k Hk. apply in_flat_map in Hk as ([x|l] & Hv & Hk); [destruct Hk|]. destruct Hk as [<-|[]]. rewrite Forall_forall in F. apply (F _ Hv).
Qed.

Lemma row_cells r args xs : map (row r) args = map Some xs -> xs = map (cell r) args.
Proof.
  revert xs. induction args as [|v args IH]; intros [|x xs] H; try discriminate; [reflexivity|]. cbn [map] in *. injection H as H1 H2.
  f_equal; [|auto]. destruct v as [y|l]; cbn in *; [congruence|]. symmetry. apply nth_error_nth. exact H1.
Qed.

Lemma rmap_total {A B} (g : A -> res B) (gs : A -> B) l : (forall x, In x l -> g x = Ok (gs x)) -> rmap g l = Ok (map gs l).
Proof. induction l as [|x l IH]; intros H; cbn; [reflexivity|]. rewrite (H x (or_introl eq_refl)), IH; [reflexivity|]. intros y Hy. apply H. right. exact Hy. Qed.

Lemma of_rows_total g gs n args : (forall xs, length xs = length args -> g xs = Ok (gs xs)) -> Forall (rows_ok n) args ->
  exists v, of_rows g args = Ok v /\ rows_ok n v /\ forall r xs, r < n -> map (row r) args = map Some xs -> row r v = Some (gs xs).
Proof.
  intros Hg F. unfold of_rows. destruct (flat_map _ args) as [|k rest] eqn:E.
  - destruct (all_scalars args E) as (l & ->). rewrite Hg by now rewrite !map_length. cbn [rbind]. eexists. split; [reflexivity|]. split; [exact I|].
    intros r xs _ H. cbn [row]. apply row_cells in H. subst xs. rewrite !map_map. reflexivity.
  - pose proof (column_lengths n args F) as L. rewrite E in L. assert (k = n) as -> by (apply L; now left).
    replace (forallb (Nat.eqb n) rest) with true.
    2:{ symmetry. apply forallb_forall. intros j Hj. apply Nat.eqb_eq. symmetry. apply L. now right. }
    rewrite (rmap_total _ (fun r => gs (map (cell r) args))) by (intros r _; apply Hg; now rewrite map_length).
    cbn [rbind]. eexists. split; [reflexivity|]. split; [cbn; now rewrite map_length, seq_length|].
    intros r xs Hr H. apply row_cells in H. subst xs. cbn [row]. apply (map_nth_error (fun r => gs (map (cell r) args))).
    rewrite (nth_error_nth' _ 0) by now rewrite seq_length. now rewrite seq_nth.
Qed.

Section Base.
  Variables (us ul usin ucos utan : num -> num).

  Lemma numeric_floats f xs : In (f_name f, arity f) numeric -> length xs = arity f ->
    base_sem us ul usin ucos utan f (map EFloat xs) =
      Ok (match base_sem us ul usin ucos utan f (map EFloat xs) with Ok e => e | Raise _ => EInt 0 end).
  Proof.
    unfold base_sem. destruct f as [fid nm ps rt]. unfold arity. cbn [f_name f_params].
    generalize (length ps). intros k H L. cbn [numeric In] in H.
    repeat (destruct H as [H|H]; [injection H as <- <-; repeat (destruct xs as [|? xs]; try discriminate L); reflexivity|]). contradiction.
  Qed.

  Lemma base_elementwise t n : (forall f, In (FNode f) (t_nodes t) -> In (f_name f, arity f) numeric) ->
    elementwise t n (base_array us ul usin ucos utan) (base_scalar us ul usin ucos utan).
  Proof.
    intros H f args Hf L F. apply of_rows_total; [|exact F]. intros xs Lx. unfold base_scalar.
    rewrite (numeric_floats f xs (H f Hf)) by congruence. cbn [rbind]. destruct (base_sem _ _ _ _ _ _ _); reflexivity.
  Qed.

  Lemma base_fin f xs : finite_functions us ul usin ucos utan -> In (f_name f, arity f) numeric -> length xs = arity f ->
    Forall (fun x => is_fin x = true) xs -> is_fin (base_scalar us ul usin ucos utan f xs) = true.
  Proof.
    intros FF Hf L F. unfold base_scalar.
    destruct (numeric_ok us ul usin ucos utan FF f (map EFloat xs) Hf) as (e & -> & N); [now rewrite map_length|..].
    - rewrite Forall_forall in *. intros e He. apply in_map_iff in He as (x & <- & Hx). specialize (F x Hx). destruct x; try discriminate. exact I.
    - destruct e as [z|[q| | |]|b]; try contradiction; reflexivity.
  Qed.
End Base.

(** ** Evaluation stays within a class of numbers *)

Lemma eval_class (P : num -> Prop) fs const env t : saturated t ->
  (forall f xs, In (FNode f) (flatten t) -> length xs = arity f -> Forall P xs -> P (fs f xs)) ->
  (forall v a, In (TNode v a) (flatten t) -> P (eval_terminal num const env v)) ->
  forall x, eval num (fun f xs => Ok (fs f xs)) const env t = Ok x -> P x.
Proof.
  induction t as [n ks IH] using rose_ind. intros [Hl Hs] Hf Ht x E. rewrite All_In in IH, Hs. destruct n as [f|v a]; cbn [eval] in E.
  - destruct (collect num (map (eval num (fun f xs => Ok (fs f xs)) const env) ks)) as [vs|] eqn:C; [|discriminate]. injection E as <-.
    assert (K : forall k, In k ks -> forall y, eval num (fun f xs => Ok (fs f xs)) const env k = Ok y -> P y).
    { intros k Hk. apply IH; auto.
      - intros g xs Hg. apply Hf. right. apply in_flat_map. eauto.
      - intros v a Hv. apply (Ht v a). right. apply in_flat_map. eauto. }
    assert (V : length vs = length ks /\ Forall P vs).
    { clear - C K. revert vs C. induction ks as [|k ks IHk]; intros vs C; cbn [map collect] in C; [injection C as <-; auto|].
      destruct (eval num (fun f xs => Ok (fs f xs)) const env k) as [v|] eqn:Ev; [|discriminate]. destruct (collect num _) as [us|] eqn:Cu; [|discriminate]. injection C as <-.
      destruct (IHk (fun k' Hk' => K k' (or_intror Hk')) us eq_refl) as [L F]. split; [cbn; now rewrite L|]. constructor; [|exact F]. apply (K k); [now left|exact Ev]. }
    destruct V as [L F]. apply Hf; [now left|rewrite L, Hl; reflexivity|exact F].
  - injection E as <-. apply (Ht v a). now left.
Qed.

Lemma row_env_fin X r i : float_table X -> r < a_rows X -> i < length (a_cols X) ->
  exists x, row_env X r (column_name i) = Some x /\ is_fin x = true.
Proof.
  intros (_ & _ & _ & H) Hr Hi. unfold row_env. rewrite find_name by exact Hi.
  destruct (nth_error (a_cols X) i) as [c|] eqn:E; [|apply nth_error_None in E; lia]. destruct (H c (nth_error_In _ _ E)) as [L F].
  destruct (nth_error c r) as [x|] eqn:Ex; [|apply nth_error_None in Ex; lia]. exists x. split; [reflexivity|].
  rewrite Forall_forall in F. apply F. eapply nth_error_In; eauto.
Qed.

Lemma same_columns X X' : length (a_cols X') = length (a_cols X) -> create_terminal_set X' = create_terminal_set X.
Proof. intros E. unfold create_terminal_set. now rewrite E. Qed.

(** Programs of numeric functions give finite numbers, row by row. *)
Lemma base_outputs us ul usin ucos utan unspecified t0 t rt X :
  finite_functions us ul usin ucos utan -> float_table X -> numeric_functions (t_fset t0) ->
  map fst (t_tset t0) = create_terminal_set X -> same_primitives t0 t -> saturated rt -> flatten rt = t_nodes t ->
  (forall n, In n (t_nodes t) -> program_node t0 n) ->
  exists p, outputs (base_array us ul usin ucos utan) (fun v => Scalar (number_const v)) unspecified t X = Ok p /\ length p = a_rows X /\
    forall r, r < a_rows X -> exists q, nth_error p r = Some (Fin q) /\
      eval num (fun f xs => Ok (base_scalar us ul usin ucos utan f xs)) number_const (row_env X r) rt = Ok (Fin q).
Proof.
  intros FF FX NF Ht (P1 & P2 & P3 & P4) Hs E Hn.
  assert (Hf : forall f, In (FNode f) (t_nodes t) -> In (f_name f, arity f) numeric) by (intros f H; apply NF; apply (Hn _ H)).
  pose proof FX as (F1 & F2 & F3 & F4).
  destruct (execute_array_rows (base_array us ul usin ucos utan) (base_scalar us ul usin ucos utan) number_const unspecified t rt X Hs E) as (l & El & Ll & Hl); auto.
  - now rewrite P2.
  - intros c Hc. apply (F4 c Hc).
  - apply base_elementwise. exact Hf.
  - exists l. unfold outputs. rewrite El. split; [reflexivity|]. split; [exact Ll|]. intros r Hr. destruct (Hl r Hr) as (x & Ex & Ev).
    assert (Fx : is_fin x = true).
    { clear Ex. revert x Ev. apply (eval_class (fun x => is_fin x = true)); [exact Hs|..].
      - intros f xs H L F. apply base_fin; auto. apply Hf. now rewrite <- E.
      - intros v a H. rewrite E in H. apply Hn in H. destruct v as [s|b y tag]; cbn [program_node eval_terminal] in *; [|exact H].
        rewrite Ht in H. apply in_map_iff in H as (i & [= <-] & Hi). apply in_seq in Hi.
        destruct (row_env_fin X r i FX Hr) as (y & -> & Fy); [lia|exact Fy]. }
    destruct x; try discriminate. eauto.
Qed.

(** ** Fitting *)

Section Fit.
  Variable fsem : func -> list nval -> res nval.
  Variable const : tval -> nval.
  Variable unspecified : num -> num.
  Variable metric : list num -> list num -> res num.
  Variable sched : nat -> list nat.

  Notation outputs := (outputs fsem const unspecified).
  Notation fit := (fit fsem const unspecified metric sched).
  Notation predict := (predict fsem const unspecified).

  Lemma regression_numbers X y : (forall p m, metric y p = Ok m -> is_nan m = false) ->
    gives_numbers (regression_evaluate fsem const unspecified metric X y).
  Proof.
    intros H [v|t] u E; cbn in E; [discriminate|]. destruct (outputs t X) as [p|]; [|discriminate]. cbn [rbind] in E.
    destruct (metric y p) as [m|] eqn:Em; [|discriminate]. injection E as <-. exists m. split; [reflexivity|]. eapply H; eauto.
  Qed.

  Lemma fit_ok n X y s s' : fit n X y s = (Ok tt, s') -> check_X_y X y = Ok tt /\
    evolve (regression_evaluate fsem const unspecified metric X y) sched n (rg_algo s) = (Ok tt, rg_algo s') /\ rg_fitted s' = true.
  Proof.
    unfold Regressor.fit. destruct (check_X_y X y) as [[]|e]; [|discriminate].
    destruct (evolve _ sched n (rg_algo s)) as [[[]|e] st]; [|discriminate]. intros [= <-]. auto.
  Qed.

  Lemma predict_best t X s b i : rg_fitted s = true -> a_best_run (fst (rg_algo s)) = Some b -> at_ (snd (rg_algo s)) b = Some i ->
    i_genome i = GTree t -> predict X s = outputs t X.
  Proof. intros F B A G. unfold Regressor.predict. rewrite F, B. cbn [negb]. unfold at_ in A. rewrite A, G. reflexivity. Qed.

  Lemma plain_score w o x i v : all_kinds no_penalty w -> scored w o x -> at_ w o = Some i -> get_pure_fitness (i_fit i) = Ok (VNum v) -> x = v.
  Proof.
    intros K (j & A & _ & _ & S & _) A' E. assert (j = i) as -> by congruence. unfold get_augmented_fitness in S. rewrite E in S. cbn [rbind] in S.
    assert (P : no_penalty (ft_class (i_fit i))) by (apply K; eapply nth_error_In; exact A).
    destruct (ft_class (i_fit i)) as [|wt|]; cbn in P; [congruence|rewrite P in S; congruence|contradiction].
  Qed.

  Lemma fit_best n X y s s' h : (forall p m, metric y p = Ok m -> is_nan m = false) -> fair sched ->
    a_trace (fst (rg_algo s)) = [] -> a_method (fst (rg_algo s)) = ByMap ->
    scalar_population (snd (rg_algo s)) h (a_pop (fst (rg_algo s))) -> all_kinds no_penalty (snd (rg_algo s)) ->
    (forall sp, In sp (a_pop (fst (rg_algo s))) -> forall c, In c (sp_creators sp) -> made_with no_penalty c) ->
    fit n X y s = (Ok tt, s') ->
    exists b t p m, In b (concat (evals (a_trace (fst (rg_algo s'))))) /\ tree_at (snd (rg_algo s')) b t /\
      (forall X', predict X' s' = outputs t X') /\ predict X s' = Ok p /\ metric y p = Ok m /\
      forall o, In o (concat (evals (a_trace (fst (rg_algo s'))))) ->
        exists u q k, tree_at (snd (rg_algo s')) o u /\ outputs u X = Ok q /\ metric y q = Ok k /\ ~ better_score h k m.
  Proof.
    intros Hm Hf Htr Hme Hp Hk Hc E. apply fit_ok in E as (_ & E & F). destruct s as [f0 [a w]], s' as [f1 [a' w']]. cbn [rg_algo rg_fitted fst snd] in *.
    pose proof (run_kinds no_penalty (regression_evaluate fsem const unspecified metric X y) sched n a w Hk) as K. rewrite E in K. cbn [snd] in K.
    specialize (K (fun sp Hs _ c Hc' => Hc sp Hs c Hc')).
    destruct (best_of_run _ _ _ _ _ _ _ h (regression_numbers X y Hm) Hf Htr Hme Hp E) as (b & B & Ib & V).
    assert (G : forall o, In o (concat (evals (a_trace a'))) -> exists i t p m, at_ w' o = Some i /\ i_genome i = GTree t /\
              outputs t X = Ok p /\ metric y p = Ok m /\ get_pure_fitness (i_fit i) = Ok (VNum m)).
    { intros o Ho. destruct (V o Ho) as [(i & v & A & Ev & Pv) _]. destruct (i_genome i) as [vec|t] eqn:Eg; cbn in Ev; [discriminate|].
      destruct (outputs t X) as [p|] eqn:Ep; [|discriminate]. cbn [rbind] in Ev. destruct (metric y p) as [m|] eqn:Em; [|discriminate]. injection Ev as <-.
      exists i, t, p, m. auto. }
    destruct (G b Ib) as (i & t & p & m & A & Eg & Ep & Em & Pm). exists b, t, p, m.
    assert (Pr : forall X', predict X' (mkReg f1 (a', w')) = outputs t X') by (intros X'; eapply predict_best; eauto).
    split; [exact Ib|]. split; [exists i; auto|]. split; [exact Pr|]. split; [rewrite Pr; exact Ep|]. split; [exact Em|].
    intros o Ho. destruct (G o Ho) as (j & u & q & k & Aj & Egj & Eq & Ek & Pk). exists u, q, k.
    destruct (V o Ho) as [_ (x1 & x2 & S1 & S2 & N)]. rewrite (plain_score _ _ _ _ _ K S1 Aj Pk), (plain_score _ _ _ _ _ K S2 A Pm) in N.
    split; [exists j; auto|]. auto.
  Qed.

  Lemma predict_unfitted X s : rg_fitted s = false -> predict X s = Raise ValueError.
  Proof. intros F. unfold Regressor.predict. rewrite F. reflexivity. Qed.

  Lemma fit_bad n X y s : a_rows X = 0 \/ a_cols X = [] \/ (exists c x, In c (a_cols X) /\ In x c /\ is_fin x = false) \/
      length y <> a_rows X \/ (exists x, In x y /\ is_fin x = false) -> fit n X y s = (Raise ValueError, s).
  Proof.
    intros H. unfold Regressor.fit, check_X_y.
    destruct (a_rows X =? 0) eqn:E1; [reflexivity|]. destruct (length (a_cols X) =? 0) eqn:E2; [reflexivity|].
    destruct (forallb (forallb is_fin) (a_cols X)) eqn:E3; [|reflexivity]. destruct (length y =? a_rows X) eqn:E4; [|reflexivity].
    destruct (forallb is_fin y) eqn:E5; [|reflexivity]. exfalso.
    apply Nat.eqb_neq in E1, E2. apply Nat.eqb_eq in E4. rewrite forallb_forall in E3, E5.
    destruct H as [H|[H|[(c & x & Hc & Hx & F)|[H|(x & Hx & F)]]]]; [lia|rewrite H in E2; cbn in E2; lia| |lia|rewrite (E5 x Hx) in F; discriminate].
    specialize (E3 c Hc). rewrite forallb_forall in E3. rewrite (E3 x Hx) in F. discriminate.
  Qed.

  Lemma fit_again n X y s s' : fit n X y s = (Ok tt, s') -> forall n' X' y', check_X_y X' y' = Ok tt ->
    exists s2, fit n' X' y' s' = (Raise RuntimeError, s2) /\ forall X2, predict X2 s2 = predict X2 s'.
  Proof.
    intros E n' X' y' Ec. apply fit_ok in E as (_ & E & F). destruct s as [f0 [a w]], s' as [f1 [a' w']]. cbn [rg_algo rg_fitted] in *. subst f1.
    destruct (evolve_twice _ _ _ _ _ _ _ (regression_evaluate fsem const unspecified metric X' y') sched n' E) as (a2 & w2 & E2 & Hh & _ & Hb).
    unfold Regressor.fit. rewrite Ec. cbn [rg_algo rg_fitted]. rewrite E2. eexists. split; [reflexivity|]. intros X2. unfold Regressor.predict. cbn [rg_algo rg_fitted fst snd].
    rewrite Hh, Hb. reflexivity.
  Qed.

  Lemma fit_fails n X y s e s' : fit n X y s = (Raise e, s') -> rg_fitted s' = rg_fitted s.
  Proof.
    intros H. unfold Regressor.fit in H. destruct (check_X_y X y); [|injection H as _ <-; reflexivity].
    destruct (evolve _ _ _ _) as [[x|e1] st]; [discriminate|]. injection H as _ <-. reflexivity.
  Qed.
End Fit.

Lemma table_accepted X y : float_table X -> targets X y -> check_X_y X y = Ok tt.
Proof.
  intros (_ & H2 & H3 & H4) (T1 & T2). unfold check_X_y. rewrite T1, Nat.eqb_refl.
  replace (a_rows X =? 0) with false by (symmetry; apply Nat.eqb_neq; lia).
  replace (length (a_cols X) =? 0) with false by (destruct (a_cols X); [congruence|reflexivity]).
  replace (forallb (forallb is_fin) (a_cols X)) with true.
  2:{ symmetry. apply forallb_forall. intros c Hc. apply forallb_forall. intros x Hx. destruct (H4 c Hc) as [_ F]. rewrite Forall_forall in F. auto. }
  replace (forallb is_fin y) with true; [reflexivity|]. symmetry. apply forallb_forall. rewrite Forall_forall in T2. exact T2.
Qed.

Lemma fit_completes us ul usin ucos utan unspecified sched h t0 sp n X y f0 a w :
  finite_functions us ul usin ucos utan -> fair sched -> float_table X -> targets X y -> a_trace a = [] -> configured h a w sp ->
  numeric_functions (t_fset t0) -> map fst (t_tset t0) = create_terminal_set X ->
  supplied t0 (t_root_type t0) -> typed_terminals t0 (t_root_type t0) -> printable_terminals t0 ->
  (forall lo hi, t_erc t0 = Some (ErcFloat lo hi) -> exists a b, lo = Fin a /\ hi = Fin b /\ (a <= b)%Q) ->
  Forall tree_operator (sp_ops sp) ->
  (forall op mu sigma, In op (sp_ops sp) -> op_kind op = OErc mu sigma -> is_fin mu = true /\ is_fin sigma = true) ->
  match sp_inds sp with
  | Some l => genomes_in (trees_of t0 (program_node t0)) l w
  | None => Forall (tree_creator t0 (sp_size sp)) (sp_creators sp)
  end ->
  exists s', fit (base_array us ul usin ucos utan) (fun v => Scalar (number_const v)) unspecified mean_absolute_error sched n X y (mkReg f0 (a, w)) = (Ok tt, s') /\
    exists rt, saturated rt /\ (forall nd, In nd (flatten rt) -> program_node t0 nd) /\
      forall X', float_table X' -> length (a_cols X') = length (a_cols X) ->
      exists p, predict (base_array us ul usin ucos utan) (fun v => Scalar (number_const v)) unspecified X' s' = Ok p /\ length p = a_rows X' /\
        forall r, r < a_rows X' -> exists q, nth_error p r = Some (Fin q) /\
          eval num (fun f xs => Ok (base_scalar us ul usin ucos utan f xs)) number_const (row_env X' r) rt = Ok (Fin q).
Proof.
  intros FF Hf FX Ty Htr C NF Ht Hs Htt Hp He Ho Hop Hi.
  pose (fsem := base_array us ul usin ucos utan). pose (cst := fun v => Scalar (number_const v)).
  assert (K : node_kind t0 (sp_ops sp) (program_node t0)).
  { apply program_kind; auto. intros v ty Hv b x tag ->. apply (in_map fst) in Hv. rewrite Ht in Hv. apply in_map_iff in Hv as (i & [=] & _). }
  assert (Out : forall g, trees_of t0 (program_node t0) g -> exists t rt, g = GTree t /\ saturated rt /\ (forall nd, In nd (flatten rt) -> program_node t0 nd) /\
            forall X', float_table X' -> length (a_cols X') = length (a_cols X) ->
            exists p, outputs fsem cst unspecified t X' = Ok p /\ length p = a_rows X' /\
              forall r, r < a_rows X' -> exists q, nth_error p r = Some (Fin q) /\
                eval num (fun f xs => Ok (base_scalar us ul usin ucos utan f xs)) number_const (row_env X' r) rt = Ok (Fin q)).
  { intros g [(t & rt & -> & Sp & _ & Sat & Fl & _) Hn]. exists t, rt. split; [reflexivity|]. split; [exact Sat|].
    assert (Hn' : forall nd, In nd (t_nodes t) -> program_node t0 nd) by (intros nd Hnd; eapply Hn; [reflexivity|exact Hnd]).
    split; [rewrite Fl; exact Hn'|]. intros X' FX' L. refine (base_outputs us ul usin ucos utan unspecified t0 t rt X' FF FX' NF _ Sp Sat Fl Hn'). rewrite (same_columns X X' L). exact Ht. }
  pose (ev := regression_evaluate fsem cst unspecified mean_absolute_error X y).
  assert (Num : gives_numbers ev).
  { apply regression_numbers. intros p m E. destruct (error_number y p m E) as (q & -> & _). reflexivity. }
  assert (Tot : total_on (trees_of t0 (program_node t0)) ev).
  { intros g Hg. destruct (Out g Hg) as (t & rt & -> & _ & _ & O). destruct (O X FX eq_refl) as (p & Ep & Lp & Hr).
    unfold ev, regression_evaluate. rewrite Ep. cbn [rbind]. destruct Ty as [Ly Fy]. destruct (fins_all y Fy) as (ys & ->).
    destruct (fins_all p) as (ps & ->).
    { apply Forall_forall. intros x Hx. apply In_nth_error in Hx as (r & Er). assert (r < length p) by (apply nth_error_Some; congruence).
      destruct (Hr r) as (q & Eq & _); [congruence|]. rewrite Eq in Er. injection Er as <-. reflexivity. }
    rewrite map_length in *. destruct (error_value ys ps) as (m & -> & _).
    - intros ->. destruct FX as (_ & _ & Pos & _). cbn in Ly. lia.
    - congruence.
    - cbn [rbind]. eauto. }
  destruct (run_ends (trees_of t0 (program_node t0)) ev sched h sp n a w Num Tot Hf Htr C) as (a' & w' & b & i & B & A & Gi & E & _).
  { eapply program_run_closed; eauto. }
  rewrite (show_printable i) in E by (eapply trees_printable; [exact Hp|apply Gi]).
  exists (mkReg true (a', w')). split.
  { unfold fit. rewrite (table_accepted X y FX Ty). cbn [rg_algo]. change (regression_evaluate _ _ _ _ X y) with ev. rewrite E. reflexivity. }
  destruct (Out _ Gi) as (t & rt & Eg & Sat & Hn & O). exists rt. split; [exact Sat|]. split; [exact Hn|]. intros X' FX' L.
  pose proof (predict_best fsem cst unspecified t X' (mkReg true (a', w')) b i eq_refl B A Eg) as P. fold fsem. fold cst. rewrite P. exact (O X' FX' L).
Qed.

Lemma failed_fit fsem const unspecified metric sched n X y s e s' :
  fit fsem const unspecified metric sched n X y s = (Raise e, s') ->
  rg_fitted s' = rg_fitted s /\ (rg_fitted s = false -> forall X', predict fsem const unspecified X' s' = Raise ValueError).
Proof. intros H. apply fit_fails in H. split; [exact H|]. intros E X'. apply predict_unfitted. congruence. Qed.
