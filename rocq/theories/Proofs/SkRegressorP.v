(** * Lemmas about fitted regressors (C93). *)
From Coq Require Import Lia QArith Lqa Qabs.
From Verif.Proofs Require Import ExamplesP TargetP TreeP TreeExecP CompleteTreeP ProgramP BaseP SetupP CheckP ClassP RegP ColumnsP SkClassifierP.
From Verif.Model Require Import Double Num Fitness Tree World Creators Evolution Statistics Execute Setup Make BaseFns SkClassifier Regressor SkRegressor.
From Verif.Spec Require Import WorldSpec FitnessSpec TreeSpec SelSpec EvoSpec CompleteSpec ShowSpec StatSpec BaseSpec RegSpec SkRegressorSpec.
Open Scope string_scope.
Open Scope nat_scope.
Open Scope list_scope.

Section Tree.
  Variables (us ul usin ucos utan unspecified : num -> num) (t0 : tree).
  Hypothesis FF : finite_functions us ul usin ucos utan.
  Hypothesis NF : numeric_functions (t_fset t0).

  Notation fsem := (base_array us ul usin ucos utan).
  Notation fs := (base_scalar us ul usin ucos utan).
  Notation cst := (fun v => Scalar (number_const v)).

  Lemma tree_computes t rt X : float_table X -> map fst (t_tset t0) = create_terminal_set X -> same_primitives t0 t -> saturated rt -> flatten rt = t_nodes t ->
    (forall nd, In nd (t_nodes t) -> program_node t0 nd) ->
    exists p, outputs fsem cst unspecified t X = Ok (map Fin p) /\ computes fs rt X p.
  Proof.
    intros FX Ht Sp Hs E Hq. destruct (base_outputs us ul usin ucos utan unspecified t0 t rt X FF FX NF Ht Sp Hs E Hq) as (p & Ep & Lp & Hr).
    destruct (fins_all p) as (ps & ->).
    { apply Forall_forall. intros x Hx. apply In_nth_error in Hx as (r & Er). assert (r < length p) by (apply nth_error_Some; congruence).
      destruct (Hr r) as (q & Eq & _); [congruence|]. rewrite Eq in Er. injection Er as <-. reflexivity. }
    exists ps. split; [exact Ep|]. split; [rewrite <- Lp, map_length; reflexivity|]. intros r Lr. destruct (Hr r Lr) as (q & Eq & Ev).
    exists q. split; [|exact Ev]. rewrite nth_error_map in Eq. destruct (nth_error ps r); [|discriminate]. injection Eq as ->. reflexivity.
  Qed.

  Variables (h : bool) (sched : nat -> list nat) (stats : list stat) (sp : subpop) (X : array) (ys : list Q) (f0 : bool) (a : algo) (w : world).
  Hypothesis Hf : fair sched.
  Hypothesis FX : float_table X.
  Hypothesis Ly : length ys = a_rows X.
  Hypothesis Htr : a_trace a = [].
  Hypothesis Hst : a_stats a = 0.
  Hypothesis Hfin : a_final a = None.
  Hypothesis Hw : w_heap w = [].
  Hypothesis C : configured h a w sp.
  Hypothesis Hi : sp_inds sp = None.
  Hypothesis Ht : map fst (t_tset t0) = create_terminal_set X.
  Hypothesis Hs : supplied t0 (t_root_type t0).
  Hypothesis Htt : typed_terminals t0 (t_root_type t0).
  Hypothesis Hp : printable_terminals t0.
  Hypothesis He : forall lo hi, t_erc t0 = Some (ErcFloat lo hi) -> exists a b, lo = Fin a /\ hi = Fin b /\ (a <= b)%Q.
  Hypothesis Ho : Forall tree_operator (sp_ops sp).
  Hypothesis Hop : forall op mu sigma, In op (sp_ops sp) -> op_kind op = OErc mu sigma -> is_fin mu = true /\ is_fin sigma = true.
  Hypothesis Hc : Forall (tree_creator t0 (sp_size sp)) (sp_creators sp).
  Hypothesis Hk : Forall (made_with no_penalty) (sp_creators sp).

  Notation ev := (regression_evaluate fsem cst unspecified mean_absolute_error X (map Fin ys)).
  Notation fitted := (fit fsem cst unspecified mean_absolute_error sched (length stats) X (map Fin ys) (mkReg f0 (a, w))).
  Notation fits_data := (fits_data fs t0 X ys).

  Lemma regressor_runs : exists s' ls b rt p m k,
    fitted = (Ok tt, s') /\ evolve ev sched (length stats) (a, w) = (Ok tt, rg_algo s') /\
    evolve_all ev sched (fun _ => []) stats ((a, w), []) = (Ok tt, (rg_algo s', ls)) /\
    a_best_run (fst (rg_algo s')) = Some b /\ In b (concat (evals (a_trace (fst (rg_algo s'))))) /\
    fits_data (snd (rg_algo s')) b rt p m /\ predict fsem cst unspecified X s' = Ok (map Fin p) /\
    (forall X', float_table X' -> length (a_cols X') = length (a_cols X) ->
       exists p', predict fsem cst unspecified X' s' = Ok (map Fin p') /\ computes fs rt X' p') /\
    length (evals (a_trace (fst (rg_algo s')))) = S k /\ (a_final (fst (rg_algo s')) = Some k \/ k = a_max_gen a /\ a_final (fst (rg_algo s')) = None) /\
    forall g, In g (evals (a_trace (fst (rg_algo s')))) -> length g = sp_size sp /\
      forall o, In o g -> exists rt' p' m', fits_data (snd (rg_algo s')) o rt' p' m' /\ (if h then (m' <= m)%Q else (m <= m')%Q).
  Proof.
    set (G := trees_of t0 (program_node t0)).
    assert (K : node_kind t0 (sp_ops sp) (program_node t0)).
    { apply program_kind; auto. intros v ty Hv b x tag ->. apply (in_map fst) in Hv. rewrite Ht in Hv. apply in_map_iff in Hv as (i & [=] & _). }
    assert (Yn : ys <> []) by (intros ->; destruct FX as (_ & _ & P & _); cbn in Ly; lia).
    assert (Val : forall t, G (GTree t) -> exists rt p m, saturated rt /\ flatten rt = t_nodes t /\ (forall nd, In nd (flatten rt) -> program_node t0 nd) /\
              outputs fsem cst unspecified t X = Ok (map Fin p) /\ computes fs rt X p /\ mean_of (total_difference ys p) (length ys) m /\
              ev (GTree t) = Ok (VNum (Fin m)) /\
              forall X', float_table X' -> length (a_cols X') = length (a_cols X) ->
              exists p, outputs fsem cst unspecified t X' = Ok (map Fin p) /\ computes fs rt X' p).
    { intros t [(t' & rt & [= <-] & Sp & _ & Sat & Fl & _) Hq].
      assert (Hq' : forall nd, In nd (t_nodes t) -> program_node t0 nd) by (intros nd Hnd; eapply Hq; [reflexivity|exact Hnd]).
      destruct (tree_computes t rt X FX Ht Sp Sat Fl Hq') as (p & Ep & Cp).
      destruct (error_value ys p Yn) as (m & Em & Mm & _); [rewrite Ly; symmetry; apply Cp|]. exists rt, p, m. split; [exact Sat|]. split; [exact Fl|].
      split; [rewrite Fl; exact Hq'|]. repeat (split; [assumption|]). split.
      - unfold regression_evaluate. rewrite Ep. cbn [rbind]. rewrite Em. reflexivity.
      - intros X' FX' L. apply tree_computes; auto. rewrite (same_columns X X' L). exact Ht. }
    assert (N : numbers_on G ev).
    { intros g Hg. pose proof Hg as [(t & rt & -> & _) _]. destruct (Val t Hg) as (_ & _ & m & _ & _ & _ & _ & _ & _ & E & _). exists (Fin m). split; [exact E|reflexivity]. }
    destruct (program_run G ev sched h sp stats a w) as (a' & w' & b & k & ls & Eall & Ev & B & Ib & Lk & Fk & V & Best); auto.
    { eapply program_run_closed; eauto. rewrite Hi. exact Hc. }
    { intros g [Hg _]. apply (trees_printable t0); auto. }
    { rewrite Forall_forall in Hk. exact Hk. }
    assert (D : forall o, In o (concat (evals (a_trace a'))) -> exists t rt p m, tree_at w' o t /\ fits_data w' o rt p m /\
              outputs fsem cst unspecified t X = Ok (map Fin p) /\
              forall X', float_table X' -> length (a_cols X') = length (a_cols X) ->
              exists p, outputs fsem cst unspecified t X' = Ok (map Fin p) /\ computes fs rt X' p).
    { intros o Hin. apply in_concat in Hin as (g & Hg & Hin). destruct (V g Hg) as [_ Vo]. destruct (Vo o Hin) as (i & x & A & Gi & Ex & Px).
      pose proof Gi as [(t & rt0 & Eg & _) _]. rewrite Eg in Gi, Ex. destruct (Val t Gi) as (rt & p & m & Sat & Fl & Q & El & Cl & Sm & Em & O).
      rewrite Em in Ex. injection Ex as <-. exists t, rt, p, m. assert (T : tree_at w' o t) by (exists i; auto). split; [exact T|].
      split; [exists t; repeat (split; [assumption|]); exists i; auto|]. split; [exact El|exact O]. }
    destruct (D b Ib) as (t & rt & p & m & T & J & El & O).
    set (s' := mkReg true (a', w')).
    assert (Pr : forall X', predict fsem cst unspecified X' s' = outputs fsem cst unspecified t X').
    { intros X'. destruct T as (i & A & Eg). exact (predict_best fsem cst unspecified t X' s' b i eq_refl B A Eg). }
    exists s', ls, b, rt, p, m, k. split.
    { unfold fit. rewrite (table_accepted X (map Fin ys) FX); [|split; [rewrite map_length; exact Ly|apply Forall_forall; intros x Hx; apply in_map_iff in Hx as (z & <- & _); reflexivity]].
      cbn [rg_algo]. rewrite Ev. reflexivity. }
    cbn [rg_algo s' fst snd]. split; [exact Ev|]. split; [exact Eall|]. split; [exact B|]. split; [exact Ib|]. split; [exact J|].
    split; [rewrite Pr; exact El|]. split; [intros X' FX' L; rewrite Pr; apply O; assumption|]. split; [exact Lk|]. split; [exact Fk|].
    intros g Hg. destruct (V g Hg) as [Lg _]. split; [exact Lg|]. intros o Hin. assert (Hin' : In o (concat (evals (a_trace a')))) by (apply in_concat; eauto).
    destruct (D o Hin') as (t' & rt' & p' & m' & _ & J' & _). exists rt', p', m'. split; [exact J'|].
    destruct J as (_ & _ & _ & _ & _ & _ & _ & Pb). destruct J' as (_ & _ & _ & _ & _ & _ & _ & Po). specialize (Best o _ _ Hin' Po Pb).
    destruct h; cbn [better_score nlt] in Best; unfold Qlt_b in Best.
    - destruct (Qle_bool m' m) eqn:Q; [apply Qle_bool_iff in Q; exact Q|elim Best; reflexivity].
    - destruct (Qle_bool m m') eqn:Q; [apply Qle_bool_iff in Q; exact Q|elim Best; reflexivity].
  Qed.
End Tree.

(** ** The program *)

Notation reg_erc := (Some (ErcFloat (Fin (-100)) (Fin 100))).
Definition reg_ops : list oper := [mkOper OSubtreeXO (Fin (9 # 10)) 2 1; mkOper (OSubtreeMut 2 4) (Fin (1 # 5)) 1 1; mkOper (OErc (Fin 0) (Fin 1)) (Fin (1 # 20)) 1 1].
Definition reg_sub (columns size : nat) (p : Q) : subpop :=
  mkSub [column_creator false regression_functions columns reg_erc] [Fin p] reg_ops [SelTournament 4 true 1] size (HB false) (Z.to_nat (n_elite_of (double (1 # 20)) size)) None.
Definition reg_algo (columns size max_gen : nat) (stamp : Z) (p : Q) : algo :=
  mkAlgo [reg_sub columns size p] max_gen [CkThreshold (Fin 0) (Fin (double (1 # 100)))] (stamp mod 4294967296)%Z (stamp mod 4294967296)%Z ByMap true None None None 0 None 0 [].

Lemma reg_setup columns max_gen sum stamp : sum = sum_plain \/ sum = sum_compensated ->
  exists su p, regression_program columns max_gen sum stamp = Ok su /\ su_stats su = 1 /\ (0 < p)%Q /\
    su_algo su = reg_algo columns 1000 max_gen stamp p.
Proof.
  intros Hs. set (p := ddiv 1 (of_count 1)). unfold regression_program. generalize 1000 as size. intros size.
  assert (Es : new_subpopulation sum (CrOne (column_creator false regression_functions columns reg_erc)) None (Some reg_ops) (Some [new_tournament 4 None]) (double (1 # 20)) size None (HB false) =
    Ok (reg_sub columns size p)).
  { apply subpopulation_ok. exists [column_creator false regression_functions columns reg_erc]. split; [left; eauto|]. split; [discriminate|]. exists [p], reg_ops. split; [right; auto|]. split; [reflexivity|].
    split; [|split; reflexivity]. destruct Hs as [->| ->]; vm_compute; reflexivity. }
  match goal with |- context [new_half ?l] => change (new_half l) with (Ok (column_creator false regression_functions columns reg_erc)) end.
  cbn [rbind]. match goal with |- context [new_operators ?l] => change (new_operators l) with (Ok reg_ops) end. cbn [rbind].
  rewrite Es. cbn [rbind]. eexists _, p. split; [reflexivity|]. split; [reflexivity|]. split; [vm_compute; reflexivity|]. reflexivity.
Qed.

Lemma regression_suitable : suitable false regression_functions.
Proof.
  split; [discriminate|]. intros f Hf. cbn in Hf. repeat (destruct Hf as [<-|Hf]; [split; [reflexivity|]; split; [discriminate|]; split; [cbn; intuition congruence|cbn; tauto]|]). destruct Hf.
Qed.

Lemma mean_nonneg ys p m : ys <> [] -> mean_of (total_difference ys p) (length ys) m -> (0 <= m)%Q.
Proof.
  intros N M. unfold mean_of in M. assert (P : (0 < inject_Z (Z.of_nat (length ys)))%Q) by (destruct ys; [congruence|]; unfold Qlt, inject_Z; cbn; lia).
  rewrite <- (Qmult_le_r 0 m _ P), M, Qmult_0_l. apply total_nonneg.
Qed.

Lemma regression_fits : forall us ul usin ucos utan unspecified max_gen sum stamp sched w X ys,
  finite_functions us ul usin ucos utan -> sum = sum_plain \/ sum = sum_compensated -> fair sched -> w_heap w = [] -> float_table X -> length ys = a_rows X ->
  let t0 := mkTree regression_functions (column_terminals false (length (a_cols X))) (Some (ErcFloat (Fin (-100)) (Fin 100))) None [] in
  exists su s' ls b rt p m k, regression_program (length (a_cols X)) max_gen sum stamp = Ok su /\ su_stats su = 1 /\
    fit (base_array us ul usin ucos utan) (fun v => Scalar (number_const v)) unspecified mean_absolute_error sched 1 X (map Fin ys)
      (mkReg false (su_algo su, w)) = (Ok tt, s') /\
    evolve_all (regression_evaluate (base_array us ul usin ucos utan) (fun v => Scalar (number_const v)) unspecified mean_absolute_error X (map Fin ys))
      sched (fun _ => []) [SBestAverageWorst] ((su_algo su, w), []) = (Ok tt, (rg_algo s', ls)) /\
    a_best_run (fst (rg_algo s')) = Some b /\ In b (concat (evals (a_trace (fst (rg_algo s'))))) /\
    fits_data (base_scalar us ul usin ucos utan) t0 X ys (snd (rg_algo s')) b rt p m /\
    predict (base_array us ul usin ucos utan) (fun v => Scalar (number_const v)) unspecified X s' = Ok (map Fin p) /\
    (forall X', float_table X' -> length (a_cols X') = length (a_cols X) ->
       exists p', predict (base_array us ul usin ucos utan) (fun v => Scalar (number_const v)) unspecified X' s' = Ok (map Fin p') /\
         computes (base_scalar us ul usin ucos utan) rt X' p') /\
    length (evals (a_trace (fst (rg_algo s')))) = S k /\
    (forall g, In g (evals (a_trace (fst (rg_algo s')))) -> length g = 1000 /\ forall o, In o g -> exists rt' p' m',
       fits_data (base_scalar us ul usin ucos utan) t0 X ys (snd (rg_algo s')) o rt' p' m' /\ (m <= m')%Q) /\
    ((m <= double (1 # 100))%Q /\ a_final (fst (rg_algo s')) = Some k \/
     (double (1 # 100) < m)%Q /\ a_final (fst (rg_algo s')) = None /\ k = max_gen).
Proof.
  intros us ul usin ucos utan unspecified max_gen sum stamp sched w X ys FF Hsum Hf Hw FX Ly.
  destruct (reg_setup (length (a_cols X)) max_gen sum stamp Hsum) as (su & q & E & Es & Hq & Ea). revert E Ea.
  assert (H6 : 6 <= 1000) by (repeat apply le_n_S; lia). assert (H2 : Nat.divide 2 1000) by (exists 500; reflexivity).
  generalize (regression_program (length (a_cols X)) max_gen sum stamp). revert H6 H2. generalize 1000 as size. intros size H6 H2 prog E Ea.
  set (t0 := column_tree false regression_functions (length (a_cols X)) reg_erc).
  assert (Hc : 0 < length (a_cols X)) by (destruct FX as (_ & N & _); destruct (a_cols X); [congruence|cbn; lia]).
  assert (HE : reg_erc = None \/ exists lo hi, reg_erc = Some (ErcFloat (Fin lo) (Fin hi)) /\ (lo <= hi)%Q) by (right; eexists _, _; split; [reflexivity|discriminate]).
  pose proof regression_suitable as Su.
  destruct (regressor_runs us ul usin ucos utan unspecified t0 FF (column_numeric false regression_functions _ reg_erc Su) false sched [SBestAverageWorst]
    (reg_sub (length (a_cols X)) size q) X ys false (reg_algo (length (a_cols X)) size max_gen stamp q) w)
    as (s' & ls & b & rt & p & m & k & Ef & Ev & Eall & B & Ib & J & Pr & PrX & Lk & Fk & V); auto.
  { constructor; try reflexivity; auto.
    - cbn. lia.
    - intros d. cbn. intros [<-|[<-|[<-|[<-|[]]]]]; (split; [discriminate|]); [apply Nat.divide_1_l|exact H2|apply Nat.divide_1_l|apply Nat.divide_1_l].
    - eexists _, _. split; [reflexivity|]. cbn. repeat split; [lia|discriminate].
    - cbn. split; [reflexivity|]. split; [exists (0 + q)%Q; split; [reflexivity|]; rewrite Qplus_0_l; exact Hq|]. intros c0 [<-|[]]. split; reflexivity.
    - constructor; [exact I|constructor]. }
  { apply column_names. }
  { apply column_supplied; auto. }
  { apply column_typed; auto. }
  { apply column_printable; auto. }
  { apply (column_constants false regression_functions (length (a_cols X)) reg_erc HE). }
  { repeat constructor. }
  { cbn. intros op mu sigma [<-|[<-|[<-|[]]]]; try discriminate. intros [= <- <-]. split; reflexivity. }
  { constructor; [|constructor]. apply column_creates; auto. }
  { constructor; [|constructor]. split; reflexivity. }
  rewrite <- Ea in Ef, Ev, Eall. exists su, s', ls, b, rt, p, m, k. split; [exact E|]. split; [exact Es|]. split; [exact Ef|]. split; [exact Eall|]. split; [exact B|]. split; [exact Ib|]. split; [exact J|].
  split; [exact Pr|]. split; [exact PrX|]. split; [exact Lk|]. split; [exact V|].
  destruct s' as [fi [a' w']]. cbn [rg_algo fst snd] in *. pose proof J as (_ & _ & _ & _ & _ & Cl & Sm & Pb).
  assert (M0 : (0 <= m)%Q) by (apply (mean_nonneg ys p m); [intros ->; destruct FX as (_ & _ & P & _); cbn in Ly; lia|exact Sm]).
  assert (T : a_final a' <> None <-> (m <= double (1 # 100))%Q).
  { match type of Ev with evolve ?ev _ _ _ = _ =>
      destruct (target_exact ev sched 1 (su_algo su) w a' w' 0 (double (1 # 100))) as (b' & i & x & B' & A & Px & F); [rewrite Ea; reflexivity|rewrite Ea; reflexivity|exact Ev|] end.
    assert (b' = b) as -> by congruence. destruct Pb as (j & A' & Pj). assert (j = i) as -> by congruence. rewrite Pj in Px. injection Px as <-. rewrite F.
    assert (D0 : (0 <= double (1 # 100))%Q) by (vm_compute; discriminate).
    split; [intros (z & [= <-] & Q); apply Qabs_Qle_condition in Q; lra|]. intros Q. exists m. split; [reflexivity|]. apply Qabs_Qle_condition. lra. }
  destruct (Qlt_le_dec (double (1 # 100)) m) as [O|O].
  - right. split; [exact O|]. destruct Fk as [F|[Fk F]]; [|auto]. assert (m <= double (1 # 100))%Q by (apply T; congruence). lra.
  - left. split; [exact O|]. destruct Fk as [F|[_ F]]; [exact F|]. apply T in O. congruence.
Qed.

(** ** The programs are polynomials *)

Lemma polynomial_program fs rt n t0 X : saturated rt -> (forall f, In f regression_functions -> exists op, (forall x y, fs f [Fin x; Fin y] = Fin (op x y)) /\
      (op = Qplus \/ op = Qminus \/ op = Qmult)) ->
  t_fset t0 = regression_functions -> map fst (t_tset t0) = create_terminal_set X -> n = length (a_cols X) ->
  (forall nd, In nd (flatten rt) -> program_node t0 nd) ->
  exists P, polynomial n P /\ forall X' r v, length (a_cols X') = length (a_cols X) -> row_values X' r v ->
    eval num (fun f xs => Ok (fs f xs)) number_const (row_env X' r) rt = Ok (Fin (P v)).
Proof.
  intros Hs Hf Fs Ts ->. induction rt as [nd ks IH] using rose_ind. intros Hn. destruct Hs as [Hl Hs]. rewrite All_In in IH, Hs. destruct nd as [f|val ty].
  - assert (Hk : forall k, In k ks -> exists P, polynomial (length (a_cols X)) P /\ forall X' r v, length (a_cols X') = length (a_cols X) -> row_values X' r v ->
       eval num (fun f xs => Ok (fs f xs)) number_const (row_env X' r) k = Ok (Fin (P v))).
    { intros k Hk. apply IH; auto. intros nd Hnd. apply Hn. right. apply in_flat_map. eauto. }
    assert (Hin : In f regression_functions) by (rewrite <- Fs; apply (Hn (FNode f)); left; reflexivity).
    assert (Ar : arity f = 2) by (cbn in Hin; repeat (destruct Hin as [<-|Hin]; [reflexivity|]); destruct Hin). change (length ks = arity f) in Hl. rewrite Ar in Hl.
    destruct ks as [|k1 [|k2 [|k3 ks]]]; try discriminate. destruct (Hk k1) as (P1 & Po1 & E1); [now left|]. destruct (Hk k2) as (P2 & Po2 & E2); [now right; left|].
    destruct (Hf f Hin) as (op & Eop & Op). exists (fun v => op (P1 v) (P2 v)). split.
    + destruct Op as [->|[->| ->]]; constructor; assumption.
    + intros X' r v L V. cbn [eval map]. cbn [collect]. rewrite (E1 X' r v L V), (E2 X' r v L V). cbn [collect]. rewrite Eop. reflexivity.
  - pose proof (Hn (TNode val ty) (or_introl eq_refl)) as Q. destruct val as [s|b x tag]; cbn [program_node] in Q.
    + rewrite Ts in Q. unfold create_terminal_set in Q. apply in_map_iff in Q as (i & [= <-] & Hi). apply in_seq in Hi. exists (fun v => v i). split; [constructor; lia|].
      intros X' r v L V. cbn [eval eval_terminal]. unfold row_env. rewrite find_name by lia. destruct (V i) as (c & Ec & Er); [lia|]. rewrite Ec, Er. reflexivity.
    + destruct x as [q| | |]; try discriminate. exists (fun _ => q). split; [constructor|]. intros X' r v _ _. reflexivity.
Qed.

Lemma regression_base us ul usin ucos utan f : In f regression_functions -> exists op, (forall x y, base_scalar us ul usin ucos utan f [Fin x; Fin y] = Fin (op x y)) /\
  (op = Qplus \/ op = Qminus \/ op = Qmult).
Proof.
  intros H. cbn in H. destruct H as [<-|[<-|[<-|[]]]]; [exists Qplus|exists Qmult|exists Qminus]; (split; [intros; reflexivity|auto]).
Qed.

Lemma regression_polynomial : forall us ul usin ucos utan unspecified max_gen sum stamp sched w X ys,
  finite_functions us ul usin ucos utan -> sum = sum_plain \/ sum = sum_compensated -> fair sched -> w_heap w = [] -> float_table X -> length ys = a_rows X ->
  exists su s' P, regression_program (length (a_cols X)) max_gen sum stamp = Ok su /\
    fit (base_array us ul usin ucos utan) (fun v => Scalar (number_const v)) unspecified mean_absolute_error sched 1 X (map Fin ys)
      (mkReg false (su_algo su, w)) = (Ok tt, s') /\ polynomial (length (a_cols X)) P /\
    forall X', float_table X' -> length (a_cols X') = length (a_cols X) ->
      exists p, predict (base_array us ul usin ucos utan) (fun v => Scalar (number_const v)) unspecified X' s' = Ok p /\ length p = a_rows X' /\
        forall r v, r < a_rows X' -> row_values X' r v -> nth_error p r = Some (Fin (P v)).
Proof.
  intros us ul usin ucos utan unspecified max_gen sum stamp sched w X ys FF Hsum Hf Hw FX Ly.
  destruct (regression_fits us ul usin ucos utan unspecified max_gen sum stamp sched w X ys FF Hsum Hf Hw FX Ly)
    as (su & s' & ls & b & rt & p & m & k & E & _ & Ef & _ & _ & _ & J & _ & PrX & _).
  destruct J as (t & _ & _ & Sat & Hn & _).
  edestruct (polynomial_program (base_scalar us ul usin ucos utan) rt (length (a_cols X)) (column_tree false regression_functions (length (a_cols X)) reg_erc) X Sat) as (P & Po & EP);
    [intros f Hin; apply regression_base, Hin|reflexivity|apply column_names|reflexivity|exact Hn|].
  exists su, s', P. split; [exact E|]. split; [exact Ef|]. split; [exact Po|]. intros X' FX' L. destruct (PrX X' FX' L) as (p' & Ep & Lp & Hr).
    exists (map Fin p'). split; [exact Ep|]. split; [rewrite map_length; exact Lp|]. intros r v Lr V. destruct (Hr r Lr) as (q & Eq & Ev). rewrite (EP X' r v L V) in Ev.
    injection Ev as <-. apply map_nth_error, Eq.
Qed.
