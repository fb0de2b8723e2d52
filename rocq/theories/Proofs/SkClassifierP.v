(** * Lemmas about fitted classifiers (C92). *)
From Coq Require Import Lia QArith Lqa Qabs.
From Verif.Proofs Require Import ExamplesP TargetP TreeP TreeExecP CompleteTreeP ProgramP BaseP SetupP CheckP ClassP RegP ColumnsP.
From Verif.Model Require Import Double Num Fitness Tree World Creators Evolution Statistics Execute Setup Make BaseFns Regressor SkClassifier.
From Verif.Spec Require Import WorldSpec FitnessSpec TreeSpec SelSpec EvoSpec CompleteSpec ShowSpec StatSpec BaseSpec RegSpec ClassSpec SkClassifierSpec.
Open Scope string_scope.
Open Scope nat_scope.
Open Scope list_scope.

(** ** Accuracy *)

Lemma whole_label z : whole (label z) = true.
Proof. unfold whole, label, num_to_Z. cbn [Qnum Qden inject_Z]. rewrite Z.mod_1_r. reflexivity. Qed.

Lemma labels_whole ys : forallb whole (map label ys) = true.
Proof. apply forallb_forall. intros x H. apply in_map_iff in H as (z & <- & _). apply whole_label. Qed.

Lemma class_label k : nof_nat k = label (Z.of_nat k).
Proof. reflexivity. Qed.

Lemma hits_filter ys : forall l, length (filter (fun e => neq_num (fst e) (snd e)) (combine (map label ys) (map nof_nat l))) = hits ys l.
Proof.
  induction ys as [|y ys IH]; intros [|k l]; try reflexivity. cbn [map combine filter hits fst snd]. unfold label at 1, nof_nat at 1. cbn [neq_num].
  destruct (Z.eq_dec y (Z.of_nat k)) as [->|N].
  - replace (Qeq_bool _ _) with true by (symmetry; apply Qeq_bool_iff; reflexivity). cbn. rewrite IH. reflexivity.
  - destruct (Qeq_bool _ _) eqn:E; [|cbn; apply IH]. exfalso. apply N. apply Qeq_bool_iff in E. unfold Qeq, inject_Z in E. cbn in E. lia.
Qed.

Lemma hits_bound ys : forall l, hits ys l <= length ys.
Proof. induction ys as [|y ys IH]; intros [|k l]; cbn; try lia. specialize (IH l). destruct (Z.eq_dec _ _); lia. Qed.

Lemma hits_all ys : forall l, length ys = length l -> (hits ys l = length ys <-> ys = map Z.of_nat l).
Proof.
  induction ys as [|y ys IH]; intros [|k l] L; try discriminate; [cbn; tauto|]. cbn [hits length map]. pose proof (hits_bound ys l) as B. specialize (IH l ltac:(cbn in L; lia)).
  destruct (Z.eq_dec y (Z.of_nat k)) as [->|N].
  - split; intros H; [f_equal; apply IH; lia|]. injection H as H. apply IH in H. lia.
  - split; intros H; [lia|]. injection H as H _. contradiction.
Qed.

Lemma hits_known n ys : forall l, Forall (fun k => k < n) l -> hits ys l <= known n ys.
Proof.
  unfold known. induction ys as [|y ys IH]; intros [|k l] F; cbn [hits filter length]; try lia. inversion F; subst. specialize (IH l ltac:(assumption)).
  destruct (Z.eq_dec y (Z.of_nat k)) as [->|N].
  - replace ((0 <=? Z.of_nat k)%Z && (Z.of_nat k <? Z.of_nat n)%Z) with true; [cbn; lia|]. symmetry. apply andb_true_intro. split; [apply Z.leb_le|apply Z.ltb_lt]; lia.
  - destruct (_ && _); cbn; lia.
Qed.

Lemma share_le k k' n m m' : 0 < n -> share k n m -> share k' n m' -> ((m <= m')%Q <-> k <= k').
Proof.
  unfold share. intros Hn H H'. assert (P : (0 < inject_Z (Z.of_nat n))%Q) by (unfold Qlt, inject_Z; cbn; lia).
  rewrite <- (Qmult_le_r m m' (inject_Z (Z.of_nat n)) P), H, H', <- Zle_Qle. lia.
Qed.

Lemma share_one n : share n n 1.
Proof. unfold share. ring. Qed.

Lemma share_zero n : share 0 n 0.
Proof. unfold share. ring. Qed.

Lemma accuracy_value ys l : ys <> [] -> length ys = length l ->
  exists m, accuracy_score (Some (map label ys)) (map nof_nat l) = Ok (Fin m) /\ share (hits ys l) (length ys) m /\ (0 <= m <= 1)%Q /\
    ((m == 1)%Q <-> ys = map Z.of_nat l).
Proof.
  intros Hn L. unfold accuracy_score. rewrite hits_filter, !map_length, L, Nat.eqb_refl, labels_whole.
  replace (forallb whole (map nof_nat l)) with true by (symmetry; rewrite <- (labels_whole (map Z.of_nat l)), map_map; reflexivity).
  assert (P : 0 < length l) by (destruct ys; [congruence|cbn in L; lia]). destruct (length l =? 0) eqn:E; [apply Nat.eqb_eq in E; lia|]. cbn [negb orb]. unfold nof_nat, ndiv.
  assert (Nz : ~ (inject_Z (Z.of_nat (length l)) == 0)%Q) by (unfold Qeq, inject_Z; cbn; lia).
  destruct (Qeq_bool _ 0) eqn:Q; [apply Qeq_bool_iff in Q; contradiction|]. clear Q. eexists. split; [reflexivity|]. set (m := (_ / _)%Q).
  assert (S : share (hits ys l) (length l) m) by (unfold share, m; rewrite Qmult_comm, Qmult_div_r by exact Nz; reflexivity). rewrite <- L in *.
  split; [exact S|]. split; [split|].
  - apply (share_le 0 (hits ys l) (length ys) 0 m P (share_zero _) S). lia.
  - apply (share_le (hits ys l) (length ys) (length ys) m 1 P S (share_one _)). apply hits_bound.
  - rewrite <- (hits_all ys l L). split; intros H.
    + apply Nat.le_antisymm; [apply hits_bound|]. apply (share_le (length ys) (hits ys l) (length ys) 1 m P (share_one _) S). rewrite H. apply Qle_refl.
    + rewrite H in S. apply Qle_antisym; [apply (share_le (length ys) (length ys) (length ys) m 1 P S (share_one _))|apply (share_le (length ys) (length ys) (length ys) 1 m P (share_one _) S)]; lia.
Qed.

Lemma accuracy_rejects y p : (forall ys, y = Some ys -> length ys <> length p \/ ys = [] \/ exists x, In x (ys ++ p) /\ forall z, ~ (exists q, x = Fin q /\ (q == inject_Z z)%Q)) ->
  accuracy_score y p = Raise ValueError.
Proof.
  intros H. destruct y as [ys|]; [|reflexivity]. unfold accuracy_score. specialize (H ys eq_refl).
  destruct (length ys =? length p) eqn:E1; [|reflexivity]. destruct (length ys =? 0) eqn:E2; [reflexivity|].
  destruct (forallb whole ys) eqn:E3; [|reflexivity]. destruct (forallb whole p) eqn:E4; [|reflexivity]. exfalso. rewrite forallb_forall in E3, E4.
  apply Nat.eqb_eq in E1. apply Nat.eqb_neq in E2. destruct H as [H|[->|(x & Hx & F)]]; [congruence|cbn in E2; lia|].
  assert (W : whole x = true) by (apply in_app_iff in Hx as [Hx|Hx]; auto). unfold whole, num_to_Z in W. destruct x as [q| | |]; try discriminate.
  destruct (Z.eqb_spec (Qnum q mod Z.pos (Qden q)) 0) as [M|]; [|discriminate]. apply (F (Qnum q / Z.pos (Qden q))%Z). exists q. split; [reflexivity|].
  unfold Qeq, inject_Z. cbn [Qnum Qden]. rewrite Z.mul_1_r, Z.mul_comm. apply Z.div_exact; [discriminate|exact M].
Qed.

(** ** Classes of a table *)

Lemma class_of_classify sg n x : sigmoid_like sg -> 0 < n -> class_of sg n x (classify sg n x).
Proof.
  intros S Hn. split; [apply classify_range; assumption|]. split.
  - intros N. destruct x; try discriminate. apply classify_nan, S.
  - intros N. destruct (proj1 S x N) as (q & E & _). exists q. split; [exact E|]. apply (classify_quantiles sg n x q _ S N E Hn). reflexivity.
Qed.

Section Tree.
  Variables (us ul usin ucos utan unspecified sg : num -> num) (n : nat) (t0 : tree).
  Hypothesis Sg : sigmoid_like sg.
  Hypothesis Hn : 0 < n.
  Hypothesis NF : numeric_functions (t_fset t0).

  Notation fsem := (base_array us ul usin ucos utan).
  Notation fs := (base_scalar us ul usin ucos utan).
  Notation cst := (fun v => Scalar (number_const v)).

  Lemma tree_classes t rt X : float_table X -> map fst (t_tset t0) = create_terminal_set X -> same_primitives t0 t -> saturated rt -> flatten rt = t_nodes t ->
    (forall nd, In nd (t_nodes t) -> program_node t0 nd) ->
    exists l, classify_individual sg fsem cst unspecified Sigmoid n t X = Ok (map nof_nat l) /\ classes sg n fs rt X l.
  Proof.
    intros FX Ht (P1 & P2 & P3 & P4) Hs E Hq. pose proof FX as (F1 & F2 & F3 & F4).
    destruct (execute_array_rows fsem fs number_const unspecified t rt X Hs E) as (l & El & Ll & Hl); auto.
    - now rewrite P2.
    - intros c Hc. apply (F4 c Hc).
    - apply base_elementwise. intros f H. apply NF. apply (Hq _ H).
    - exists (map (classify sg n) l). unfold classify_individual. rewrite El. cbn [rbind]. split; [rewrite map_map; reflexivity|]. split; [rewrite map_length; exact Ll|].
      intros r Hr. destruct (Hl r Hr) as (x & Ex & Ev). exists x, (classify sg n x). split; [exact Ev|]. split; [apply map_nth_error, Ex|]. apply class_of_classify; assumption.
  Qed.

  Lemma classes_below rt X l : classes sg n fs rt X l -> Forall (fun k => k < n) l.
  Proof.
    intros [L H]. apply Forall_forall. intros k Hk. apply In_nth_error in Hk as (r & Er). assert (Hr : r < a_rows X) by (rewrite <- L; apply nth_error_Some; congruence).
    destruct (H r Hr) as (x & k' & _ & E & K & _). assert (k' = k) as -> by congruence. exact K.
  Qed.

  Variables (X0 : option array) (y0 : option (list num)) (sched : nat -> list nat) (stats : list stat) (sp : subpop) (X : array) (ys : list Z) (f0 : bool) (a : algo) (w : world).
  Hypothesis Hf : fair sched.
  Hypothesis FX : float_table X.
  Hypothesis Ly : length ys = a_rows X.
  Hypothesis Htr : a_trace a = [].
  Hypothesis Hst : a_stats a = 0.
  Hypothesis Hfin : a_final a = None.
  Hypothesis Hw : w_heap w = [].
  Hypothesis C : configured true a w sp.
  Hypothesis Hi : sp_inds sp = None.
  Hypothesis Ht : map fst (t_tset t0) = create_terminal_set X.
  Hypothesis Hs : supplied t0 (t_root_type t0).
  Hypothesis Htt : typed_terminals t0 (t_root_type t0).
  Hypothesis Hp : printable_terminals t0.
  Hypothesis He : forall lo hi, t_erc t0 = Some (ErcFloat lo hi) -> exists a b, lo = Fin a /\ hi = Fin b /\ (a <= b)%Q.
  Hypothesis Ho : Forall tree_operator (sp_ops sp).
  Hypothesis Hop : forall op mu sigma, In op (sp_ops sp) -> op_kind op = OErc mu sigma -> is_fin mu = true /\ is_fin sigma = true.
  Hypothesis Hc : Forall (tree_creator t0 (sp_size sp)) (sp_creators sp).
  Hypothesis Hk : Forall (made_with no_penalty) (sp_creators sp).

  Notation ev := (evaluate_with sg fsem cst unspecified accuracy_score (mkClf Sigmoid n (Some X) (Some (map label ys)))).
  Notation start := (mkClassifier f0 (mkClf Sigmoid n X0 y0) (a, w) []).
  Notation fitted := (clf_fit sg fsem cst unspecified accuracy_score sched stats X (map label ys) start).

  Notation judged := (judged sg n fs t0 X ys).

  Lemma fit_runs : exists s' b rt l m k,
    fitted = (Ok tt, s') /\ evolve ev sched (length stats) (a, w) = (Ok tt, cl_algo s') /\
    a_best_run (fst (cl_algo s')) = Some b /\ In b (concat (evals (a_trace (fst (cl_algo s'))))) /\
    judged (snd (cl_algo s')) b rt l m /\ (m * inject_Z (Z.of_nat (length ys)) <= inject_Z (Z.of_nat (known n ys)))%Q /\
    fst (clf_predict sg fsem cst unspecified X s') = Ok (map nof_nat l) /\
    (forall X', float_table X' -> length (a_cols X') = length (a_cols X) ->
       exists l', fst (clf_predict sg fsem cst unspecified X' s') = Ok (map nof_nat l') /\ classes sg n fs rt X' l') /\
    length (evals (a_trace (fst (cl_algo s')))) = S k /\ (a_final (fst (cl_algo s')) = Some k \/ k = a_max_gen a /\ a_final (fst (cl_algo s')) = None) /\
    forall g, In g (evals (a_trace (fst (cl_algo s')))) -> length g = sp_size sp /\
      forall o, In o g -> exists rt' l' m', judged (snd (cl_algo s')) o rt' l' m' /\ (m' <= m)%Q.
  Proof.
    set (G := trees_of t0 (program_node t0)).
    assert (K : node_kind t0 (sp_ops sp) (program_node t0)).
    { apply program_kind; auto. intros v ty Hv b x tag ->. apply (in_map fst) in Hv. rewrite Ht in Hv. apply in_map_iff in Hv as (i & [=] & _). }
    assert (Yn : ys <> []) by (intros ->; destruct FX as (_ & _ & P & _); cbn in Ly; lia).
    assert (Out : forall t, G (GTree t) -> exists rt, saturated rt /\ flatten rt = t_nodes t /\ (forall nd, In nd (flatten rt) -> program_node t0 nd) /\
              forall X', float_table X' -> length (a_cols X') = length (a_cols X) ->
              exists l, classify_individual sg fsem cst unspecified Sigmoid n t X' = Ok (map nof_nat l) /\ classes sg n fs rt X' l).
    { intros t [(t' & rt & [= <-] & Sp & _ & Sat & Fl & _) Hq]. exists rt. split; [exact Sat|]. split; [exact Fl|].
      assert (Hq' : forall nd, In nd (t_nodes t) -> program_node t0 nd) by (intros nd Hnd; eapply Hq; [reflexivity|exact Hnd]).
      split; [rewrite Fl; exact Hq'|]. intros X' FX' L. apply tree_classes; auto. rewrite (same_columns X X' L). exact Ht. }
    assert (Val : forall t, G (GTree t) -> exists rt l m, saturated rt /\ flatten rt = t_nodes t /\ (forall nd, In nd (flatten rt) -> program_node t0 nd) /\
              classify_individual sg fsem cst unspecified Sigmoid n t X = Ok (map nof_nat l) /\ classes sg n fs rt X l /\ share (hits ys l) (length ys) m /\
              ev (GTree t) = Ok (VNum (Fin m)) /\
              forall X', float_table X' -> length (a_cols X') = length (a_cols X) ->
              exists l, classify_individual sg fsem cst unspecified Sigmoid n t X' = Ok (map nof_nat l) /\ classes sg n fs rt X' l).
    { intros t Gt. destruct (Out t Gt) as (rt & Sat & Fl & Q & O). destruct (O X FX eq_refl) as (l & El & Cl).
      destruct (accuracy_value ys l Yn) as (m & Em & Sm & _); [rewrite Ly; symmetry; apply Cl|]. exists rt, l, m.
      repeat (split; [assumption|]). split; [|exact O]. unfold evaluate_with, clf_evaluate. cbn [c_X c_y c_method c_classes]. rewrite El. cbn [rbind]. rewrite Em. reflexivity. }
    assert (N : numbers_on G ev).
    { intros g Hg. pose proof Hg as [(t & rt & -> & _) _]. destruct (Val t Hg) as (_ & _ & m & _ & _ & _ & _ & _ & _ & E & _). exists (Fin m). split; [exact E|reflexivity]. }
    destruct (program_run G ev sched true sp stats a w) as (a' & w' & b & k & ls & Eall & Ev & B & Ib & Lk & Fk & V & Best); auto.
    { eapply program_run_closed; eauto. rewrite Hi. exact Hc. }
    { intros g [Hg _]. apply (trees_printable t0); auto. }
    { rewrite Forall_forall in Hk. exact Hk. }
    assert (D : forall o, In o (concat (evals (a_trace a'))) -> exists t rt l m, tree_at w' o t /\ G (GTree t) /\ judged w' o rt l m /\
              classify_individual sg fsem cst unspecified Sigmoid n t X = Ok (map nof_nat l) /\
              forall X', float_table X' -> length (a_cols X') = length (a_cols X) ->
              exists l, classify_individual sg fsem cst unspecified Sigmoid n t X' = Ok (map nof_nat l) /\ classes sg n fs rt X' l).
    { intros o Hin. apply in_concat in Hin as (g & Hg & Hin). destruct (V g Hg) as [_ Vo]. destruct (Vo o Hin) as (i & x & A & Gi & Ex & Px).
      pose proof Gi as [(t & rt0 & Eg & _) _]. rewrite Eg in Gi, Ex. destruct (Val t Gi) as (rt & l & m & Sat & Fl & Q & El & Cl & Sm & Em & O).
      rewrite Em in Ex. injection Ex as <-. exists t, rt, l, m. assert (T : tree_at w' o t) by (exists i; auto). split; [exact T|]. split; [exact Gi|].
      split; [exists t; repeat (split; [assumption|]); exists i; auto|]. split; [exact El|exact O]. }
    destruct (D b Ib) as (t & rt & l & m & T & Gt & J & El & O).
    set (s' := mkClassifier true (mkClf Sigmoid n (Some X) (Some (map label ys))) (a', w') ls).
    assert (Pr : forall X', fst (clf_predict sg fsem cst unspecified X' s') = classify_individual sg fsem cst unspecified Sigmoid n t X').
    { intros X'. unfold clf_predict. cbn [cl_fitted cl_algo cl_eval s' negb fst snd]. rewrite B. destruct T as (i & A & Eg). unfold at_ in A. rewrite A, Eg. reflexivity. }
    exists s', b, rt, l, m, k. split.
    { unfold clf_fit. rewrite (table_accepted X (map label ys) FX); [|split; [rewrite map_length; exact Ly|apply Forall_forall; intros x Hx; apply in_map_iff in Hx as (z & <- & _); reflexivity]].
      cbn zeta. cbn [cl_eval cl_algo cl_lines]. unfold set_context. cbn [c_method c_classes].
      match goal with |- (let (r, p) := ?e in _) = _ => replace e with (Ok tt : res unit, ((a', w'), ls)) by (symmetry; exact Eall) end. reflexivity. }
    cbn [cl_algo s' fst snd]. split; [exact Ev|]. split; [exact B|]. split; [exact Ib|]. split; [exact J|]. split.
    { destruct J as (_ & _ & _ & _ & _ & Cl & Sm & _). unfold share in Sm. rewrite Sm, <- Zle_Qle. apply inj_le. apply hits_known. eapply classes_below, Cl. }
    split; [rewrite Pr; exact El|]. split; [intros X' FX' L; rewrite Pr; apply O; assumption|]. split; [exact Lk|]. split; [exact Fk|].
    intros g Hg. destruct (V g Hg) as [Lg _]. split; [exact Lg|]. intros o Hin. assert (Hin' : In o (concat (evals (a_trace a')))) by (apply in_concat; eauto).
    destruct (D o Hin') as (t' & rt' & l' & m' & _ & _ & J' & _). exists rt', l', m'. split; [exact J'|].
    destruct J as (_ & _ & _ & _ & _ & _ & _ & Pb). destruct J' as (_ & _ & _ & _ & _ & _ & _ & Po). specialize (Best o _ _ Hin' Po Pb).
    cbn [better_score nlt] in Best. unfold Qlt_b in Best. destruct (Qle_bool m' m) eqn:Q; [apply Qle_bool_iff in Q; exact Q|elim Best; reflexivity].
  Qed.
End Tree.

(** ** The programs *)

Definition column_creator (typed : bool) (functions : list func) (columns : nat) (e : option erc) : creator :=
  CHalf 2 4 (column_gp typed functions columns e) (column_gp typed functions columns e).
Definition clf_ops : list oper := [mkOper OSubtreeXO (Fin (9 # 10)) 2 1; mkOper (OSubtreeMut 2 4) (Fin (1 # 5)) 1 1].
Definition clf_sub (typed : bool) (functions : list func) (columns size : nat) (p : Q) : subpop :=
  mkSub [column_creator typed functions columns None] [Fin p] clf_ops [SelTournament 4 true 1] size (HB true) (Z.to_nat (n_elite_of (double (1 # 20)) size)) None.
Definition clf_algo (typed : bool) (functions : list func) (columns size max_gen : nat) (stamp : Z) (p : Q) : algo :=
  mkAlgo [clf_sub typed functions columns size p] max_gen [CkThreshold (Fin 1) (Fin (double (3 # 100)))] (stamp mod 4294967296)%Z (stamp mod 4294967296)%Z ByMap true None None None 0 None 0 [].

Lemma clf_setup typed functions columns size max_gen sum stamp : sum = sum_plain \/ sum = sum_compensated ->
  exists su p, classification_program functions typed columns size max_gen sum stamp = Ok su /\ su_stats su = 1 /\ (0 < p)%Q /\
    su_algo su = clf_algo typed functions columns size max_gen stamp p.
Proof.
  intros Hs. set (p := ddiv 1 (of_count 1)).
  assert (Es : new_subpopulation sum (CrOne (column_creator typed functions columns None)) None (Some clf_ops) (Some [new_tournament 4 None]) (double (1 # 20)) size None (HB true) =
    Ok (clf_sub typed functions columns size p)).
  { apply subpopulation_ok. exists [column_creator typed functions columns None]. split; [left; eauto|]. split; [discriminate|]. exists [p], clf_ops. split; [right; auto|]. split; [reflexivity|].
    split; [|split; reflexivity]. destruct Hs as [->| ->]; vm_compute; reflexivity. }
  unfold classification_program. match goal with |- context [new_half ?l] => change (new_half l) with (Ok (column_creator typed functions columns None)) end.
  cbn [rbind]. match goal with |- context [new_operators ?l] => change (new_operators l) with (Ok clf_ops) end. cbn [rbind].
  rewrite Es. cbn [rbind]. eexists _, p. split; [reflexivity|]. split; [reflexivity|]. split; [vm_compute; reflexivity|]. reflexivity.
Qed.

Lemma column_names typed functions e X : map fst (t_tset (column_tree typed functions (length (a_cols X)) e)) = create_terminal_set X.
Proof. cbn [t_tset column_tree]. unfold column_terminals. rewrite map_map. reflexivity. Qed.

Lemma program_fits typed functions size max_gen us ul usin ucos utan unspecified sg sum stamp sched w X ys stat0 :
  suitable typed functions -> 6 <= size -> Nat.divide 2 size ->
  sigmoid_like sg -> sum = sum_plain \/ sum = sum_compensated -> fair sched -> w_heap w = [] -> float_table X -> length ys = a_rows X ->
  exists su s' b rt l m k, classification_program functions typed (length (a_cols X)) size max_gen sum stamp = Ok su /\ su_stats su = 1 /\
    clf_fit sg (base_array us ul usin ucos utan) (fun v => Scalar (number_const v)) unspecified accuracy_score sched [stat0] X (map label ys)
      (mkClassifier false default_evaluator (su_algo su, w) []) = (Ok tt, s') /\
    a_best_run (fst (cl_algo s')) = Some b /\ In b (concat (evals (a_trace (fst (cl_algo s'))))) /\
    judged sg 2 (base_scalar us ul usin ucos utan) (column_tree typed functions (length (a_cols X)) None) X ys (snd (cl_algo s')) b rt l m /\
    (m * inject_Z (Z.of_nat (length ys)) <= inject_Z (Z.of_nat (known 2 ys)))%Q /\
    fst (clf_predict sg (base_array us ul usin ucos utan) (fun v => Scalar (number_const v)) unspecified X s') = Ok (map nof_nat l) /\
    (forall X', float_table X' -> length (a_cols X') = length (a_cols X) ->
       exists l', fst (clf_predict sg (base_array us ul usin ucos utan) (fun v => Scalar (number_const v)) unspecified X' s') = Ok (map nof_nat l') /\
         classes sg 2 (base_scalar us ul usin ucos utan) rt X' l') /\
    length (evals (a_trace (fst (cl_algo s')))) = S k /\
    (forall g, In g (evals (a_trace (fst (cl_algo s')))) -> length g = size /\ forall o, In o g -> exists rt' l' m',
       judged sg 2 (base_scalar us ul usin ucos utan) (column_tree typed functions (length (a_cols X)) None) X ys (snd (cl_algo s')) o rt' l' m' /\ (m' <= m)%Q) /\
    ((1 - double (3 # 100) <= m)%Q /\ a_final (fst (cl_algo s')) = Some k \/
     (m < 1 - double (3 # 100))%Q /\ a_final (fst (cl_algo s')) = None /\ k = max_gen).
Proof.
  intros Su H6 H2 Sg Hsum Hf Hw FX Ly. destruct (clf_setup typed functions (length (a_cols X)) size max_gen sum stamp Hsum) as (su & p & E & Es & Hp & Ea).
  set (t0 := column_tree typed functions (length (a_cols X)) None). assert (Hc : 0 < length (a_cols X)) by (destruct FX as (_ & N & _); destruct (a_cols X); [congruence|cbn; lia]).
  destruct (fit_runs us ul usin ucos utan unspecified sg 2 t0 Sg (Nat.lt_0_succ 1) (column_numeric typed functions _ None Su) None None sched [stat0]
    (clf_sub typed functions (length (a_cols X)) size p) X ys false (clf_algo typed functions (length (a_cols X)) size max_gen stamp p) w)
    as (s' & b & rt & l & m & k & Ef & Ev & B & Ib & J & Kn & Pr & PrX & Lk & Fk & V); auto.
  { constructor; try reflexivity; auto.
    - cbn. lia.
    - intros d. cbn. intros [<-|[<-|[<-|[]]]]; (split; [discriminate|]); [apply Nat.divide_1_l|exact H2|apply Nat.divide_1_l].
    - eexists _, _. split; [reflexivity|]. cbn. repeat split; [lia|discriminate].
    - cbn. split; [reflexivity|]. split; [exists (0 + p)%Q; split; [reflexivity|]; rewrite Qplus_0_l; exact Hp|]. intros c0 [<-|[]]. split; reflexivity.
    - constructor; [exact I|constructor]. }
  { apply column_names. }
  { apply column_supplied; auto. }
  { apply column_typed; auto. }
  { apply column_printable; auto. }
  { intros lo hi [=]. }
  { repeat constructor. }
  { cbn. intros op mu sigma [<-|[<-|[]]]; discriminate. }
  { constructor; [|constructor]. apply column_creates; auto. }
  { constructor; [|constructor]. split; reflexivity. }
  rewrite <- Ea in Ef, Ev. exists su, s', b, rt, l, m, k. split; [exact E|]. split; [exact Es|]. split; [exact Ef|]. split; [exact B|]. split; [exact Ib|]. split; [exact J|].
  split; [exact Kn|]. split; [exact Pr|]. split; [exact PrX|]. split; [exact Lk|]. split; [exact V|].
  destruct s' as [fi ce [a' w'] ls]. cbn [cl_algo fst snd] in *. pose proof J as (_ & _ & _ & _ & _ & Cl & Sm & Pb).
  assert (M1 : (m <= 1)%Q).
  { assert (P : 0 < length ys) by (rewrite Ly; apply FX). apply (share_le (hits ys l) (length ys) (length ys) m 1 P Sm (share_one _)). apply hits_bound. }
  assert (T : a_final a' <> None <-> (1 - double (3 # 100) <= m)%Q).
  { match type of Ev with evolve ?ev _ _ _ = _ =>
      destruct (target_exact ev sched 1 (su_algo su) w a' w' 1 (double (3 # 100))) as (b' & i & x & B' & A & Px & F); [rewrite Ea; reflexivity|rewrite Ea; reflexivity|exact Ev|] end.
    assert (b' = b) as -> by congruence. destruct Pb as (j & A' & Pj). assert (j = i) as -> by congruence. rewrite Pj in Px. injection Px as <-. rewrite F.
    assert (D0 : (0 <= double (3 # 100))%Q) by (vm_compute; discriminate).
    split; [intros (q & [= <-] & Q); apply Qabs_Qle_condition in Q; lra|]. intros Q. exists m. split; [reflexivity|]. apply Qabs_Qle_condition. lra. }
  destruct (Qlt_le_dec m (1 - double (3 # 100))) as [O|O].
  - right. split; [exact O|]. destruct Fk as [F|[Fk F]]; [|auto]. assert (1 - double (3 # 100) <= m)%Q by (apply T; congruence). lra.
  - left. split; [exact O|]. destruct Fk as [F|[_ F]]; [exact F|]. apply T in O. congruence.
Qed.

Lemma breast_suitable : suitable false breast_functions.
Proof.
  split; [discriminate|]. intros f Hf. cbn in Hf. repeat (destruct Hf as [<-|Hf]; [split; [reflexivity|]; split; [discriminate|]; split; [cbn; intuition congruence|cbn; tauto]|]). destruct Hf.
Qed.

Lemma search_suitable typed : suitable typed (search_functions typed).
Proof.
  split; [discriminate|]. intros f Hf. destruct typed; cbn [search_functions In] in Hf;
    repeat (destruct Hf as [<-|Hf]; [split; [reflexivity|]; split; [discriminate|]; split; [cbn; intuition congruence|cbn; tauto]|]); destruct Hf.
Qed.

Lemma breast_fits : forall us ul usin ucos utan unspecified sg sum stamp sched w X ys,
  sigmoid_like sg -> sum = sum_plain \/ sum = sum_compensated -> fair sched -> w_heap w = [] -> float_table X -> length ys = a_rows X ->
  let t0 := mkTree breast_functions (column_terminals false (length (a_cols X))) None None [] in
  exists su s' b rt l m k, breast_program (length (a_cols X)) sum stamp = Ok su /\ su_stats su = 1 /\
    clf_fit sg (base_array us ul usin ucos utan) (fun v => Scalar (number_const v)) unspecified accuracy_score sched [SSizeTree] X (map label ys)
      (mkClassifier false default_evaluator (su_algo su, w) []) = (Ok tt, s') /\
    a_best_run (fst (cl_algo s')) = Some b /\ In b (concat (evals (a_trace (fst (cl_algo s'))))) /\
    judged sg 2 (base_scalar us ul usin ucos utan) t0 X ys (snd (cl_algo s')) b rt l m /\
    (m * inject_Z (Z.of_nat (length ys)) <= inject_Z (Z.of_nat (known 2 ys)))%Q /\
    fst (clf_predict sg (base_array us ul usin ucos utan) (fun v => Scalar (number_const v)) unspecified X s') = Ok (map nof_nat l) /\
    (forall X', float_table X' -> length (a_cols X') = length (a_cols X) ->
       exists l', fst (clf_predict sg (base_array us ul usin ucos utan) (fun v => Scalar (number_const v)) unspecified X' s') = Ok (map nof_nat l') /\
         classes sg 2 (base_scalar us ul usin ucos utan) rt X' l') /\
    length (evals (a_trace (fst (cl_algo s')))) = S k /\
    (forall g, In g (evals (a_trace (fst (cl_algo s')))) -> length g = 100 /\ forall o, In o g -> exists rt' l' m',
       judged sg 2 (base_scalar us ul usin ucos utan) t0 X ys (snd (cl_algo s')) o rt' l' m' /\ (m' <= m)%Q) /\
    ((1 - double (3 # 100) <= m)%Q /\ a_final (fst (cl_algo s')) = Some k \/
     (m < 1 - double (3 # 100))%Q /\ a_final (fst (cl_algo s')) = None /\ k = 100).
Proof.
  intros us ul usin ucos utan unspecified sg sum stamp sched w X ys Sg Hs Hf Hw FX Ly t0.
  apply (program_fits false breast_functions 100 100); try assumption; [apply breast_suitable|lia|exists 50; reflexivity].
Qed.

Lemma search_fits : forall us ul usin ucos utan unspecified sg typed max_gen sum stamp sched w X ys,
  sigmoid_like sg -> sum = sum_plain \/ sum = sum_compensated -> fair sched -> w_heap w = [] -> float_table X -> length ys = a_rows X ->
  let t0 := mkTree (search_functions typed) (column_terminals typed (length (a_cols X))) None (float_type typed) [] in
  exists su s' b rt l m k, search_program typed (length (a_cols X)) max_gen sum stamp = Ok su /\ su_stats su = 1 /\
    clf_fit sg (base_array us ul usin ucos utan) (fun v => Scalar (number_const v)) unspecified accuracy_score sched [SBestAverageWorst] X (map label ys)
      (mkClassifier false default_evaluator (su_algo su, w) []) = (Ok tt, s') /\
    a_best_run (fst (cl_algo s')) = Some b /\ In b (concat (evals (a_trace (fst (cl_algo s'))))) /\
    judged sg 2 (base_scalar us ul usin ucos utan) t0 X ys (snd (cl_algo s')) b rt l m /\
    (m * inject_Z (Z.of_nat (length ys)) <= inject_Z (Z.of_nat (known 2 ys)))%Q /\
    fst (clf_predict sg (base_array us ul usin ucos utan) (fun v => Scalar (number_const v)) unspecified X s') = Ok (map nof_nat l) /\
    (forall X', float_table X' -> length (a_cols X') = length (a_cols X) ->
       exists l', fst (clf_predict sg (base_array us ul usin ucos utan) (fun v => Scalar (number_const v)) unspecified X' s') = Ok (map nof_nat l') /\
         classes sg 2 (base_scalar us ul usin ucos utan) rt X' l') /\
    length (evals (a_trace (fst (cl_algo s')))) = S k /\
    (forall g, In g (evals (a_trace (fst (cl_algo s')))) -> length g = 10 /\ forall o, In o g -> exists rt' l' m',
       judged sg 2 (base_scalar us ul usin ucos utan) t0 X ys (snd (cl_algo s')) o rt' l' m' /\ (m' <= m)%Q) /\
    ((1 - double (3 # 100) <= m)%Q /\ a_final (fst (cl_algo s')) = Some k \/
     (m < 1 - double (3 # 100))%Q /\ a_final (fst (cl_algo s')) = None /\ k = max_gen).
Proof.
  intros us ul usin ucos utan unspecified sg typed max_gen sum stamp sched w X ys Sg Hs Hf Hw FX Ly t0.
  apply (program_fits typed (search_functions typed) 10 max_gen); try assumption; [apply search_suitable|lia|exists 5; reflexivity].
Qed.

Lemma known_two ys : (forall y, In y ys -> y = 0 \/ y = 1 \/ y = 2)%Z -> known 2 ys + count_occ Z.eq_dec ys 2%Z = length ys.
Proof.
  unfold known. induction ys as [|y ys IH]; intros H; [reflexivity|]. specialize (IH (fun z Hz => H z (or_intror Hz))). cbn [filter count_occ length].
  destruct (H y (or_introl eq_refl)) as [->|[->| ->]]; change (Z.of_nat 2) with 2%Z in *; cbn [Z.leb Z.ltb Z.compare andb Pos.compare Pos.compare_cont length]; (destruct (Z.eq_dec _ _); [try discriminate|try congruence]); lia.
Qed.

Lemma third_class : forall us ul usin ucos utan unspecified sg typed max_gen sum stamp sched w X ys,
  sigmoid_like sg -> sum = sum_plain \/ sum = sum_compensated -> fair sched -> w_heap w = [] -> float_table X -> length ys = a_rows X ->
  (forall y, In y ys -> y = 0 \/ y = 1 \/ y = 2)%Z -> 4 * length ys <= 100 * count_occ Z.eq_dec ys 2%Z ->
  exists su s' m, search_program typed (length (a_cols X)) max_gen sum stamp = Ok su /\
    clf_fit sg (base_array us ul usin ucos utan) (fun v => Scalar (number_const v)) unspecified accuracy_score sched [SBestAverageWorst] X (map label ys)
      (mkClassifier false default_evaluator (su_algo su, w) []) = (Ok tt, s') /\
    length (evals (a_trace (fst (cl_algo s')))) = S max_gen /\ a_final (fst (cl_algo s')) = None /\
    (forall o, In o (concat (evals (a_trace (fst (cl_algo s'))))) -> exists m', pure_at (snd (cl_algo s')) o (VNum (Fin m')) /\ (m' <= m)%Q) /\
    (m * inject_Z (Z.of_nat (length ys)) <= inject_Z (Z.of_nat (length ys - count_occ Z.eq_dec ys 2%Z)))%Q /\
    forall X' l, float_table X' -> length (a_cols X') = length (a_cols X) ->
      fst (clf_predict sg (base_array us ul usin ucos utan) (fun v => Scalar (number_const v)) unspecified X' s') = Ok l -> ~ In (Fin 2) l.
Proof.
  intros us ul usin ucos utan unspecified sg typed max_gen sum stamp sched w X ys Sg Hs Hf Hw FX Ly H3 H4.
  destruct (search_fits us ul usin ucos utan unspecified sg typed max_gen sum stamp sched w X ys Sg Hs Hf Hw FX Ly)
    as (su & s' & b & rt & l & m & k & E & _ & Ef & B & Ib & J & Kn & Pr & PrX & Lk & V & T).
  assert (P : 0 < length ys) by (rewrite Ly; apply FX). pose proof (known_two ys H3) as K2.
  assert (Low : (m < 1 - double (3 # 100))%Q).
  { assert (Hd : (96 # 100 < 1 - double (3 # 100))%Q) by (vm_compute; reflexivity). eapply Qle_lt_trans; [|exact Hd].
    assert (P' : (0 < inject_Z (Z.of_nat (length ys)))%Q) by (unfold Qlt, inject_Z; cbn; lia).
    rewrite <- (Qmult_le_r m (96 # 100) _ P'). eapply Qle_trans; [exact Kn|]. unfold Qle, Qmult, inject_Z. cbn [Qnum Qden]. change (Z.pos (100 * 1)) with 100%Z. lia. }
  destruct T as [[T _]|(_ & F & ->)]; [lra|]. exists su, s', m. split; [exact E|]. split; [exact Ef|]. split; [exact Lk|]. split; [exact F|]. split; [|split].
  - intros o Ho. apply in_concat in Ho as (g & Hg & Ho). destruct (V g Hg) as [_ Q]. destruct (Q o Ho) as (rt' & l' & m' & (t & _ & _ & _ & _ & _ & _ & Po) & L). eauto.
  - replace (length ys - count_occ Z.eq_dec ys 2%Z) with (known 2 ys) by lia. exact Kn.
  - intros X' l' FX' L E2 I2. destruct (PrX X' FX' L) as (l2 & E3 & Cl). rewrite E3 in E2. injection E2 as <-. apply classes_below in Cl.
    apply in_map_iff in I2 as (j & Ej & Hj). rewrite Forall_forall in Cl. specialize (Cl j Hj). unfold nof_nat in Ej. injection Ej as Ej. lia.
Qed.

Lemma step_sigmoid : sigmoid_like step.
Proof.
  split; [|split; [|reflexivity]].
  - intros [q| | |] H; try discriminate; cbn; [destruct (Qle_bool q 0)| |]; eexists; (split; [reflexivity|]); split; discriminate.
  - intros [p| | |] [q| | |] Hx Hy H; try discriminate; cbn in *; try reflexivity.
    + destruct (Qle_bool p 0) eqn:Ep, (Qle_bool q 0) eqn:Eq; try reflexivity. exfalso. unfold Qlt_b in H. apply negb_false_iff in H. apply Qle_bool_iff in H, Eq.
      assert (Qle_bool p 0 = true); [apply Qle_bool_iff|congruence]. lra.
    + destruct (Qle_bool p 0); reflexivity.
    + destruct (Qle_bool q 0); reflexivity.
Qed.

(** ** Fitting and predicting as calls *)

Section Calls.
  Variable sg : num -> num.
  Variable fsem : func -> list nval -> res nval.
  Variable const : tval -> nval.
  Variable unspecified : num -> num.
  Variable metric : option (list num) -> list num -> res num.
  Variable sched : nat -> list nat.
  Variable stats : list stat.

  Lemma clf_bad_data X y s : a_rows X = 0 \/ a_cols X = [] \/ (exists c x, In c (a_cols X) /\ In x c /\ is_fin x = false) \/
      length y <> a_rows X \/ (exists x, In x y /\ is_fin x = false) -> clf_fit sg fsem const unspecified metric sched stats X y s = (Raise ValueError, s).
  Proof.
    intros H. unfold clf_fit, check_X_y.
    destruct (a_rows X =? 0) eqn:E1; [reflexivity|]. destruct (length (a_cols X) =? 0) eqn:E2; [reflexivity|].
    destruct (forallb (forallb is_fin) (a_cols X)) eqn:E3; [|reflexivity]. destruct (length y =? a_rows X) eqn:E4; [|reflexivity].
    destruct (forallb is_fin y) eqn:E5; [|reflexivity]. exfalso.
    apply Nat.eqb_neq in E1, E2. apply Nat.eqb_eq in E4. rewrite forallb_forall in E3, E5.
    destruct H as [H|[H|[(c & x & Hc & Hx & F)|[H|(x & Hx & F)]]]]; [lia|rewrite H in E2; cbn in E2; lia| |lia|rewrite (E5 x Hx) in F; discriminate].
    specialize (E3 c Hc). rewrite forallb_forall in E3. rewrite (E3 x Hx) in F. discriminate.
  Qed.

  Lemma clf_failed_fit X y s e s' : clf_fit sg fsem const unspecified metric sched stats X y s = (Raise e, s') -> cl_fitted s' = cl_fitted s.
  Proof.
    intros H. unfold clf_fit in H. destruct (check_X_y X y); [|injection H as _ <-; reflexivity].
    destruct (evolve_all _ _ _ _ _) as [[x|e1] [st ls]]; [discriminate|]. injection H as _ <-. reflexivity.
  Qed.

  Lemma clf_unfitted X s : cl_fitted s = false -> clf_predict sg fsem const unspecified X s = (Raise ValueError, s).
  Proof. intros F. unfold clf_predict. rewrite F. reflexivity. Qed.

  Lemma clf_predict_keeps X s r s' : cl_fitted s = true -> clf_predict sg fsem const unspecified X s = (r, s') ->
    cl_fitted s' = true /\ cl_algo s' = cl_algo s /\ cl_lines s' = cl_lines s /\
    c_method (cl_eval s') = c_method (cl_eval s) /\ c_classes (cl_eval s') = c_classes (cl_eval s) /\ c_X (cl_eval s') = Some X /\ c_y (cl_eval s') = None /\
    forall X2, clf_predict sg fsem const unspecified X2 s' = clf_predict sg fsem const unspecified X2 s.
  Proof.
    intros F H. destruct s as [f0 c st ls]. cbn [cl_fitted] in F. subst f0. unfold clf_predict in H. cbn [cl_fitted negb cl_algo cl_eval cl_lines] in H.
    injection H as _ <-. cbn. repeat split; reflexivity.
  Qed.
End Calls.
