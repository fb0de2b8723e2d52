(** * Lemmas about the multiplexer programs (C90). *)
From Coq Require Import Lia QArith Lqa Qabs.
From Verif.Proofs Require Import ExamplesP TargetP TreeP TreeExecP CompleteTreeP ProgramP RegP SetupP CheckP.
From Verif.Model Require Import Double Num Fitness Tree World Creators Evolution Statistics Execute Setup Make BaseFns Multiplexer.
From Verif.Spec Require Import WorldSpec FitnessSpec TreeSpec SelSpec EvoSpec CompleteSpec ShowSpec StatSpec RegSpec MultiplexerSpec.
Open Scope string_scope.
Open Scope nat_scope.
Open Scope list_scope.

(** ** The table *)

Lemma product_all n : forall i, In i (product n) <-> length i = n.
Proof.
  induction n as [|n IH]; intros i; cbn [product].
  - split; [intros [<-|[]]; reflexivity|]. destruct i; [left; reflexivity|discriminate].
  - rewrite in_app_iff, !in_map_iff. split.
    + intros [(j & <- & Hj)|(j & <- & Hj)]; apply IH in Hj; cbn; congruence.
    + destruct i as [|b i]; [discriminate|]. intros [= L]. apply IH in L. destruct b; [right|left]; eauto.
Qed.

Lemma product_once n : NoDup (product n).
Proof.
  induction n as [|n IH]; cbn [product]; [constructor; [intros []|constructor]|].
  assert (M : forall b, NoDup (map (cons b) (product n))).
  { intros b. clear -IH. induction IH as [|x l N _ IH]; cbn; constructor; [|exact IH]. rewrite in_map_iff. intros (y & [= ->] & Hy). contradiction. }
  assert (D : forall (l l' : list (list bool)), NoDup l -> NoDup l' -> (forall x, In x l -> ~ In x l') -> NoDup (l ++ l')).
  { induction 1 as [|x l N _ IHl]; intros H' Hd; cbn; [exact H'|]. constructor; [|apply IHl; [exact H'|intros; apply Hd; right; assumption]].
    rewrite in_app_iff. intros [H1|H1]; [contradiction|]. apply (Hd x); [left; reflexivity|exact H1]. }
  apply D; [apply M|apply M|]. intros x. rewrite !in_map_iff. intros (y & <- & _) (z & [=] & _).
Qed.

Lemma table_right typed : forall i, length i = 11 -> exists y, target_func (map (entry typed) i) = Ok y /\
  forall b, neq_num (el_num (entry typed b)) (el_num y) = Bool.eqb b (mux i).
Proof.
  intros i L. apply product_all in L.
  assert (T : forallb (fun i => match target_func (map (entry typed) i) with
    | Ok y => Bool.eqb (neq_num (el_num (entry typed true)) (el_num y)) (Bool.eqb true (mux i)) &&
              Bool.eqb (neq_num (el_num (entry typed false)) (el_num y)) (Bool.eqb false (mux i))
    | _ => false end) (product 11) = true) by (destruct typed; vm_compute; reflexivity).
  rewrite forallb_forall in T. specialize (T i L). destruct (target_func (map (entry typed) i)) as [y|e]; [|discriminate].
  apply andb_prop in T as (T1 & T2). apply Bool.eqb_prop in T1, T2. exists y. split; [reflexivity|]. intros []; assumption.
Qed.

Lemma count_right out : right_answers out (length (filter (fun i => Bool.eqb (out i) (mux i)) (product 11))).
Proof.
  exists (filter (fun i => Bool.eqb (out i) (mux i)) (product 11)). split; [apply NoDup_filter, product_once|]. split; [|reflexivity].
  intros i. rewrite filter_In, product_all. split; intros [A B]; (split; [exact A|]); [apply Bool.eqb_prop in B; exact B|rewrite B; apply Bool.eqb_reflx].
Qed.

Lemma right_unique out n m : right_answers out n -> right_answers out m -> n = m.
Proof.
  intros (l & N & H & <-) (l' & N' & H' & <-). apply Nat.le_antisymm; apply NoDup_incl_length; auto; intros x Hx; [apply H', H|apply H, H']; exact Hx.
Qed.

Lemma right_le out n : right_answers out n -> n <= 2048.
Proof.
  intros (l & N & H & <-). replace 2048 with (length (product 11)) by (vm_compute; reflexivity). apply NoDup_incl_length; [exact N|].
  intros x Hx. apply product_all, H, Hx.
Qed.

(** ** Trees of logical functions *)

Definition mux_tree (typed : bool) : tree :=
  mkTree (mux_functions typed) (map (fun s => (TVar s, mux_type typed)) mux_names) (mux_erc typed) (mux_type typed) [].

Definition mux_node (typed : bool) (n : node) : Prop :=
  match n with
  | FNode f => In f (mux_functions typed)
  | TNode (TVar s) _ => In s mux_names
  | TNode (TNum b x _) _ => typed = false /\ b = false /\ (x = nof_Z 0 \/ x = nof_Z 1)
  end.

Lemma mux_primitive typed n : primitive (mux_tree typed) n -> mux_node typed n.
Proof.
  destruct n as [f|v a]; [exact (fun H => H)|]. cbn [primitive]. intros [(c & H)|(e & E & H)].
  - cbn [t_tset mux_tree] in H. apply in_map_iff in H as (s & [= <- _] & Hs). exact Hs.
  - destruct typed; [discriminate|]. cbn in E. injection E as <-. destruct H as (x & tag & -> & H). cbn. split; [reflexivity|]. split; [reflexivity|].
    destruct (H 0%Z 1%Z eq_refl eq_refl) as (z & -> & Hz). assert (z = 0%Z \/ z = 1%Z) as [->| ->] by lia; auto.
Qed.

Section Values.
  Variables (us ul usin ucos utan : num -> num) (typed : bool).
  Notation fsem := (base_sem us ul usin ucos utan).

  Definition logical (v : el) : Prop := exists b, v = entry typed b.

  Lemma function_logical f vs : In f (mux_functions typed) -> length vs = arity f -> Forall logical vs -> exists v, fsem f vs = Ok v /\ logical v.
  Proof.
    intros Hf L Hv. unfold logical in *. destruct typed; cbn [mux_functions] in Hf; destruct Hf as [<-|[<-|[<-|[<-|[]]]]]; cbn in L;
      repeat (destruct vs as [|? vs]; try discriminate L); repeat match goal with H : Forall _ (_ :: _) |- _ => inversion_clear H end;
      repeat match goal with H : exists _, _ |- _ => destruct H as ([] & ->) end;
      (eexists; split; [vm_compute; reflexivity|]); first [exists true; reflexivity|exists false; reflexivity].
  Qed.

  Lemma eval_logical env rt : saturated rt -> (forall n, In n (flatten rt) -> mux_node typed n) ->
    (forall s, In s mux_names -> exists v, env s = Some v /\ logical v) -> exists v, eval el fsem el_const env rt = Ok v /\ logical v.
  Proof.
    intros Sat Hn He. induction rt as [n ks IH] using rose_ind. destruct Sat as [Hl Hs]. rewrite All_In in IH, Hs. destruct n as [f|v a].
    - assert (C : exists vs, collect el (map (eval el fsem el_const env) ks) = Ok vs /\ length vs = length ks /\ Forall logical vs).
      { assert (Hk : forall k, In k ks -> exists v, eval el fsem el_const env k = Ok v /\ logical v).
        { intros k Hk. apply IH; [exact Hk|apply Hs, Hk|]. intros n Hin. apply Hn. right. apply in_flat_map. eauto. }
        clear -Hk. induction ks as [|k ks IH]; [exists []; repeat split; constructor|].
        destruct (Hk k (or_introl eq_refl)) as (v & E & V). destruct IH as (vs & E' & L & F); [intros; apply Hk; right; assumption|].
        exists (v :: vs). cbn [map collect]. rewrite E, E'. split; [reflexivity|]. split; [cbn; congruence|constructor; assumption]. }
      destruct C as (vs & E & L & F). cbn [eval]. rewrite E. apply function_logical; [apply (Hn (FNode f)); left; reflexivity|rewrite L; exact Hl|exact F].
    - cbn [eval]. eexists. split; [reflexivity|]. specialize (Hn _ (or_introl eq_refl)). destruct v as [s|b x tag]; cbn [eval_terminal] in *.
      + destruct (He s Hn) as (u & -> & U). exact U.
      + destruct Hn as (Ht & -> & [->| ->]); unfold logical; rewrite Ht; [exists false|exists true]; reflexivity.
  Qed.

  Lemma mux_kw i : combine mux_names (map (entry typed) i) = mux_arguments typed i.
  Proof. reflexivity. Qed.

  Lemma kw_names i : length i = 11 -> map fst (combine mux_names (map (entry typed) i)) = mux_names.
  Proof. intros L. do 11 (destruct i as [|? i]; [discriminate|]). destruct i; [reflexivity|discriminate]. Qed.

  Lemma kw_values i s : length i = 11 -> In s mux_names -> exists v, argument (combine mux_names (map (entry typed) i)) s = Some v /\ logical v.
  Proof.
    intros L. do 11 (destruct i as [|? i]; [discriminate|]). destruct i; [|discriminate]. intros H.
    repeat (destruct H as [<-|H]; [eexists; split; [reflexivity|eexists; reflexivity]|]). destruct H.
  Qed.

  (** A tree of the class computes a function of the inputs. *)
  Lemma tree_computes t : trees_of (mux_tree typed) (mux_node typed) (GTree t) ->
    exists out n, (forall i, length i = 11 -> mux_execute us ul usin ucos utan typed t i = Ok (entry typed (out i))) /\ right_answers out n /\
      mux_evaluator us ul usin ucos utan typed (GTree t) = Ok (VNum (Fin (share n))).
  Proof.
    intros ((t' & rt & [= <-] & (Ef & Et & _) & Ov & Sat & Fl & _) & Hq).
    assert (X : forall i, length i = 11 -> exists b, mux_execute us ul usin ucos utan typed t i = Ok (entry typed b)).
    { intros i L. unfold mux_execute. rewrite (execute_accepts _ _ t rt _ Sat Fl).
      - destruct (eval_logical (argument (combine mux_names (map (entry typed) i))) rt Sat) as (v & E & b & ->); [| |eauto].
        + intros n Hin. apply (Hq t n eq_refl). rewrite <- Fl. exact Hin.
        + intros s Hs. apply kw_values; assumption.
      - unfold exact_arguments. rewrite (kw_names i L), Et. cbn [t_tset mux_tree]. rewrite map_map. cbn [fst]. split.
        + intros s Hs. apply in_map. exact Hs.
        + intros v Hv. apply in_map_iff in Hv as (s & <- & Hs). eauto. }
    set (out := fun i => match mux_execute us ul usin ucos utan typed t i with Ok v => truthy v | Raise _ => false end).
    assert (O : forall i, length i = 11 -> mux_execute us ul usin ucos utan typed t i = Ok (entry typed (out i))).
    { intros i L. unfold out. destruct (X i L) as (b & ->). do 2 f_equal. destruct typed, b; reflexivity. }
    exists out, (length (filter (fun i => Bool.eqb (out i) (mux i)) (product 11))). split; [exact O|]. split; [apply count_right|]. unfold mux_evaluator. rewrite (Lib.rmap_total (mux_row us ul usin ucos utan typed t) (fun i => Bool.eqb (out i) (mux i))).
    - cbn [rbind]. unfold share. do 6 f_equal. generalize (product 11). intros l. induction l as [|i l IH]; [reflexivity|]. cbn [map filter].
      destruct (Bool.eqb (out i) (mux i)); cbn [length]; rewrite IH; reflexivity.
    - intros i Hi. apply product_all in Hi. unfold mux_row. destruct (table_right typed i Hi) as (y & -> & Y). cbn [rbind]. rewrite (O i Hi). cbn [rbind].
      rewrite Y. reflexivity.
  Qed.
End Values.

(** ** The program *)

Lemma mux_hinted typed f : In f (mux_functions typed) -> hinted f /\ f_ret f = mux_type typed /\ forall a, In a (f_params f) -> a = mux_type typed.
Proof.
  destruct typed; cbn [mux_functions]; intros [<-|[<-|[<-|[<-|[]]]]]; (split; [|split; [reflexivity|cbn; intuition congruence]]);
    [left|left|left|left|right|right|right|right]; cbn; intuition congruence.
Qed.

Lemma mux_requested typed a : requested (mux_tree typed) (mux_type typed) a -> a = mux_type typed.
Proof. intros [->|(f & Hf & Ha)]; [reflexivity|]. apply mux_hinted in Hf as (_ & _ & H). auto. Qed.

Lemma mux_supplied typed : supplied (mux_tree typed) (t_root_type (mux_tree typed)).
Proof.
  split; [intros f Hf; apply (mux_hinted _ _ Hf)|]. split.
  - intros e. destruct typed; [discriminate|]. intros [= <-]. exists 0%Z, 1%Z. split; [reflexivity|]. split; [reflexivity|lia].
  - intros a Ha. apply mux_requested in Ha as ->. split.
    + destruct typed; (eexists; split; [left; reflexivity|reflexivity]).
    + left. exists (TVar "s0"). left. reflexivity.
Qed.

Lemma mux_terminals typed : typed_terminals (mux_tree typed) (t_root_type (mux_tree typed)).
Proof.
  destruct typed.
  - right. split; [|discriminate]. assert (U : forall k a, In (k, a) (t_tset (mux_tree true)) -> (exists s, k = TVar s) /\ a = Some TyBool).
    { intros k a H. cbn [t_tset mux_tree] in H. apply in_map_iff in H as (s & [= <- <-] & _). eauto. }
    intros k a H. destruct (U _ _ H) as ((s & ->) & ->). split; [cbn; apply String.eqb_refl|]. intros k' b H' _. apply U in H' as (_ & ->). reflexivity.
  - left. split; [intros a; apply mux_requested|]. intros k a H. cbn [t_tset mux_tree] in H. apply in_map_iff in H as (s & [= <- <-] & _). reflexivity.
Qed.

Lemma mux_printable typed : printable_terminals (mux_tree typed).
Proof.
  split.
  - intros _ k a H. cbn [t_tset mux_tree] in H. apply in_map_iff in H as (s & [= <- <-] & _). eauto.
  - destruct typed; [discriminate|]. intros H. elim H. exists (TVar "s0"). left. reflexivity.
Qed.

Definition mux_creator (typed : bool) : creator :=
  CGP Full (mkGP 2 4 (mux_functions typed) (map (fun s => (TVar s, mux_type typed)) mux_names) typed (mux_erc typed) (Fin mux_weight)
    (mux_type typed) false (Fin (1 # 2))).

Lemma mux_creates typed n : tree_creator (mux_tree typed) n (mux_creator typed).
Proof. destruct typed; (split; [vm_compute; reflexivity|]); repeat split. Qed.

Definition mux_ops : list oper := [mkOper OSubtreeXO (Fin (4 # 5)) 2 1; mkOper (OSubtreeMut 2 4) (Fin (1 # 10)) 1 1].

Definition mux_sub (typed : bool) (p : Q) : subpop :=
  mkSub [mux_creator typed] [Fin p] mux_ops [SelTournament 7 true 1] 40 (HB true) 0 None.

Definition mux_algo (typed : bool) (p : Q) : algo :=
  mkAlgo [mux_sub typed p] 40 [CkThreshold (Fin 1) (Fin (double (1 # 100)))] 10 10 ByMap true None None None 0 None 0 [].

Lemma mux_setup typed sum stamp : sum = sum_plain \/ sum = sum_compensated ->
  exists su p, mux_program typed sum stamp = Ok su /\ su_stats su = 1 /\ (0 < p)%Q /\ su_algo su = mux_algo typed p.
Proof.
  intros Hs. set (p := ddiv 1 (of_count 1)).
  assert (Es : new_subpopulation sum (CrOne (mux_creator typed)) None (Some mux_ops) (Some [new_tournament 7 None]) 0 40 None (HB true) = Ok (mux_sub typed p)).
  { apply subpopulation_ok. exists [mux_creator typed]. split; [left; eauto|]. split; [discriminate|]. exists [p], mux_ops. split; [right; auto|]. split; [reflexivity|].
    split; [|split; reflexivity]. destruct Hs as [->| ->]; vm_compute; reflexivity. }
  unfold mux_program. assert (Ec : new_full (mkGA (Some (2, 4)) (Some (mux_functions typed)) (Some (map (fun s => (TVar s, mux_type typed)) mux_names, typed))
                     (Some (Fin mux_weight)) (mux_erc typed) (mux_type typed) None None) = Ok (mux_creator typed)) by reflexivity.
  rewrite Ec. cbn [rbind]. match goal with |- context [new_operators ?l] => change (new_operators l) with (Ok mux_ops) end. cbn [rbind].
  rewrite Es. cbn [rbind]. eexists _, p. split; [reflexivity|]. split; [reflexivity|]. split; [vm_compute; reflexivity|]. reflexivity.
Qed.

Lemma share_le n m : (share n <= share m)%Q <-> n <= m.
Proof. unfold share, Qle, Qdiv, Qmult, Qinv, inject_Z. cbn. lia. Qed.

Lemma share_near n : n <= 2048 -> ((Qabs (share n - 1) <= double (1 # 100))%Q <-> 2028 <= n).
Proof.
  intros L. rewrite Qabs_Qle_condition. assert (B : (share 20 <= double (1 # 100))%Q /\ (double (1 # 100) < share 21)%Q) by (split; vm_compute; [discriminate|reflexivity]).
  assert (D : forall k, n + k = 2048 -> (share n - 1 == - share k)%Q).
  { intros k E. replace 1%Q with (1 * 1)%Q by reflexivity. assert (share 2048 == 1)%Q as O by reflexivity. rewrite <- E in O.
    assert (share (n + k) == share n + share k)%Q as P. { unfold share. rewrite Nat2Z.inj_add, inject_Z_plus. field. } lra. }
  assert (P : forall k, (0 <= share k)%Q) by (intros k; change 0%Q with (0 * 1)%Q; unfold share, Qle, Qdiv, Qmult, Qinv, inject_Z; cbn; lia).
  specialize (D (2048 - n) ltac:(lia)). pose proof (P (2048 - n)) as P'. split.
  - intros [H _]. destruct (le_lt_dec 2028 n) as [|H']; [assumption|]. exfalso. assert (share 21 <= share (2048 - n))%Q by (apply share_le; lia). lra.
  - intros H. assert (share (2048 - n) <= share 20)%Q by (apply share_le; lia). lra.
Qed.

Lemma weighed w o i n s : (forall j, In j (w_heap w) -> ft_class (i_fit j) = KGP (Fin mux_weight)) -> oriented w true o -> at_ w o = Some i ->
  get_pure_fitness (i_fit i) = Ok (VNum (Fin (share n))) -> scored w o s -> exists q, s = Fin q /\ (q == share n - mux_weight * inject_Z (Z.of_nat (isize i)))%Q.
Proof.
  intros K (j & A' & Hj) A P (j' & A'' & _ & _ & S & _). assert (j = i) as -> by congruence. assert (j' = i) as -> by congruence. clear A' A''.
  unfold get_augmented_fitness in S. rewrite P in S. cbn [rbind] in S. rewrite (K i) in S by (apply nth_error_In with (n := o); exact A).
  assert (neq_num (Fin mux_weight) (Fin 0) = false) as Z by (vm_compute; reflexivity). rewrite Z, Hj in S. clear Z.
  change (Ok (VNum (Fin (share n + - (mux_weight * inject_Z (Z.of_nat (isize i)))))) = Ok (VNum s)) in S. injection S as <-. eexists. split; [reflexivity|]. lra.
Qed.

Lemma mux_run : forall us ul usin ucos utan typed sum stamp sched w, sum = sum_plain \/ sum = sum_compensated -> fair sched -> w_heap w = [] ->
  exists su a' w' b out n size k ls, mux_program typed sum stamp = Ok su /\ su_stats su = 1 /\
    evolve_all (mux_evaluator us ul usin ucos utan typed) sched (fun _ => []) [SBestAverageWorst] ((su_algo su, w), []) = (Ok tt, ((a', w'), ls)) /\
    a_best_run a' = Some b /\ In b (concat (evals (a_trace a'))) /\
    computes (base_sem us ul usin ucos utan) typed w' b out size /\ right_answers out n /\ pure_at w' b (VNum (Fin (share n))) /\
    length (evals (a_trace a')) = S k /\
    (forall l, In l (evals (a_trace a')) -> length l = 40 /\ forall o, In o l -> exists out' n' size',
       computes (base_sem us ul usin ucos utan) typed w' o out' size' /\ right_answers out' n' /\ pure_at w' o (VNum (Fin (share n'))) /\
       (share n' - double (1 # 100000) * inject_Z (Z.of_nat size') <= share n - double (1 # 100000) * inject_Z (Z.of_nat size))%Q) /\
    (2028 <= n /\ a_final a' = Some k \/ n < 2028 /\ a_final a' = None /\ k = 40) /\
    forall i, length i = 11 -> algorithm_execute el (base_sem us ul usin ucos utan) el_const (mux_arguments typed i) a' w' = Ok (OValue (mux_answer typed (out i))).
Proof.
  intros us ul usin ucos utan typed sum stamp sched w Hsum Hf Hw. set (ev := mux_evaluator us ul usin ucos utan typed). set (fsem := base_sem us ul usin ucos utan).
  destruct (mux_setup typed sum stamp Hsum) as (su & p & E & Es & Hp & Ea). set (G := trees_of (mux_tree typed) (mux_node typed)).
  assert (N : numbers_on G ev).
  { intros g Hg. pose proof Hg as ((t & rt & -> & _) & _). destruct (tree_computes us ul usin ucos utan typed t Hg) as (out & n & _ & _ & Ev).
    eexists. split; [exact Ev|reflexivity]. }
  assert (K : node_kind (mux_tree typed) mux_ops (mux_node typed)).
  { split; [apply mux_primitive|]. intros op mu sigma [<-|[<-|[]]]; discriminate. }
  destruct (program_scores G ev sched true (mux_sub typed p) [SBestAverageWorst] (mux_algo typed p) w) with (P := fun c => c = KGP (Fin mux_weight))
    as (a' & w' & b & k & ls & Eall & Ev & B & Ib & Lk & Fk & V & Ak & Or & Best); auto.
  { constructor; try reflexivity; auto.
    - cbn. lia.
    - intros m. cbn. intros [<-|[<-|[<-|[]]]]; (split; [discriminate|]); [exists 40|exists 20|exists 40]; reflexivity.
    - eexists _, _. split; [reflexivity|]. cbn. repeat split; [lia|discriminate].
    - cbn. split; [reflexivity|]. split; [exists (0 + p)%Q; split; [reflexivity|]; rewrite Qplus_0_l; exact Hp|]. intros c0 [<-|[]]. reflexivity.
    - constructor; [exact I|constructor]. }
  { split.
    - apply Forall_forall. intros op Hop. apply program_closed with (ops := mux_ops); auto using mux_supplied, mux_terminals; destruct Hop as [<-|[<-|[]]]; cbn; auto; discriminate.
    - cbn. intros c0 [<-|[]]. apply program_creator_closed; auto using mux_supplied, mux_terminals, mux_primitive, mux_creates. }
  { intros g [Hg _]. apply (trees_printable (mux_tree typed)); auto using mux_printable, mux_supplied. }
  { intros c [<-|[]]. reflexivity. }
  rewrite <- Ea in Eall, Ev.
  assert (D : forall o, In o (concat (evals (a_trace a'))) -> exists i out n, at_ w' o = Some i /\ computes fsem typed w' o out (isize i) /\
      right_answers out n /\ get_pure_fitness (i_fit i) = Ok (VNum (Fin (share n)))).
  { intros o Ho. apply in_concat in Ho as (l & Hl & Ho). destruct (V l Hl) as [_ Vo]. destruct (Vo o Ho) as (i & x & A & Hg & Ex & Px).
    pose proof Hg as ((t & rt & Eg & _) & _). rewrite Eg in Hg, Ex. destruct (tree_computes us ul usin ucos utan typed t Hg) as (out & n & O & Rn & Et).
    unfold ev in Ex. rewrite Et in Ex. injection Ex as <-. exists i, out, n.
    split; [exact A|]. split; [|split; [exact Rn|exact Px]]. exists t. split; [exists i; auto|]. split; [unfold isize; rewrite Eg; reflexivity|exact O]. }
  destruct (D b Ib) as (ib & out & n & Ab & Cb & Rb & Pb).
  exists su, a', w', b, out, n, (isize ib), k, ls. split; [exact E|]. split; [exact Es|]. split; [exact Eall|]. split; [exact B|]. split; [exact Ib|]. split; [exact Cb|].
  split; [exact Rb|]. split; [exists ib; auto|]. split; [exact Lk|]. split; [|split].
  - intros l Hl. destruct (V l Hl) as [Ll _]. split; [exact Ll|]. intros o Ho. assert (Ho' : In o (concat (evals (a_trace a')))) by (apply in_concat; eauto).
    destruct (D o Ho') as (i & out' & n' & A & Co & Ro & Po). exists out', n', (isize i). split; [exact Co|]. split; [exact Ro|]. split; [exists i; auto|].
    destruct (Best o Ho') as (x & y & Sx & Sy & Nb). destruct (weighed _ _ _ _ _ Ak (Or o Ho') A Po Sx) as (qx & -> & Qx).
    destruct (weighed _ _ _ _ _ Ak (Or b Ib) Ab Pb Sy) as (qy & -> & Qy). fold mux_weight. rewrite <- Qx, <- Qy.
    cbn [better_score nlt] in Nb. unfold Qlt_b in Nb. destruct (Qle_bool qx qy) eqn:Q; [|elim Nb; reflexivity]. apply Qle_bool_iff in Q. exact Q.
  - assert (T : a_final a' <> None <-> 2028 <= n).
    { destruct (target_exact ev sched 1 (su_algo su) w a' w' 1 (double (1 # 100))) as (b' & i & x & B' & A & Px & F); [rewrite Ea; reflexivity|rewrite Ea; reflexivity|exact Ev|].
      assert (b' = b) as -> by congruence. assert (i = ib) as -> by congruence. rewrite Pb in Px. injection Px as <-. rewrite F. rewrite <- (share_near n) by (eapply right_le; exact Rb).
      split; [intros (q & [= <-] & Q); exact Q|eauto]. }
    destruct (le_lt_dec 2028 n) as [O|O].
    + left. split; [exact O|]. destruct Fk as [F|[_ F]]; [exact F|]. apply T in O. congruence.
    + right. split; [exact O|]. destruct Fk as [F|[Fk F]]; [|auto]. assert (2028 <= n) by (apply T; congruence). lia.
  - intros i Li. destruct Cb as (t & (j & A' & Eg) & _ & X). assert (j = ib) as -> by congruence. unfold algorithm_execute. rewrite B. unfold at_ in Ab. rewrite Ab.
    unfold ind_execute. rewrite Eg. rewrite (X i Li). reflexivity.
Qed.
