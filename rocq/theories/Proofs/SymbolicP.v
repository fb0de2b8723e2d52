(** * Lemmas about the symbolic regression programs (C91). *)
From Coq Require Import Lia QArith Lqa Qabs.
From Verif.Proofs Require Import ExamplesP TargetP TreeP TreeExecP CompleteTreeP ProgramP BaseP SetupP CheckP.
From Verif.Model Require Import Double Num Fitness Tree World Creators Evolution Statistics Execute Setup Make BaseFns Symbolic.
From Verif.Spec Require Import WorldSpec FitnessSpec TreeSpec SelSpec EvoSpec CompleteSpec ShowSpec StatSpec BaseSpec RegSpec SymbolicSpec.
Open Scope string_scope.
Open Scope nat_scope.
Open Scope list_scope.

(** ** Evaluation within a class of values *)

Lemma eval_values (P : el -> Prop) fsem env rt : saturated rt ->
  (forall f vs, In (FNode f) (flatten rt) -> length vs = arity f -> Forall P vs -> exists v, fsem f vs = Ok v /\ P v) ->
  (forall v a, In (TNode v a) (flatten rt) -> P (eval_terminal el el_const env v)) ->
  exists v, eval el fsem el_const env rt = Ok v /\ P v.
Proof.
  intros Sat Hf Ht. induction rt as [n ks IH] using rose_ind. destruct Sat as [Hl Hs]. rewrite All_In in IH, Hs. destruct n as [f|v a].
  - assert (C : exists vs, collect el (map (eval el fsem el_const env) ks) = Ok vs /\ length vs = length ks /\ Forall P vs).
    { assert (Hk : forall k, In k ks -> exists v, eval el fsem el_const env k = Ok v /\ P v).
      { intros k Hk. apply IH; [exact Hk|apply Hs, Hk| |].
        - intros g vs Hg. apply Hf. right. apply in_flat_map. eauto.
        - intros v a Hv. apply (Ht v a). right. apply in_flat_map. eauto. }
      clear -Hk. induction ks as [|k ks IH]; [exists []; repeat split; constructor|].
      destruct (Hk k (or_introl eq_refl)) as (v & E & V). destruct IH as (vs & E' & L & F); [intros; apply Hk; right; assumption|].
      exists (v :: vs). cbn [map collect]. rewrite E, E'. split; [reflexivity|]. split; [cbn; congruence|constructor; assumption]. }
    destruct C as (vs & E & L & F). cbn [eval]. rewrite E. apply Hf; [left; reflexivity|rewrite L; exact Hl|exact F].
  - cbn [eval]. eexists. split; [reflexivity|]. apply (Ht v a). left. reflexivity.
Qed.

(** ** Programs of floats *)

Definition sr_tree (typed : bool) : tree := mkTree (sr_functions typed) (sr_terminals typed) (Some (ErcFloat (Fin (-1)) (Fin 1))) (sr_type typed) [].

Definition sr_node (typed : bool) (n : node) : Prop :=
  match n with
  | FNode f => In f (sr_functions typed)
  | TNode (TVar s) _ => In s ["x"; "y"; "z"]
  | TNode (TNum b x _) _ => b = true /\ is_fin x = true
  end.

Lemma sr_primitive typed n : primitive (sr_tree typed) n -> sr_node typed n.
Proof.
  destruct n as [f|v a]; [exact (fun H => H)|]. cbn [primitive]. intros [(c & H)|(e & E & H)].
  - cbn [t_tset sr_tree] in H. apply in_map_iff in H as (s & [= <- _] & Hs). exact Hs.
  - injection E as <-. destruct H as (x & tag & -> & H). destruct (H (-1)%Q 1%Q eq_refl eq_refl) as (q & -> & _); [discriminate|]. split; reflexivity.
Qed.

Definition sr_ops : list oper := [mkOper OSubtreeXO (Fin (9 # 10)) 2 1; mkOper (OSubtreeMut 2 4) (Fin (1 # 5)) 1 1; mkOper (OErc (Fin 0) (Fin 1)) (Fin (1 # 20)) 1 1].

Lemma sr_kind typed : node_kind (sr_tree typed) sr_ops (sr_node typed).
Proof.
  split; [apply sr_primitive|]. intros op mu sigma [<-|[<-|[<-|[]]]]; try discriminate. intros [= <- <-] b x tag a z tag' [_ H]. destruct x; try discriminate. split; reflexivity.
Qed.

Lemma sr_hinted typed f : In f (sr_functions typed) -> hinted f /\ f_ret f = sr_type typed /\ (forall a, In a (f_params f) -> a = sr_type typed) /\ In (f_name f, arity f) numeric.
Proof.
  intros H. assert (R : f_ret f = sr_type typed /\ (forall a, In a (f_params f) -> a = sr_type typed) /\ In (f_name f, arity f) numeric).
  { destruct typed; cbn [sr_functions In] in H;
      repeat (destruct H as [<-|H]; [split; [reflexivity|split; [cbn; intuition congruence|cbn; tauto]]|]); destruct H. }
  destruct R as (R1 & R2 & R3). split; [|auto]. destruct typed; [left|right]; intros o Ho; apply in_app_iff in Ho as [Ho|[<-|[]]]; try (apply R2 in Ho as ->); try rewrite R1; discriminate || reflexivity.
Qed.

Lemma sr_requested typed a : requested (sr_tree typed) (sr_type typed) a -> a = sr_type typed.
Proof. intros [->|(f & Hf & Ha)]; [reflexivity|]. apply sr_hinted in Hf as (_ & _ & H & _). auto. Qed.

Lemma sr_supplied typed : supplied (sr_tree typed) (t_root_type (sr_tree typed)).
Proof.
  split; [intros f Hf; apply (sr_hinted _ _ Hf)|]. split.
  - intros e [= <-]. cbn. auto.
  - intros a Ha. apply sr_requested in Ha as ->. split.
    + destruct typed; (eexists; split; [left; reflexivity|reflexivity]).
    + left. exists (TVar "x"). left. reflexivity.
Qed.

Lemma sr_vars typed k a : In (k, a) (t_tset (sr_tree typed)) -> (exists s, k = TVar s) /\ a = sr_type typed.
Proof. intros H. cbn [t_tset sr_tree] in H. apply in_map_iff in H as (s & [= <- <-] & _). eauto. Qed.

Lemma sr_typed typed : typed_terminals (sr_tree typed) (t_root_type (sr_tree typed)).
Proof.
  destruct typed.
  - right. split.
    + intros k a H. destruct (sr_vars _ _ _ H) as ((s & ->) & ->). split; [cbn; apply String.eqb_refl|]. intros k' b H' _. apply sr_vars in H' as (_ & ->). reflexivity.
    + intros e [= <-]. split; [intros k a H; destruct (sr_vars _ _ _ H) as ((s & ->) & _); reflexivity|].
      intros a Ha _. apply (sr_requested true) in Ha. injection Ha as ->. reflexivity.
  - left. split; [intros a; apply (sr_requested false)|]. intros k a H. apply (sr_vars false) in H. apply H.
Qed.

Lemma sr_printable typed : printable_terminals (sr_tree typed).
Proof.
  split.
  - intros _ k a H. apply (sr_vars typed _ _ H).
  - destruct typed; [discriminate|]. intros H. elim H. exists (TVar "x"). left. reflexivity.
Qed.

Section Values.
  Variables (us ul usin ucos utan : num -> num) (typed : bool).
  Hypothesis FF : finite_functions us ul usin ucos utan.
  Notation fsem := (base_sem us ul usin ucos utan).

  Definition afloat (v : el) : Prop := exists q, v = EFloat (Fin q).

  Lemma function_float f vs : In f (sr_functions typed) -> length vs = arity f -> Forall afloat vs -> exists v, fsem f vs = Ok v /\ afloat v.
  Proof.
    intros Hf L F. destruct (numeric_ok us ul usin ucos utan FF f vs) as (v & E & N).
    - apply (sr_hinted _ _ Hf).
    - exact L.
    - eapply Forall_impl; [|exact F]. intros v (q & ->). exact I.
    - exists v. split; [exact E|]. assert (X : match v with EFloat _ => True | _ => False end).
      { assert (exists x, fsem f vs = Ok (EFloat x)) as (x & E'); [|rewrite E' in E; injection E as <-; exact I].
        clear E N v. destruct typed; cbn [sr_functions In] in Hf;
          repeat (destruct Hf as [<-|Hf]; [cbn in L; repeat (destruct vs as [|? vs]; try discriminate L);
            repeat match goal with H : Forall _ (_ :: _) |- _ => inversion_clear H end;
            repeat match goal with H : afloat _ |- _ => destruct H as (? & ->) end; eexists; reflexivity|]); destruct Hf. }
      destruct v as [z|[q| | |]|b]; try contradiction. exists q. reflexivity.
  Qed.

  Lemma terminal_of (P : el -> Prop) env v a : sr_node typed (TNode v a) -> (forall q, P (EFloat (Fin q))) ->
    (forall s, In s ["x"; "y"; "z"] -> exists u, env s = Some u /\ P u) -> P (eval_terminal el el_const env v).
  Proof.
    intros H Hq He. destruct v as [s|b x tag]; cbn [eval_terminal].
    - destruct (He s H) as (u & -> & U). exact U.
    - destruct H as (-> & H). destruct x; try discriminate. apply Hq.
  Qed.

  Lemma args_exact t (a b c : el) : t_tset t = sr_terminals typed -> exact_arguments t [("x", a); ("y", b); ("z", c)].
  Proof.
    intros E. unfold exact_arguments. rewrite E. cbn. split.
    - intros s [<-|[<-|[<-|[]]]]; auto.
    - intros v [<-|[<-|[<-|[]]]]; eexists; auto.
  Qed.

  Lemma arg_values (P : el -> Prop) (a b c : el) s : P a -> P b -> P c -> In s ["x"; "y"; "z"] -> exists u, argument [("x", a); ("y", b); ("z", c)] s = Some u /\ P u.
  Proof. intros Ha Hb Hc [<-|[<-|[<-|[]]]]; eexists; (split; [reflexivity|assumption]). Qed.

  (** On numbers, the value is a number. *)
  Lemma program_values (P : el -> Prop) t a b c : trees_of (sr_tree typed) (sr_node typed) (GTree t) ->
    (forall f vs, In f (sr_functions typed) -> length vs = arity f -> Forall P vs -> exists v, fsem f vs = Ok v /\ P v) ->
    (forall q, P (EFloat (Fin q))) -> P a -> P b -> P c -> exists v, execute el fsem el_const t [("x", a); ("y", b); ("z", c)] = Ok v /\ P v.
  Proof.
    intros ((t' & rt & [= <-] & (Ef & Et & _) & Ov & Sat & Fl & _) & Hq) Hf Hc Pa Pb Pc.
    rewrite (execute_accepts _ _ t rt _ Sat Fl) by (apply args_exact; exact Et). apply eval_values; [exact Sat| |].
    - intros f vs Hin. apply Hf. apply (Hq t (FNode f) eq_refl). rewrite <- Fl. exact Hin.
    - intros v a' Hin. apply (terminal_of P _ v a'); [apply (Hq t _ eq_refl); rewrite <- Fl; exact Hin|exact Hc|]. intros s. apply arg_values; assumption.
  Qed.

  Lemma tree_calculates data t : trees_of (sr_tree typed) (sr_node typed) (GTree t) -> data <> [] ->
    exists out m, (forall x y z, execute el fsem el_const t [("x", EFloat (Fin x)); ("y", EFloat (Fin y)); ("z", EFloat (Fin z))] = Ok (EFloat (Fin (out x y z)))) /\
      mean_deviation out data m /\ sr_evaluator us ul usin ucos utan data (GTree t) = Ok (VNum (Fin m)).
  Proof.
    intros G Hd. set (out := fun x y z => match execute el fsem el_const t [("x", EFloat (Fin x)); ("y", EFloat (Fin y)); ("z", EFloat (Fin z))] with
      Ok (EFloat (Fin q)) => q | _ => 0%Q end).
    assert (O : forall x y z, execute el fsem el_const t [("x", EFloat (Fin x)); ("y", EFloat (Fin y)); ("z", EFloat (Fin z))] = Ok (EFloat (Fin (out x y z)))).
    { intros x y z. unfold out. destruct (program_values afloat t (EFloat (Fin x)) (EFloat (Fin y)) (EFloat (Fin z)) G) as (v & E & q & ->); unfold afloat; eauto.
      - apply function_float.
      - rewrite E. reflexivity. }
    set (n := length data). assert (Nz : ~ (inject_Z (Z.of_nat n) == 0)%Q). { unfold n. destruct data; [congruence|]. cbn [length]. unfold Qeq, inject_Z. cbn [Qnum Qden]. lia. }
    set (dev := fun r => match sr_row us ul usin ucos utan t r with Ok (Fin q) => q | _ => 0%Q end).
    assert (D : forall r, sr_row us ul usin ucos utan t r = Ok (Fin (dev r)) /\ (dev r == deviation out r)%Q).
    { intros ((x & y) & z). unfold dev. unfold sr_row, sr_arguments. rewrite O. cbn [rbind el_num sr_target deviation]. cbn [nmul nadd]. unfold nsub. cbn [nneg nadd].
      destruct (nabs_fin (out x y z + - (x + 2 * y + 3 * z))) as (u & -> & Eu). split; [reflexivity|]. rewrite Eu. reflexivity. }
    exists out, (fold_left Qplus (map dev data) 0%Q / inject_Z (Z.of_nat n))%Q. split; [exact O|].
    assert (A : forall l a, fold_left nadd (map Fin l) (Fin a) = Fin (fold_left Qplus l a)) by (induction l as [|q l IH]; intros a; [reflexivity|cbn; apply IH]).
    assert (B : forall l a, (fold_left Qplus l a == a + fold_right Qplus 0 l)%Q).
    { induction l as [|q l IH]; intros a; cbn; [lra|]. rewrite IH. lra. }
    split.
    - unfold mean_deviation. fold n. rewrite (Qmult_comm (_ / _)), Qmult_div_r by exact Nz. rewrite B. unfold deviations.
      clear - D. induction data as [|r data IH]; cbn; [reflexivity|]. rewrite Qplus_0_l in IH |- *. rewrite IH. destruct (D r) as (_ & ->). reflexivity.
    - unfold sr_evaluator. rewrite (Lib.rmap_total _ (fun r => Fin (dev r))) by (intros r _; apply D). cbn [rbind]. unfold nsum. rewrite <- (map_map dev Fin), A.
      unfold nof_nat, ndiv. destruct (Qeq_bool _ 0) eqn:Q; [apply Qeq_bool_iff in Q; contradiction|]. reflexivity.
  Qed.
End Values.

(** ** The program *)

Definition sr_gp (typed : bool) : gp_params :=
  mkGP 2 4 (sr_functions typed) (sr_terminals typed) typed (Some (ErcFloat (Fin (-1)) (Fin 1))) (Fin 0) (sr_type typed) false (Fin (1 # 2)).
Definition sr_creator (typed : bool) : creator := CHalf 2 4 (sr_gp typed) (sr_gp typed).

Lemma sr_creates typed : tree_creator (sr_tree typed) 200 (sr_creator typed).
Proof.
  assert (G : gp_for (sr_tree typed) (sr_gp typed)) by (destruct typed; (split; [vm_compute; reflexivity|]); repeat split).
  split; [exact G|]. split; [exact G|]. split; lia.
Qed.

Definition sr_sub (typed : bool) (p : Q) : subpop := mkSub [sr_creator typed] [Fin p] sr_ops [SelTournament 4 true 1] 200 (HB false) 10 None.

Definition sr_algo (typed : bool) (stamp : Z) (p : Q) : algo :=
  mkAlgo [sr_sub typed p] 40 [CkThreshold (Fin 0) (Fin (double (1 # 1000)))] (stamp mod 4294967296)%Z (stamp mod 4294967296)%Z ByMap true None None None 0 None 0 [].

Lemma sr_setup typed sum stamp : sum = sum_plain \/ sum = sum_compensated ->
  exists su p, sr_program typed sum stamp = Ok su /\ su_stats su = 1 /\ (0 < p)%Q /\ su_algo su = sr_algo typed stamp p.
Proof.
  intros Hs. set (p := ddiv 1 (of_count 1)).
  assert (Es : new_subpopulation sum (CrOne (sr_creator typed)) None (Some sr_ops) (Some [new_tournament 4 None]) (double (1 # 20)) 200 None (HB false) = Ok (sr_sub typed p)).
  { apply subpopulation_ok. exists [sr_creator typed]. split; [left; eauto|]. split; [discriminate|]. exists [p], sr_ops. split; [right; auto|]. split; [reflexivity|].
    split; [|split; [vm_compute; reflexivity|]].
    - destruct Hs as [->| ->]; vm_compute; reflexivity.
    - assert (E : n_elite_of (double (1 # 20)) 200 = 10%Z) by (vm_compute; reflexivity). rewrite E. reflexivity. }
  unfold sr_program. match goal with |- context [new_half ?l] => change (new_half l) with (Ok (sr_creator typed)) end.
  cbn [rbind]. match goal with |- context [new_operators ?l] => change (new_operators l) with (Ok sr_ops) end. cbn [rbind].
  rewrite Es. cbn [rbind]. eexists _, p. split; [reflexivity|]. split; [reflexivity|]. split; [vm_compute; reflexivity|]. reflexivity.
Qed.

Lemma sr_run : forall us ul usin ucos utan typed data sum stamp sched w, finite_functions us ul usin ucos utan -> data <> [] ->
  sum = sum_plain \/ sum = sum_compensated -> fair sched -> w_heap w = [] ->
  exists su a' w' b out m k ls, sr_program typed sum stamp = Ok su /\ su_stats su = 1 /\
    evolve_all (sr_evaluator us ul usin ucos utan data) sched (fun _ => []) [SBestAverageWorst] ((su_algo su, w), []) = (Ok tt, ((a', w'), ls)) /\
    a_best_run a' = Some b /\ In b (concat (evals (a_trace a'))) /\
    calculates (base_sem us ul usin ucos utan) w' b out /\ mean_deviation out data m /\ pure_at w' b (VNum (Fin m)) /\
    length (evals (a_trace a')) = S k /\
    (forall l, In l (evals (a_trace a')) -> length l = 200 /\ forall o, In o l -> exists out' m',
       calculates (base_sem us ul usin ucos utan) w' o out' /\ mean_deviation out' data m' /\ pure_at w' o (VNum (Fin m')) /\ (m <= m')%Q) /\
    ((m <= double (1 # 1000))%Q /\ a_final a' = Some k \/ (double (1 # 1000) < m)%Q /\ a_final a' = None /\ k = 40) /\
    (forall x y z, algorithm_execute el (base_sem us ul usin ucos utan) el_const
       [("x", EFloat (Fin x)); ("y", EFloat (Fin y)); ("z", EFloat (Fin z))]%string a' w' = Ok (OValue (EFloat (Fin (out x y z))))) /\
    forall x y z, number x -> number y -> number z -> exists v, number v /\
      algorithm_execute el (base_sem us ul usin ucos utan) el_const [("x", x); ("y", y); ("z", z)]%string a' w' = Ok (OValue v).
Proof.
  intros us ul usin ucos utan typed data sum stamp sched w FF Hd Hsum Hf Hw. set (ev := sr_evaluator us ul usin ucos utan data). set (fsem := base_sem us ul usin ucos utan).
  destruct (sr_setup typed sum stamp Hsum) as (su & p & E & Es & Hp & Ea). set (G := trees_of (sr_tree typed) (sr_node typed)).
  assert (N : numbers_on G ev).
  { intros g Hg. pose proof Hg as ((t & rt & -> & _) & _). destruct (tree_calculates us ul usin ucos utan typed FF data t Hg Hd) as (out & m & _ & _ & Ev).
    eexists. split; [exact Ev|reflexivity]. }
  destruct (program_run G ev sched false (sr_sub typed p) [SBestAverageWorst] (sr_algo typed stamp p) w)
    as (a' & w' & b & k & ls & Eall & Ev & B & Ib & Lk & Fk & V & Best); auto.
  { constructor; try reflexivity; auto.
    - cbn. lia.
    - intros m. cbn. intros [<-|[<-|[<-|[<-|[]]]]]; (split; [discriminate|]); [exists 200|exists 100|exists 200|exists 200]; reflexivity.
    - eexists _, _. split; [reflexivity|]. cbn. repeat split; [lia|discriminate].
    - cbn. split; [reflexivity|]. split; [exists (0 + p)%Q; split; [reflexivity|]; rewrite Qplus_0_l; exact Hp|]. intros c0 [<-|[]]. split; reflexivity.
    - constructor; [exact I|constructor]. }
  { split.
    - apply Forall_forall. intros op Hop. apply program_closed with (ops := sr_ops); auto using sr_supplied, sr_typed, sr_kind; destruct Hop as [<-|[<-|[<-|[]]]]; cbn; auto; discriminate.
    - cbn. intros c0 [<-|[]]. apply program_creator_closed; auto using sr_supplied, sr_typed, sr_primitive, sr_creates. }
  { intros g [Hg _]. apply (trees_printable (sr_tree typed)); auto using sr_printable, sr_supplied. }
  { intros c [<-|[]]. split; reflexivity. }
  rewrite <- Ea in Eall, Ev.
  assert (D : forall o, In o (concat (evals (a_trace a'))) -> exists t out m, tree_at w' o t /\ G (GTree t) /\ calculates fsem w' o out /\ mean_deviation out data m /\ pure_at w' o (VNum (Fin m))).
  { intros o Ho. apply in_concat in Ho as (l & Hl & Ho). destruct (V l Hl) as [_ Vo]. destruct (Vo o Ho) as (i & x & A & Hg & Ex & Px).
    pose proof Hg as ((t & rt & Eg & _) & _). rewrite Eg in Hg, Ex. destruct (tree_calculates us ul usin ucos utan typed FF data t Hg Hd) as (out & m & O & Mn & Et).
    unfold ev in Ex. rewrite Et in Ex. injection Ex as <-. exists t, out, m.
    assert (T : tree_at w' o t) by (exists i; auto). split; [exact T|]. split; [exact Hg|]. split; [exists t; split; [exact T|exact O]|]. split; [exact Mn|exists i; auto]. }
  destruct (D b Ib) as (tb & out & m & Tb & Gb & Cb & Mb & Pb).
  exists su, a', w', b, out, m, k, ls. split; [exact E|]. split; [exact Es|]. split; [exact Eall|]. split; [exact B|]. split; [exact Ib|]. split; [exact Cb|].
  split; [exact Mb|]. split; [exact Pb|]. split; [exact Lk|]. split; [|split; [|split]].
  - intros l Hl. destruct (V l Hl) as [Ll _]. split; [exact Ll|]. intros o Ho. assert (Ho' : In o (concat (evals (a_trace a')))) by (apply in_concat; eauto).
    destruct (D o Ho') as (t & out' & m' & T & _ & Co & Mo & Po). exists out', m'. split; [exact Co|]. split; [exact Mo|]. split; [exact Po|].
    specialize (Best o _ _ Ho' Po Pb). cbn [better_score nlt] in Best. unfold Qlt_b in Best. destruct (Qle_bool m m') eqn:Q; [apply Qle_bool_iff in Q; exact Q|elim Best; reflexivity].
  - assert (M0 : (0 <= m)%Q).
    { assert (S0 : (0 <= deviations out data)%Q). { clear. unfold deviations. induction data as [|((x & y) & z) l IH]; cbn [fold_right]; [lra|]. assert (0 <= deviation out (x, y, z))%Q by apply Qabs_nonneg. lra. }
      unfold mean_deviation in Mb. rewrite <- Mb in S0. assert (P : (0 < inject_Z (Z.of_nat (length data)))%Q) by (destruct data; [congruence|]; reflexivity).
      apply Qmult_lt_0_le_reg_r with (z := inject_Z (Z.of_nat (length data))); [exact P|rewrite Qmult_0_l; exact S0]. }
    assert (T : a_final a' <> None <-> (m <= double (1 # 1000))%Q).
    { destruct (target_exact ev sched 1 (su_algo su) w a' w' 0 (double (1 # 1000))) as (b' & i & x & B' & A & Px & F); [rewrite Ea; reflexivity|rewrite Ea; reflexivity|exact Ev|].
      assert (b' = b) as -> by congruence. destruct Pb as (j & A' & Pj). assert (j = i) as -> by congruence. rewrite Pj in Px. injection Px as <-. rewrite F.
      assert (D0 : (0 <= double (1 # 1000))%Q) by (vm_compute; discriminate).
      split; [intros (q & [= <-] & Q); apply Qabs_Qle_condition in Q; lra|]. intros Q. exists m. split; [reflexivity|]. apply Qabs_Qle_condition. lra. }
    destruct (Qlt_le_dec (double (1 # 1000)) m) as [O|O].
    + right. split; [exact O|]. destruct Fk as [F|[Fk F]]; [|auto]. assert (m <= double (1 # 1000))%Q by (apply T; congruence). lra.
    + left. split; [exact O|]. destruct Fk as [F|[_ F]]; [exact F|]. apply T in O. congruence.
  - intros x y z. destruct Cb as (t & (j & A & Eg) & X). unfold algorithm_execute. rewrite B. unfold at_ in A. rewrite A. unfold ind_execute. rewrite Eg, (X x y z). reflexivity.
  - intros x y z Nx Ny Nz. destruct Tb as (j & A & Eg). destruct (program_values us ul usin ucos utan typed number tb x y z Gb) as (v & Ex & Nv); auto.
    + intros f vs Hin L F. destruct (numeric_ok us ul usin ucos utan FF f vs) as (v & Ef & Nv); eauto. apply (sr_hinted _ _ Hin).
    + intros q. exact I.
    + exists v. split; [exact Nv|]. unfold algorithm_execute. rewrite B. unfold at_ in A. rewrite A. unfold ind_execute. rewrite Eg. fold fsem in Ex. rewrite Ex. reflexivity.
Qed.
