(** * Lemmas about the example programs. *)
From Coq Require Import Lia QArith Lqa.
From Verif.Proofs Require Import LeadP TargetP KindP RegP CompleteP CompleteVecP StatP EvoFinalP TraceP CheckP VecOpP VecFinalP VectorP ShowP SetupP.
From Verif.Model Require Import Num Fitness Vector World Evolution Statistics Execute Setup Make Examples.
From Verif.Spec Require Import WorldSpec FitnessSpec VectorSpec SelSpec EvoSpec CompleteSpec ShowSpec StatSpec RegSpec MoveSpec SetupSpec ExamplesSpec EverySpec.
Open Scope nat_scope.
Open Scope list_scope.

(** ** Runs of programs *)

Definition numbers_on (G : genome -> Prop) (ev : genome -> res fval) : Prop :=
  forall g, G g -> exists x, ev g = Ok (VNum x) /\ is_nan x = false.

Definition count_evals (ks : list kind) : nat := length (filter (fun k => match k with Eval => true | _ => false end) ks).

Lemma evals_count tr : length (evals tr) = count_evals (map kind_of tr).
Proof. unfold evals, count_evals. induction tr as [|e tr IH]; [reflexivity|]. destruct e; cbn; auto. Qed.

Lemma count_app l l' : count_evals (l ++ l') = count_evals l + count_evals l'.
Proof. unfold count_evals. rewrite filter_app, app_length. reflexivity. Qed.

Lemma generations_count k : count_evals (concat (repeat generation_events k)) = k.
Proof. induction k as [|k IH]; [reflexivity|]. cbn [repeat concat]. rewrite count_app, IH. reflexivity. Qed.

(** The number of generations. *)
Lemma run_length a tr final : well_run a tr final ->
  exists k, length (evals tr) = S k /\ (final = Some k \/ k = a_max_gen a /\ final = a_final a).
Proof.
  intros (k & st & pre & lc & Hk & H0 & Hm & _ & _ & _ & _ & _ & _ & Ht & Hn). exists k.
  split.
  - rewrite evals_count, Hm, !count_app. destruct st; [rewrite (H0 eq_refl); reflexivity|]. rewrite generations_count. cbn. lia.
  - destruct (in_dec Bool.bool_dec true lc) as [I|I]; [left; apply Ht, I|right; apply Hn, I].
Qed.

Section Program.
  Variables (G : genome -> Prop) (ev : genome -> res fval) (sched : nat -> list nat) (h : bool) (s : subpop) (stats : list stat) (a : algo) (w : world).
  Hypothesis Hn : numbers_on G ev.
  Hypothesis Hf : fair sched.
  Hypothesis Ht : a_trace a = [].
  Hypothesis Hs : a_stats a = 0.
  Hypothesis Hfin : a_final a = None.
  Hypothesis Hw : w_heap w = [].
  Hypothesis C : configured h a w s.
  Hypothesis K : closed_under G w s.
  Hypothesis Hp : forall g, G g -> printable g.
  Hypothesis Hi : sp_inds s = None.

  (** With fitness classes [P]. *)
  Lemma program_scores (P : fclass -> Prop) : (forall c, In c (sp_creators s) -> made_with P c) -> exists a' w' b k ls,
    evolve_all ev sched (fun _ => []) stats ((a, w), []) = (Ok tt, ((a', w'), ls)) /\
    evolve ev sched (length stats) (a, w) = (Ok tt, (a', w')) /\
    a_best_run a' = Some b /\ In b (concat (evals (a_trace a'))) /\
    length (evals (a_trace a')) = S k /\ (a_final a' = Some k \/ k = a_max_gen a /\ a_final a' = None) /\
    (forall l, In l (evals (a_trace a')) -> length l = sp_size s /\
       forall o, In o l -> exists i x, at_ w' o = Some i /\ G (i_genome i) /\ ev (i_genome i) = Ok (VNum x) /\ get_pure_fitness (i_fit i) = Ok (VNum x)) /\
    all_kinds P w' /\ (forall o, In o (concat (evals (a_trace a'))) -> oriented w' h o) /\
    (forall o, In o (concat (evals (a_trace a'))) -> exists x y, scored w' o x /\ scored w' b y /\ ~ better_score h x y).
  Proof.
    intros Hc. pose proof (numeric_total G ev Hn) as Tn. pose proof (numeric_gives ev) as Gn.
    assert (Le : forall g v, LeadP.numeric ev g = Ok v -> ev g = Ok v) by (intros g v H; apply numeric_ok in H; apply H).
    destruct (run_reports G (LeadP.numeric ev) sched h s (fun _ => []) stats a w) as (a' & w' & first & later & ls & E & _ & _ & Eall); auto.
    { rewrite Hfin. discriminate. }
    { intros name cb []. }
    destruct (run_completes G (LeadP.numeric ev) sched h s (length stats) a w Gn Tn Hf Ht C K Hp) as (a2 & w2 & E2 & V).
    rewrite E in E2. injection E2 as <- <-.
    assert (Sp : scalar_population w h (a_pop a)).
    { exists s. split; [apply (cf_pop _ _ _ _ C)|]. rewrite Hi. rewrite (cf_hib _ _ _ _ C). split; [reflexivity|].
      pose proof (cf_inds _ _ _ _ C) as X. rewrite Hi in X. apply X. }
    destruct (best_of_run _ _ _ _ _ _ _ h Gn Hf Ht (cf_method _ _ _ _ C) Sp E) as (b & B & Ib & Vb).
    assert (Ak : all_kinds P w').
    { pose proof (run_kinds P (LeadP.numeric ev) sched (length stats) a w) as R. rewrite E in R. apply R.
      - intros i Hin. rewrite Hw in Hin. destruct Hin.
      - intros s0 Hs0 _ c Hc0. rewrite (cf_pop _ _ _ _ C) in Hs0. destruct Hs0 as [<-|[]]. apply Hc. exact Hc0. }
    destruct (run_length _ _ _ (evolve_well_run _ _ _ _ _ _ _ Ht E)) as (k & Lk & Fk).
    exists a', w', b, k, ls. split; [apply (evolve_all_lead _ _ Le), Eall|]. split; [apply (evolve_lead _ _ Le), E|].
    split; [exact B|]. split; [exact Ib|]. split; [exact Lk|]. split; [destruct Fk as [F|[F1 F2]]; [left; exact F|right; split; [exact F1|congruence]]|].
    assert (Vals : forall o, In o (concat (evals (a_trace a'))) -> exists i x, at_ w' o = Some i /\ ev (i_genome i) = Ok (VNum x) /\ get_pure_fitness (i_fit i) = Ok (VNum x)).
    { intros o Ho. destruct (Vb o Ho) as [(i & v & A & Ev & Pv) _]. apply numeric_ok in Ev. destruct Ev as (Ev & x & -> & _). eauto. }
    split; [|split; [exact Ak|split; [exact (run_oriented _ _ _ _ _ _ _ h Gn Hf Ht (cf_method _ _ _ _ C) Sp E)|]]].
    - intros l Hl. destruct (V l Hl) as [Ll Gl]. split; [exact Ll|]. intros o Ho. destruct (Gl o Ho) as (i & A & Gi).
      destruct (Vals o) as (j & x & A' & Ev & Pv); [apply in_concat; eauto|]. assert (j = i) as -> by congruence. exists i, x. auto.
    - intros o Ho. apply (Vb o Ho).
  Qed.

  Lemma program_run : (forall c, In c (sp_creators s) -> made_with no_penalty c) -> exists a' w' b k ls,
    evolve_all ev sched (fun _ => []) stats ((a, w), []) = (Ok tt, ((a', w'), ls)) /\
    evolve ev sched (length stats) (a, w) = (Ok tt, (a', w')) /\
    a_best_run a' = Some b /\ In b (concat (evals (a_trace a'))) /\
    length (evals (a_trace a')) = S k /\ (a_final a' = Some k \/ k = a_max_gen a /\ a_final a' = None) /\
    (forall l, In l (evals (a_trace a')) -> length l = sp_size s /\
       forall o, In o l -> exists i x, at_ w' o = Some i /\ G (i_genome i) /\ ev (i_genome i) = Ok (VNum x) /\ get_pure_fitness (i_fit i) = Ok (VNum x)) /\
    (forall o x y, In o (concat (evals (a_trace a'))) -> pure_at w' o (VNum x) -> pure_at w' b (VNum y) -> ~ better_score h x y).
  Proof.
    intros Hc. destruct (program_scores no_penalty Hc) as (a' & w' & b & k & ls & E1 & E2 & B & Ib & Lk & Fk & V & Ak & _ & Best).
    exists a', w', b, k, ls. repeat (split; [assumption|]). intros o x y Ho (i & A & Px) (j & A' & Py). destruct (Best o Ho) as (x1 & x2 & S1 & S2 & N).
    rewrite (plain_score _ _ _ _ _ Ak S1 A Px), (plain_score _ _ _ _ _ Ak S2 A' Py) in N. exact N.
  Qed.
End Program.

(** ** Bit strings *)

Lemma bits_at len o w : genomes_in (bit_genomes len) [o] w <-> exists v, vec_at w o v /\ bit_string v /\ vsize v = len.
Proof.
  split.
  - intros H. destruct (H o (or_introl eq_refl)) as (i & A & v & E & S). exists v. split; [exists i; auto|exact S].
  - intros (v & (i & A & E) & S) o' [<-|[]]. exists i. split; [exact A|]. exists v. auto.
Qed.

Definition bit_box : bounds := BPair (Fin 0) (Fin 1).

Lemma mix_bits a b a' b' : position_mix a b a' b' -> is_bits a -> is_bits b -> is_bits a' /\ is_bits b'.
Proof.
  intros (_ & _ & M) Ha Hb. unfold is_bits in *. rewrite Forall_forall in Ha, Hb.
  split; apply Forall_forall; intros x Hx; apply In_nth_error in Hx; destruct Hx as [i Hx]; destruct (M i) as [[M1 M2]|[M1 M2]].
  - rewrite M1 in Hx. eauto using nth_error_In.
  - rewrite M1 in Hx. eauto using nth_error_In.
  - rewrite M2 in Hx. eauto using nth_error_In.
  - rewrite M2 in Hx. eauto using nth_error_In.
Qed.

Lemma bits_closed len op : bit_operator len op -> closed_operator (bit_genomes len) op.
Proof.
  intros H l w Hl Hn Hg. unfold bit_operator in H. destruct (op_kind op) as [p|m n| | | |] eqn:K; try contradiction.
  - destruct H as [Ha Hp]. rewrite Ha in Hl. destruct l as [|a [|c [|]]]; try discriminate Hl. rewrite genomes_each in Hg.
    destruct (proj1 (bits_at _ _ _) (Hg a (or_introl eq_refl))) as (va & Aa & (Ka & Ba & La & Sa) & Na).
    destruct (proj1 (bits_at _ _ _) (Hg c (or_intror (or_introl eq_refl)))) as (vc & Ac & (Kc & Bc & Lc & Sc) & Nc).
    destruct (crossover_op op p a c [] w va vc K) as (ca & cc & w' & E & Wa & Wc & Mix); auto.
    { intros ->. inversion Hn as [|? ? N _]. apply N. left. reflexivity. }
    { intros o []. }
    { congruence. }
    { congruence. }
    exists w'. split; [exact E|]. destruct (mix_bits _ _ _ _ Mix Sa Sc) as [Ia Ic]. destruct Mix as (M1 & M2 & _).
    rewrite genomes_each. unfold vsize in *. intros o [<-|[<-|[]]]; apply bits_at.
    + exists (with_cells va ca). split; [exact Wa|]. unfold bit_string, vsize. cbn [v_cells v_length v_bounds v_kind with_cells]. rewrite M1. auto.
    + exists (with_cells vc cc). split; [exact Wc|]. unfold bit_string, vsize. cbn [v_cells v_length v_bounds v_kind with_cells]. rewrite M2. auto.
  - destruct H as (Hm & Ha & Hl').
    assert (Hb : forall o, In o l -> exists v, vec_at w o v /\ bit_string v /\ vsize v = len).
    { intros o Ho. apply bits_at. revert o Ho. apply genomes_each. exact Hg. }
    destruct (inside_never_fails op m n l w K Ha) as (w' & E & _).
    { destruct m; try exact I; destruct Hm. }
    { intros o Ho. destruct (Hb o Ho) as (v & A & S & Lv). exists v. split; [exact A|]. split; [apply bit_sound, S|]. split; [apply bit_inside; assumption|].
      unfold enough. rewrite Lv. destruct m; try exact I; exact Hl'. }
    exists w'. split; [exact E|]. rewrite genomes_each. intros o Ho. apply bits_at. destruct (Hb o Ho) as (v & A & S & Lv).
    destruct (bits_kept op m n l w o v K Hm) as (v' & A' & S' & L'); auto.
    { intros o' Ho'. destruct (Hb o' Ho') as (v1 & A1 & S1 & _). eauto. }
    rewrite E in A'. exists v'. split; [exact A'|]. split; [exact S'|]. congruence.
Qed.

Lemma bit_creatable len : creatable len bit_box KBit.
Proof.
  split; [exists 0%Q, 1%Q; split; [reflexivity|lra]|]. split; [intros _; split; [exists 0%Z|exists 1%Z]; reflexivity|].
  intros _. exists (Fin 0), (Fin 1). reflexivity.
Qed.

Lemma bits_created len fc upd n h : closed_creator (bit_genomes len) n h (CVector len bit_box KBit fc upd).
Proof.
  intros w. destruct (creators_ok len bit_box KBit fc upd n h w (bit_creatable len)) as (l & w' & E & _ & _ & _ & _ & H). exists l, w'. split; [exact E|].
  rewrite genomes_each. intros o Ho. apply bits_at. destruct (H o Ho) as (_ & v & A & Kv & Bv & Lv & Sv & Bx & It).
  exists v. split; [exact A|]. split; [|exact Sv]. split; [exact Kv|]. split; [exact Bv|]. split; [congruence|].
  assert (It' : Forall integral (v_cells v)) by (apply It; discriminate). unfold is_bits. rewrite Forall_forall in *. intros x Hx.
  destruct (It' x Hx) as (z & ->). apply In_nth_error in Hx. destruct Hx as [i Hx]. destruct (Bx i _ Hx) as (lo & hi & [= <- <-] & B1 & B2).
  unfold nof_Z in *. apply nle_fin in B1, B2. change 0%Q with (inject_Z 0) in B1. change 1%Q with (inject_Z 1) in B2. rewrite <- Zle_Qle in B1, B2.
  assert (z = 0%Z \/ z = 1%Z) as [-> | ->] by lia; auto.
Qed.

(** ** The programs *)

Definition program_algo (stamp : Z) (p : Q) (c : creator) (size elite : nat) (ops : list oper) (tournament : nat) (checkers : list checker) : algo :=
  mkAlgo [mkSub [c] [Fin p] ops [SelTournament tournament true 1] size (HB true) elite None] 500 checkers
    (stamp mod 4294967296)%Z (stamp mod 4294967296)%Z ByMap true None None None 0 None 0 [].

Lemma program_setup sum stamp c size rate calls tournament checkers ops : sum = sum_plain \/ sum = sum_compensated ->
  new_operators calls = Ok ops ->
  exists su p, vector_program sum stamp c size rate calls tournament checkers = Ok su /\ su_stats su = 1 /\ (0 < p)%Q /\
    su_algo su = program_algo stamp p c size (Z.to_nat (n_elite_of rate size)) ops tournament checkers.
Proof.
  intros Hs Eo. set (p := ddiv 1 (of_count 1)).
  set (s := mkSub [c] [Fin p] ops [new_tournament tournament None] size (HB true) (Z.to_nat (n_elite_of rate size)) None).
  assert (Es : new_subpopulation sum (CrOne c) None (Some ops) (Some [new_tournament tournament None]) rate size None (HB true) = Ok s).
  { apply subpopulation_ok. exists [c]. split; [left; eauto|]. split; [discriminate|]. exists [p], ops. split; [right; auto|]. split; [reflexivity|].
    split; [|split; reflexivity]. destruct Hs as [->| ->]; vm_compute; reflexivity. }
  unfold vector_program. rewrite Eo. cbn [rbind]. rewrite Es. cbn [rbind]. eexists _, p. split; [reflexivity|]. split; [reflexivity|].
  split; [vm_compute; reflexivity|]. reflexivity.
Qed.

Section Programs.
  Variables (G : genome -> Prop) (ev : genome -> res fval) (sched : nat -> list nat) (stamp : Z) (c : creator) (size elite : nat)
    (ops : list oper) (tournament : nat) (checkers : list checker) (p : Q) (w : world).
  Hypothesis Hn : numbers_on G ev.
  Hypothesis Hf : fair sched.
  Hypothesis Hw : w_heap w = [].
  Hypothesis Hp : (0 < p)%Q.
  Hypothesis Hops : Forall (closed_operator G) ops.
  Hypothesis Har : forall op, In op ops -> op_arity op <> 0 /\ Nat.divide (op_arity op) size.
  Hypothesis Hsz : 1 <= size.
  Hypothesis Ht : 1 <= tournament.
  Hypothesis Hcr : scalar_creator c /\ made_with no_penalty c /\ closed_creator G size (HB true) c.
  Hypothesis Hck : Forall calm checkers.
  Hypothesis Hpr : forall g, G g -> printable g.

  Lemma vector_program_run : let a := program_algo stamp p c size elite ops tournament checkers in
    exists a' w' b k ls,
    evolve_all ev sched (fun _ => []) [SBestAverageWorst] ((a, w), []) = (Ok tt, ((a', w'), ls)) /\
    evolve ev sched 1 (a, w) = (Ok tt, (a', w')) /\
    a_best_run a' = Some b /\ In b (concat (evals (a_trace a'))) /\
    length (evals (a_trace a')) = S k /\ (a_final a' = Some k \/ k = 500 /\ a_final a' = None) /\
    (forall l, In l (evals (a_trace a')) -> length l = size /\
       forall o, In o l -> exists i x, at_ w' o = Some i /\ G (i_genome i) /\ ev (i_genome i) = Ok (VNum x) /\ get_pure_fitness (i_fit i) = Ok (VNum x)) /\
    (forall o x y, In o (concat (evals (a_trace a'))) -> pure_at w' o (VNum x) -> pure_at w' b (VNum y) -> ~ better_score true x y).
  Proof.
    intros a. set (s := mkSub [c] [Fin p] ops [SelTournament tournament true 1] size (HB true) elite None).
    apply (program_run G ev sched true s [SBestAverageWorst] a w); auto.
    - constructor; try reflexivity; auto.
      + intros n Hin. cbn in Hin. destruct Hin as [<-|Hin]; [split; [discriminate|exists size; rewrite Nat.mul_1_r; reflexivity]|]. apply in_map_iff in Hin. destruct Hin as (op & <- & Hop). auto.
      + eexists _, _. split; [reflexivity|]. cbn. repeat split; [exact Ht|discriminate].
      + cbn. split; [reflexivity|]. split; [exists (0 + p)%Q; split; [reflexivity|]; rewrite Qplus_0_l; exact Hp|]. intros c0 [<-|[]]. apply Hcr.
    - split; [exact Hops|]. cbn. intros c0 [<-|[]]. apply Hcr.
    - cbn. intros c0 [<-|[]]. apply Hcr.
  Qed.
End Programs.

Lemma pure_of w o i v : at_ w o = Some i -> get_pure_fitness (i_fit i) = Ok v -> pure_at w o v.
Proof. intros A E. exists i. auto. Qed.

Lemma cells_of w o i v : at_ w o = Some i -> i_genome i = GVec v -> cells_at w o (v_cells v).
Proof. intros A E. exists v. split; [exists i; auto|reflexivity]. Qed.

Lemma execute_cells w a b c : a_best_run a = Some b -> cells_at w b c ->
  forall val (fsem : func -> list val -> res val) const kw, algorithm_execute val fsem const kw a w = Ok (OVector c).
Proof.
  intros B (v & (i & A & E) & <-) val fsem const kw. unfold algorithm_execute. rewrite B. unfold at_ in A. rewrite A. unfold ind_execute. rewrite E. reflexivity.
Qed.

(** *** OneMax *)

Lemma ones_le c : ones c <= length c.
Proof. unfold ones. induction c as [|x c IH]; [apply le_n|]. cbn. destruct (neq_num x (Fin 1)); cbn; lia. Qed.

Lemma ones_all c : is_bits c -> ones c = length c -> c = repeat (Fin 1) (length c).
Proof.
  unfold ones. induction 1 as [|x c Hx Hc IH]; [reflexivity|]. cbn [filter length]. destruct Hx as [-> | ->].
  - cbn [neq_num]. change (Qeq_bool 0 1) with false. intros H. pose proof (ones_le c) as L. unfold ones in L. lia.
  - cbn [neq_num]. change (Qeq_bool 1 1) with true. cbn [length repeat]. intros H. f_equal. apply IH. lia.
Qed.

Lemma ones_repeat n : ones (repeat (Fin 1) n) = n.
Proof. unfold ones. induction n as [|n IH]; [reflexivity|]. cbn. f_equal. exact IH. Qed.

Lemma sum_bits c : is_bits c -> forall z, fold_left nadd c (Fin (inject_Z z)) = Fin (inject_Z (z + Z.of_nat (ones c))).
Proof.
  unfold ones. induction 1 as [|x c Hx Hc IH]; intros z; cbn [fold_left filter length].
  - rewrite Z.add_0_r. reflexivity.
  - destruct Hx as [-> | ->]; cbn [neq_num nadd].
    + change (Qeq_bool 0 1) with false. replace (inject_Z z + 0)%Q with (inject_Z z); [apply IH|]. unfold inject_Z, Qplus. cbn. f_equal. lia.
    + change (Qeq_bool 1 1) with true. replace (inject_Z z + 1)%Q with (inject_Z (z + 1)); [rewrite IH; do 2 f_equal; cbn [length]; lia|].
      unfold inject_Z, Qplus. cbn. f_equal. lia.
Qed.

Lemma one_max_value v : is_bits (v_cells v) -> one_max (GVec v) = Ok (VNum (Fin (inject_Z (Z.of_nat (ones (v_cells v)))))).
Proof. intros H. unfold one_max. change (Fin 0) with (Fin (inject_Z 0)). rewrite (sum_bits _ H). reflexivity. Qed.

Lemma divides_2_300 : Nat.divide 2 300.
Proof. exists 150. reflexivity. Qed.

Lemma bits_printable len g : bit_genomes len g -> printable g.
Proof. intros (v & -> & _). exact I. Qed.

Lemma one_max_run : forall sum stamp sched w, sum = sum_plain \/ sum = sum_compensated -> fair sched -> w_heap w = [] ->
  exists su a' w' b c k ls, one_max_program sum stamp = Ok su /\ su_stats su = 1 /\
    evolve_all one_max sched (fun _ => []) [SBestAverageWorst] ((su_algo su, w), []) = (Ok tt, ((a', w'), ls)) /\
    a_best_run a' = Some b /\ In b (concat (evals (a_trace a'))) /\ cells_at w' b c /\
    pure_at w' b (VNum (Fin (inject_Z (Z.of_nat (ones c))))) /\
    evaluated_vectors (fun c' => bits 100 c' /\ ones c' <= ones c) 300 k (a_trace a') w' /\
    (c = repeat (Fin 1) 100 /\ a_final a' = Some k \/ ones c < 100 /\ a_final a' = None /\ k = 500) /\
    forall val (fsem : func -> list val -> res val) const kw, algorithm_execute val fsem const kw a' w' = Ok (OVector c).
Proof.
  intros sum stamp sched w Hsum Hf Hw.
  set (ops := [mkOper (OKPoint 1) (Fin (1 # 2)) 2 1; mkOper (OVecMut (MBitNFlip (Fin (1 # 20))) 100) (Fin (1 # 5)) 1 5]).
  destruct (program_setup sum stamp (new_vector_creator KBit (Some 100) None None) 300 (double (1 # 300))
    [(NKPoints, mkOA (Some (Fin (1 # 2))) None None (Some 1) None None None None None);
     (NBitNFlip, mkOA (Some (Fin (1 # 5))) None (Some 100) None None None (Some (Fin (1 # 20))) None None)]
    3 [CkThreshold (Fin 100) (Fin 0)] ops Hsum eq_refl) as (su & p & E & Es & Hp & Ea).
  assert (N : numbers_on (bit_genomes 100) one_max).
  { intros g (v & -> & (_ & _ & _ & B) & _). eexists. split; [apply one_max_value; exact B|reflexivity]. }
  destruct (vector_program_run (bit_genomes 100) one_max sched stamp (new_vector_creator KBit (Some 100) None None) 300
      (Z.to_nat (n_elite_of (double (1 # 300)) 300)) ops 3 [CkThreshold (Fin 100) (Fin 0)] p w N Hf Hw Hp)
    as (a' & w' & b & k & ls & Eall & Ev & B & Ib & Lk & Fk & V & Best).
  { constructor; [|constructor; [|constructor]]; apply bits_closed; cbn; [split; [reflexivity|lia]|split; [exact I|split; lia]]. }
  { intros op [<-|[<-|[]]]; cbn [op_arity]; (split; [discriminate|]); [apply divides_2_300|apply Nat.divide_1_l]. }
  { lia. }
  { lia. }
  { split; [split; [reflexivity|exact I]|]. split; [exact I|]. apply bits_created. }
  { constructor; [exact I|constructor]. }
  { intros g. apply bits_printable. }
  rewrite <- Ea in Eall, Ev.
  assert (D : forall o, In o (concat (evals (a_trace a'))) -> exists c, cells_at w' o c /\ bits 100 c /\ pure_at w' o (VNum (Fin (inject_Z (Z.of_nat (ones c)))))).
  { intros o Ho. apply in_concat in Ho. destruct Ho as (l & Hl & Ho). destruct (V l Hl) as [_ Vo]. destruct (Vo o Ho) as (i & x & A & (v & Eg & Bs & Sz) & Ex & Px).
    rewrite Eg, (one_max_value v) in Ex by apply Bs. injection Ex as <-. exists (v_cells v). split; [eapply cells_of; eauto|]. split; [split; [exact Sz|apply Bs]|].
    eapply pure_of; eauto. }
  destruct (D b Ib) as (c & Cc & Bc & Pc).
  exists su, a', w', b, c, k, ls. split; [exact E|]. split; [exact Es|]. split; [exact Eall|]. split; [exact B|]. split; [exact Ib|]. split; [exact Cc|]. split; [exact Pc|].
  split; [split; [exact Lk|]|split].
  - intros l Hl. destruct (V l Hl) as [Ll _]. split; [exact Ll|]. intros o Ho. assert (Ho' : In o (concat (evals (a_trace a')))) by (apply in_concat; eauto).
    destruct (D o Ho') as (c' & C' & B' & P'). exists c'. split; [exact C'|]. split; [exact B'|].
    specialize (Best o _ _ Ho' P' Pc). cbn [better_score nlt] in Best. unfold Qlt_b in Best.
    destruct (Qle_bool (inject_Z (Z.of_nat (ones c'))) (inject_Z (Z.of_nat (ones c)))) eqn:Q; [|elim Best; reflexivity].
    apply Qle_bool_iff in Q. rewrite <- Zle_Qle in Q. lia.
  - assert (T : a_final a' <> None <-> ones c = 100).
    { destruct (target_exact one_max sched 1 (su_algo su) w a' w' 100 0) as (b' & i & x & B' & A & Px & F); [rewrite Ea; reflexivity|rewrite Ea; reflexivity|exact Ev|].
      assert (b' = b) as -> by congruence. destruct Pc as (j & A' & Pj). assert (j = i) as -> by congruence. rewrite Pj in Px. injection Px as <-.
      rewrite F. split.
      - intros (q & [= <-] & Q). apply Qabs_Qle_condition in Q. assert (inject_Z (Z.of_nat (ones c)) == inject_Z 100)%Q as Q' by (change (inject_Z 100) with 100%Q; lra).
        unfold Qeq in Q'. cbn [Qnum Qden inject_Z] in Q'. lia.
      - intros ->. exists (inject_Z 100). split; [reflexivity|]. vm_compute. discriminate. }
    destruct Bc as [Lc Bc]. pose proof (ones_le c) as Lo. rewrite Lc in Lo. destruct (Nat.eq_dec (ones c) 100) as [O|O].
    + left. split; [rewrite <- Lc; apply ones_all; congruence|]. destruct Fk as [F|[_ F]]; [exact F|]. apply T in O. congruence.
    + right. split; [lia|]. destruct Fk as [F|[Fk F]]; [|auto]. elim O. apply T. congruence.
  - intros. eapply execute_cells; eauto.
Qed.

(** *** OneMax on floats *)

Lemma sum_cells qs : forall a, exists t, fold_left nadd (map Fin qs) (Fin a) = Fin t /\ (t == a + fold_right Qplus 0 qs)%Q.
Proof.
  induction qs as [|q qs IH]; intros a; cbn [map fold_left fold_right nadd]; [exists a; split; [reflexivity|lra]|].
  destruct (IH (a + q)%Q) as (t & E & Et). exists t. split; [exact E|]. rewrite Et. lra.
Qed.

Lemma box_cells v : in_box bit_box (v_cells v) -> unit_cells (vsize v) (v_cells v).
Proof.
  intros H. split; [reflexivity|]. apply Forall_forall. intros x Hx. apply In_nth_error in Hx. destruct Hx as [i Hx].
  destruct (H i x Hx) as (lo & hi & [= <- <-] & B1 & B2). destruct x as [q| | |]; try discriminate. apply nle_fin in B1, B2. eauto.
Qed.

Lemma unit_map len c : unit_cells len c -> exists qs, c = map Fin qs.
Proof.
  intros [_ H]. induction H as [|x c (q & -> & _) H (qs & ->)]; [exists []; reflexivity|]. exists (q :: qs). reflexivity.
Qed.

Lemma sums_unique c s t : sums_to c s -> sums_to c t -> (s == t)%Q.
Proof.
  intros (qs & -> & Es) (rs & E & Et). assert (qs = rs) as ->; [|lra]. clear Es Et. revert rs E. induction qs as [|q qs IH]; intros [|r rs] E; try discriminate; [reflexivity|].
  injection E as -> E. f_equal. auto.
Qed.

Lemma one_max_sum v : unit_cells (vsize v) (v_cells v) -> exists q, one_max (GVec v) = Ok (VNum (Fin q)) /\ sums_to (v_cells v) q.
Proof.
  intros U. destruct (unit_map _ _ U) as (qs & E). unfold one_max. rewrite E. destruct (sum_cells qs 0) as (t & -> & Et). exists t. split; [reflexivity|].
  exists qs. split; [reflexivity|]. rewrite Et. lra.
Qed.

Lemma float_creatable len : creatable len bit_box KFloat.
Proof. split; [exists 0%Q, 1%Q; split; [reflexivity|lra]|]. split; [congruence|discriminate]. Qed.

Lemma one_max_float_run : forall sum stamp sched w, sum = sum_plain \/ sum = sum_compensated -> fair sched -> w_heap w = [] ->
  exists su a' w' b c q k ls, one_max_float_program sum stamp = Ok su /\ su_stats su = 1 /\
    evolve_all one_max sched (fun _ => []) [SBestAverageWorst] ((su_algo su, w), []) = (Ok tt, ((a', w'), ls)) /\
    a_best_run a' = Some b /\ In b (concat (evals (a_trace a'))) /\ cells_at w' b c /\
    sums_to c q /\ pure_at w' b (VNum (Fin q)) /\
    evaluated_vectors (fun c' => unit_cells 100 c' /\ forall r, sums_to c' r -> (r <= q)%Q) 300 k (a_trace a') w' /\
    ((q == 100)%Q /\ a_final a' = Some k \/ ~ (q == 100)%Q /\ a_final a' = None /\ k = 500) /\
    forall val (fsem : func -> list val -> res val) const kw, algorithm_execute val fsem const kw a' w' = Ok (OVector c).
Proof.
  intros sum stamp sched w Hsum Hf Hw.
  set (ops := [mkOper (OKPoint 1) (Fin (7 # 10)) 2 1; mkOper (OVecMut MUniformN 50) (Fin (3 # 10)) 1 5]).
  destruct (program_setup sum stamp (new_vector_creator KFloat (Some 100) (Some (BPair (Fin 0) (Fin 1))) None) 300 (double (1 # 300))
    [(NKPoints, mkOA (Some (Fin (7 # 10))) None None (Some 1) None None None None None);
     (NUniformN, mkOA (Some (Fin (3 # 10))) None (Some 50) None None None None None None)]
    3 [CkThreshold (Fin 100) (Fin 0)] ops Hsum eq_refl) as (su & p & E & Es & Hp & Ea).
  assert (Ub : forall v, sound_vec v -> v_bounds v = bit_box -> unit_cells (vsize v) (v_cells v)).
  { intros v (_ & _ & _ & _ & B) Eb. rewrite Eb in B. apply box_cells. exact B. }
  assert (N : numbers_on (vectors KFloat bit_box 100) one_max).
  { intros g (v & -> & S & _ & Bd & _). destruct (one_max_sum v (Ub v S Bd)) as (q & Eq & _). eexists. split; [exact Eq|reflexivity]. }
  destruct (vector_program_run (vectors KFloat bit_box 100) one_max sched stamp (new_vector_creator KFloat (Some 100) (Some (BPair (Fin 0) (Fin 1))) None) 300
      (Z.to_nat (n_elite_of (double (1 # 300)) 300)) ops 3 [CkThreshold (Fin 100) (Fin 0)] p w N Hf Hw Hp)
    as (a' & w' & b & k & ls & Eall & Ev & B & Ib & Lk & Fk & V & Best).
  { constructor; [|constructor; [|constructor]]; apply vector_closed; unfold vector_operator; cbn [op_kind op_arity op_attempts]; [split; [reflexivity|lia]|].
    left. split; [lia|]. split; [cbn; discriminate|lia]. }
  { intros op [<-|[<-|[]]]; cbn [op_arity]; (split; [discriminate|]); [apply divides_2_300|apply Nat.divide_1_l]. }
  { lia. }
  { lia. }
  { split; [split; [reflexivity|exact I]|]. split; [exact I|]. apply vector_creator_closed. refine (conj eq_refl (conj eq_refl (conj eq_refl (conj (float_creatable _) I)))). }
  { constructor; [exact I|constructor]. }
  { intros g (v & -> & _). exact I. }
  rewrite <- Ea in Eall, Ev.
  assert (D : forall o, In o (concat (evals (a_trace a'))) -> exists c q, cells_at w' o c /\ unit_cells 100 c /\ sums_to c q /\ pure_at w' o (VNum (Fin q))).
  { intros o Ho. apply in_concat in Ho. destruct Ho as (l & Hl & Ho). destruct (V l Hl) as [_ Vo]. destruct (Vo o Ho) as (i & x & A & (v & Eg & Sv & _ & Bd & Sz) & Ex & Px).
    destruct (one_max_sum v (Ub v Sv Bd)) as (q & Eq & Sq). rewrite Eg, Eq in Ex. injection Ex as <-. exists (v_cells v), q. split; [eapply cells_of; eauto|].
    split; [rewrite <- Sz; apply Ub; assumption|]. split; [exact Sq|]. eapply pure_of; eauto. }
  destruct (D b Ib) as (c & q & Cc & Uc & Sc & Pc).
  exists su, a', w', b, c, q, k, ls. split; [exact E|]. split; [exact Es|]. split; [exact Eall|]. split; [exact B|]. split; [exact Ib|]. split; [exact Cc|]. split; [exact Sc|]. split; [exact Pc|].
  split; [split; [exact Lk|]|split].
  - intros l Hl. destruct (V l Hl) as [Ll _]. split; [exact Ll|]. intros o Ho. assert (Ho' : In o (concat (evals (a_trace a')))) by (apply in_concat; eauto).
    destruct (D o Ho') as (c' & q' & C' & U' & S' & P'). exists c'. split; [exact C'|]. split; [exact U'|]. intros r Sr. rewrite (sums_unique _ _ _ Sr S').
    specialize (Best o _ _ Ho' P' Pc). cbn [better_score nlt] in Best. unfold Qlt_b in Best.
    destruct (Qle_bool q' q) eqn:Q; [|elim Best; reflexivity]. apply Qle_bool_iff in Q. exact Q.
  - assert (T : a_final a' <> None <-> (q == 100)%Q).
    { destruct (target_exact one_max sched 1 (su_algo su) w a' w' 100 0) as (b' & i & x & B' & A & Px & F); [rewrite Ea; reflexivity|rewrite Ea; reflexivity|exact Ev|].
      assert (b' = b) as -> by congruence. destruct Pc as (j & A' & Pj). assert (j = i) as -> by congruence. rewrite Pj in Px. injection Px as <-.
      rewrite F. split.
      - intros (r & [= <-] & Q). apply Qabs_Qle_condition in Q. lra.
      - intros Eq. exists q. split; [reflexivity|]. apply Qabs_Qle_condition. lra. }
    destruct (Qeq_dec q 100) as [O|O].
    + left. split; [exact O|]. destruct Fk as [F|[_ F]]; [exact F|]. apply T in O. congruence.
    + right. split; [exact O|]. destruct Fk as [F|[Fk F]]; [|auto]. elim O. apply T. congruence.
  - intros. eapply execute_cells; eauto.
Qed.

(** *** Knapsack *)

Lemma nth_skip {X} (l : list X) i x : nth_error l i = Some x -> skipn i l = x :: skipn (S i) l.
Proof. revert i. induction l as [|y l IH]; intros [|i] H; try discriminate; [injection H as ->; reflexivity|]. cbn. apply IH. exact H. Qed.

Lemma fill_spec items c : is_bits c -> forall i a b, i + length c <= length items ->
  exists wt val, fill (as_items items) i c (Fin a, Fin b) = Ok (Fin wt, Fin val) /\
    (wt == a + chosen fst (skipn i items) c)%Q /\ (val == b + chosen snd (skipn i items) c)%Q.
Proof.
  induction 1 as [|x c Hx Hc IH]; intros i a b Hl; cbn [fill length] in *.
  - exists a, b. split; [reflexivity|]. destruct (skipn i items); cbn; split; lra.
  - assert (Lt : i < length items) by lia. destruct (nth_error items i) as [it|] eqn:En; [|apply nth_error_None in En; lia].
    assert (En' : nth_error (as_items items) i = Some (Fin (fst it), Fin (snd it))) by (unfold as_items; rewrite nth_error_map, En; reflexivity).
    rewrite (nth_skip _ _ _ En). cbn [chosen]. destruct Hx as [-> | ->].
    + change (neq_num (Fin 0) (Fin 0)) with true. change (neq_num (Fin 0) (Fin 1)) with false. cbv iota.
      destruct (IH (S i) a b) as (wt & val & E & E1 & E2); [lia|]. exists wt, val. split; [exact E|]. rewrite E1, E2. split; lra.
    + change (neq_num (Fin 1) (Fin 0)) with false. change (neq_num (Fin 1) (Fin 1)) with true. cbv iota. rewrite En'. cbn [fst snd nadd].
      destruct (IH (S i) (a + fst it)%Q (b + snd it)%Q) as (wt & val & E & E1 & E2); [lia|]. exists wt, val. split; [exact E|]. rewrite E1, E2. split; lra.
Qed.

Lemma knapsack_value items limit v : is_bits (v_cells v) -> vsize v <= length items ->
  exists x, knapsack (as_items items) (Fin limit) (GVec v) = Ok (VNum x) /\
    (feasible items limit (v_cells v) /\ (exists q, x = Fin q /\ (q == chosen snd items (v_cells v))%Q) \/
     ~ feasible items limit (v_cells v) /\ x = NInf).
Proof.
  intros B L. destruct (fill_spec items (v_cells v) B 0 0 0) as (wt & val & E & E1 & E2); [exact L|]. unfold knapsack. rewrite E. cbn [rbind fst snd nlt skipn] in *.
  eexists. split; [reflexivity|]. unfold feasible, Qlt_b. destruct (Qle_bool wt limit) eqn:Q.
  - apply Qle_bool_iff in Q. left. cbn. split; [lra|]. exists val. split; [reflexivity|]. lra.
  - right. cbn. split; [|reflexivity]. intros F. assert (Qle_bool wt limit = true) by (apply Qle_bool_iff; lra). congruence.
Qed.

Lemma knapsack_run : forall sum stamp sched w items limit, sum = sum_plain \/ sum = sum_compensated -> fair sched -> w_heap w = [] ->
  20 <= length items ->
  exists su a' w' b c ls, knapsack_program sum stamp = Ok su /\ su_stats su = 1 /\
    evolve_all (knapsack (as_items items) (Fin limit)) sched (fun _ => []) [SBestAverageWorst] ((su_algo su, w), []) = (Ok tt, ((a', w'), ls)) /\
    a_best_run a' = Some b /\ In b (concat (evals (a_trace a'))) /\ cells_at w' b c /\
    (feasible items limit c /\ (exists q, pure_at w' b (VNum (Fin q)) /\ (q == chosen snd items c)%Q) \/
     ~ feasible items limit c /\ pure_at w' b (VNum NInf)) /\
    evaluated_vectors (fun c' => bits 20 c' /\
        (feasible items limit c' -> feasible items limit c /\ (chosen snd items c' <= chosen snd items c)%Q)) 50 500 (a_trace a') w' /\
    forall val (fsem : func -> list val -> res val) const kw, algorithm_execute val fsem const kw a' w' = Ok (OVector c).
Proof.
  intros sum stamp sched w items limit Hsum Hf Hw Hl.
  set (ops := [mkOper (OKPoint 2) (Fin (1 # 2)) 2 1; mkOper (OVecMut MBitFlip 1) (Fin (1 # 20)) 1 5]).
  destruct (program_setup sum stamp (new_vector_creator KBit (Some 20) None None) 50 0
    [(NKPoints, mkOA (Some (Fin (1 # 2))) None None (Some 2) None None None None None);
     (NBitFlip, mkOA (Some (Fin (1 # 20))) None None None None None None None None)]
    4 [] ops Hsum eq_refl) as (su & p & E & Es & Hp & Ea).
  set (ev := knapsack (as_items items) (Fin limit)) in *.
  assert (Va : forall v, bit_string v -> vsize v = 20 -> exists x, ev (GVec v) = Ok (VNum x) /\
    (feasible items limit (v_cells v) /\ (exists q, x = Fin q /\ (q == chosen snd items (v_cells v))%Q) \/
     ~ feasible items limit (v_cells v) /\ x = NInf)).
  { intros v (_ & _ & _ & Bv) Sv. apply knapsack_value; [exact Bv|lia]. }
  assert (N : numbers_on (bit_genomes 20) ev).
  { intros g (v & -> & Bv & Sv). destruct (Va v Bv Sv) as (x & Ex & [(_ & q & -> & _)|(_ & ->)]); eexists; (split; [exact Ex|reflexivity]). }
  destruct (vector_program_run (bit_genomes 20) ev sched stamp (new_vector_creator KBit (Some 20) None None) 50
      (Z.to_nat (n_elite_of 0 50)) ops 4 [] p w N Hf Hw Hp)
    as (a' & w' & b & k & ls & Eall & Ev & B & Ib & Lk & Fk & V & Best).
  { constructor; [|constructor; [|constructor]]; apply bits_closed; cbn; [split; [reflexivity|lia]|split; [exact I|split; lia]]. }
  { intros op [<-|[<-|[]]]; cbn [op_arity]; (split; [discriminate|]); [exists 25; reflexivity|apply Nat.divide_1_l]. }
  { lia. }
  { lia. }
  { split; [split; [reflexivity|exact I]|]. split; [exact I|]. apply bits_created. }
  { constructor. }
  { intros g. apply bits_printable. }
  rewrite <- Ea in Eall, Ev.
  assert (k = 500) as ->.
  { destruct (no_checker_full ev sched 1 (su_algo su) w a' w') as [_ F]; [rewrite Ea; reflexivity|rewrite Ea; reflexivity|exact Ev|].
    rewrite Ea in F. cbn in F. destruct Fk as [G|[-> _]]; [congruence|reflexivity]. }
  assert (D : forall o, In o (concat (evals (a_trace a'))) -> exists c x, cells_at w' o c /\ bits 20 c /\ pure_at w' o (VNum x) /\
    (feasible items limit c /\ (exists q, x = Fin q /\ (q == chosen snd items c)%Q) \/ ~ feasible items limit c /\ x = NInf)).
  { intros o Ho. apply in_concat in Ho. destruct Ho as (l & Hl' & Ho). destruct (V l Hl') as [_ Vo]. destruct (Vo o Ho) as (i & x & A & (v & Eg & Bs & Sz) & Ex & Px).
    destruct (Va v Bs Sz) as (y & Ey & Hy). rewrite Eg, Ey in Ex. injection Ex as ->. exists (v_cells v), x. split; [eapply cells_of; eauto|]. split; [split; [exact Sz|apply Bs]|].
    split; [eapply pure_of; eauto|exact Hy]. }
  destruct (D b Ib) as (c & x & Cc & Bc & Pc & Hx).
  exists su, a', w', b, c, ls. split; [exact E|]. split; [exact Es|]. split; [exact Eall|]. split; [exact B|]. split; [exact Ib|]. split; [exact Cc|].
  split; [destruct Hx as [(F & q & -> & Q)|(F & ->)]; [left; eauto|right; auto]|].
  split; [split; [exact Lk|]|].
  - intros l Hl'. destruct (V l Hl') as [Ll _]. split; [exact Ll|]. intros o Ho. assert (Ho' : In o (concat (evals (a_trace a')))) by (apply in_concat; eauto).
    destruct (D o Ho') as (c' & x' & C' & B' & P' & Hx'). exists c'. split; [exact C'|]. split; [exact B'|]. intros Fe.
    specialize (Best o _ _ Ho' P' Pc). destruct Hx' as [(_ & q' & -> & Q')|(Nf & _)]; [|contradiction].
    destruct Hx as [(F & q & -> & Q)|(F & ->)]; [|elim Best; reflexivity]. split; [exact F|].
    cbn [better_score nlt] in Best. unfold Qlt_b in Best. destruct (Qle_bool q' q) eqn:Eq; [|elim Best; reflexivity]. apply Qle_bool_iff in Eq. lra.
  - intros. eapply execute_cells; eauto.
Qed.

Lemma items_refused : items_of (ItList []) = Ok [] /\ forall l, l <> [] -> items_of (ItList l) = Raise ValueError.
Proof. split; [reflexivity|]. intros [|x l] H; [congruence|reflexivity]. Qed.

Lemma list_refused : exists pairs : list (num * num), pairs <> [] /\ items_of (ItList (map Some pairs)) = Raise ValueError.
Proof. exists [(Fin 2, Fin 3)]. split; [discriminate|reflexivity]. Qed.
