(** * Proofs about constructed algorithms (C60, C76). *)
From Coq Require Import Lia Permutation QArith.
From Verif.Proofs Require Export MooCompleteP MooCheckP DoubleP ConstructP RegP.
From Verif.Spec Require Import SetupSpec.
From Verif.Model Require Import Num Fitness Tree World Nsga2 Setup.
From Verif.Model Require Import Publisher.
Open Scope nat_scope.
Open Scope list_scope.

(** ** Runs with the default checker of NSGA2Evolution *)

Lemma moo_init_total G ev h sched s n a w : gives_objectives ev (length h) -> total_on G ev -> fair sched ->
  moo_configured h (set_checkers [] a) w s -> closed_under G w s ->
  exists b a1 w1, initialize ev sched n (a, w) = (Ok tt, (a1, w1)) /\ a_checkers a1 = a_checkers a /\ a_best_run a1 = Some b /\
    moo_at w1 h b /\ has_value ev w1 b.
Proof.
  intros EV Htot Hfair C K. pose proof (mc_size _ _ _ _ C) as Hsize.
  destruct (moo_create_total G h _ w s C K) as (l & w1 & E1 & L1 & N1 & G1 & M1 & _).
  assert (Nl : l <> []) by (intros ->; simpl in L1; lia).
  destruct (moo_eval_total ev h EV G sched s l w1 Htot Hfair Nl N1 G1 M1) as (b & w2 & E2 & Ib & A2 & O2).
  set (a1 := add_stats n (add_trace (TPublish "init" (a_gen_num a) (Some b) (at_ w2 b))
           (set_best_run (Some b) (add_trace (TEval l) (set_pop [with_inds s l] (add_trace (TSeed (a_random_seed a)) a)))))).
  exists b, a1, w2. split; [|split; [reflexivity|split; [reflexivity|apply (assessed_known ev h w1 w2 b (A2 b Ib))]]].
  unfold initialize. erewrite bind_eq_ok; [|reflexivity]. cbn [fst].
  erewrite bind_eq_ok.
  2:{ unfold seed_generators. erewrite bind_eq_ok; [|unfold liftM; cbn [fst snd]; reflexivity]. reflexivity. }
  pose proof (mc_pop _ _ _ _ C) as Hp. pose proof (mc_method _ _ _ _ C) as Hm. pose proof (mc_alive _ _ _ _ C) as Ha.
  cbn [set_checkers a_pop a_method a_alive a_random_seed] in Hp, Hm, Ha, E1.
  rewrite Hp. erewrite bind_eq_ok.
  2:{ unfold liftM. cbn [fst snd]. match goal with |- context [mapM _ _ ?x] => change x with (snd (liftR (set_seed (a_random_seed a)) w)) end.
      rewrite E1. reflexivity. }
  erewrite bind_eq_ok; [|reflexivity]. cbn [fst snd].
  erewrite bind_eq_ok.
  2:{ unfold act_evaluator. erewrite bind_eq_ok; [|reflexivity]. cbn [fst snd].
      erewrite bind_eq_ok; [|unfold liftM; cbn [fst snd a_method a_alive a_pop set_pop add_trace];
        rewrite Hm, Ha, E2; reflexivity].
      reflexivity. }
  erewrite bind_eq_ok; [|reflexivity]. cbn [fst snd]. rewrite (bind_eq_ok _ _ _ _ _ (publish_eq _ _ _)).
  unfold algo_mod. cbn [fst snd]. unfold a1. cbn [a_gen_num a_best_run set_best_run add_trace set_pop a_pop].
  cbn [flat_map]. change (inds_of (with_inds s l)) with l. rewrite app_nil_r. reflexivity.
Qed.

Lemma default_checker_fails G ev h sched so doubling s n a w opt th cs : gives_objectives ev (length h) -> total_on G ev -> fair sched ->
  moo_configured h (set_checkers [] a) w s -> closed_under G w s -> a_checkers a = CkThreshold opt th :: cs ->
  fst (nsga2_evolve ev sched so doubling n (a, w)) = Raise TypeError.
Proof.
  intros EV Ht Hf C K Hc. destruct (moo_init_total G ev h sched s n a w EV Ht Hf C K) as (b & a1 & w1 & E & Ec & Eb & (i & A & Kc & _) & (j & v & B & Ev & P)).
  assert (j = i) as -> by congruence. destruct (EV _ _ Ev) as (l & _ & ->).
  unfold nsga2_evolve, evolve_with. rewrite (bind_eq_ok _ _ _ _ _ E).
  assert (Ue : ft_evaluated (i_fit i) = true) by (unfold get_pure_fitness in P; destruct (ft_evaluated (i_fit i)); [reflexivity|discriminate]).
  assert (Uv : exists l', ft_value (i_fit i) = VList l').
  { unfold get_pure_fitness in P. rewrite Ue in P. destruct (ft_relative (i_fit i)); try discriminate; cbn in P; injection P as ->; eauto. }
  destruct Uv as (l' & Uv).
  pose proof (threshold_on_lists opt th cs a1 w1 b i l' (eq_trans Ec Hc) Eb A Kc Ue Uv) as T.
  unfold bind at 1. destruct (should_terminate (a1, w1)) as [[st|e] s']; cbn in T; [discriminate|]. injection T as ->. reflexivity.
Qed.

(** ** The constructors *)

Lemma all_some_ok {X} (l : list (option X)) xs : all_some l = Some xs <-> l = map Some xs.
Proof.
  revert xs. induction l as [|[x|] l IH]; intros xs; cbn.
  - split; [intros [= <-]; reflexivity|destruct xs; [reflexivity|discriminate]].
  - destruct (all_some l) as [ys|] eqn:E.
    + split; [intros [= <-]; cbn; f_equal; apply IH; reflexivity|]. intros H. destruct xs as [|x' xs]; [discriminate|]. cbn in H. injection H as -> H.
      apply IH in H. congruence.
    + split; [discriminate|]. intros H. destruct xs as [|x' xs]; [discriminate|]. cbn in H. injection H as -> H. apply IH in H. discriminate.
  - split; [discriminate|]. destruct xs; discriminate.
Qed.

Lemma creators_given a cs : creators_of a = Ok cs <-> given_creators a cs.
Proof.
  unfold creators_of, given_creators. destruct a as [|c|l|].
  - split; [discriminate|intros [(c & H & _)|H]; discriminate].
  - split; [intros [= <-]; eauto|intros [(c' & [= ->] & ->)|H]; [reflexivity|discriminate]].
  - pose proof (all_some_ok l cs) as A. destruct (all_some l) as [ys|].
    + split; [intros [= ->]; right; f_equal; apply A; reflexivity|]. intros [(c & H & _)|[= H]]; [discriminate|]. apply A in H. congruence.
    + split; [discriminate|]. intros [(c & H & _)|[= H]]; [discriminate|]. apply A in H. discriminate.
  - split; [discriminate|intros [(c & H & _)|H]; discriminate].
Qed.

Lemma population_ok a pop : population_of a = Ok pop <-> given_population a pop.
Proof.
  unfold population_of, given_population. destruct a as [|l|s|l|].
  - split; [discriminate|intros [H|[(c & H & _)|[_ H]]]; discriminate].
  - split; [intros [= ->]; auto|]. intros [[= ->]|[(c & H & _)|[_ H]]]; [reflexivity|discriminate|discriminate].
  - split; [intros [= <-]; eauto|]. intros [H|[(c & [= ->] & ->)|[_ H]]]; [discriminate|reflexivity|discriminate].
  - pose proof (all_some_ok l pop) as A. destruct l as [|x l].
    + split; [discriminate|]. intros [H|[(c & H & _)|[Hn [= H]]]]; try discriminate. destruct pop; [congruence|discriminate].
    + destruct (all_some (x :: l)) as [ys|].
      * split; [intros [= ->]; right; right; split; [intros ->; apply proj1 in A; specialize (A eq_refl); discriminate|f_equal; apply A; reflexivity]|].
        intros [H|[(c & H & _)|[Hn [= H]]]]; try discriminate. apply A in H. congruence.
      * split; [discriminate|]. intros [H|[(c & H & _)|[Hn [= H]]]]; try discriminate. apply A in H. discriminate.
  - split; [discriminate|intros [H|[(c & H & _)|[_ H]]]; discriminate].
Qed.

Lemma all_true l : forallb (fun b : bool => b) l = true <-> l = repeat true (length l).
Proof.
  induction l as [|b l IH]; cbn; [tauto|]. rewrite andb_true_iff, IH. split; [intros [-> H]; congruence|intros [= -> H]; auto].
Qed.

Lemma statistics_ok a k : statistics_of (stats_or_none a) = Ok k <-> given_statistics a k.
Proof.
  unfold given_statistics. destruct a as [| |l|]; cbn.
  - split; [intros [= <-]; auto|]. intros [[_ ->]|[[H _]|H]]; [reflexivity|discriminate|discriminate].
  - split; [intros [= <-]; auto|]. intros [[H _]|[[_ ->]|H]]; [discriminate|reflexivity|discriminate].
  - destruct (forallb (fun b => b) l) eqn:E.
    + split; [intros [= <-]; right; right; f_equal; apply all_true; exact E|]. intros [[H _]|[[H _]|[= ->]]]; try discriminate. rewrite repeat_length. reflexivity.
    + split; [discriminate|]. intros [[H _]|[[H _]|[= ->]]]; try discriminate. assert (F : forallb (fun b : bool => b) (repeat true k) = true) by (apply all_true; rewrite repeat_length; reflexivity). congruence.
  - split; [discriminate|]. intros [[H _]|[[H _]|H]]; discriminate.
Qed.

Lemma algorithm_ok t m names x su : algorithm_init t m names (stats_or_none (ea_statistics x)) x = Ok su <->
  (ea_executor x = "thread" \/ ea_executor x = "process")%string /\
  exists pop k, given_population (ea_population x) pop /\ given_statistics (ea_statistics x) k /\
    su = mkSetup (mkAlgo pop (ea_max_generation x) (ea_checkers x) (seed_of (ea_random_seed x) t)
            (match ea_generation_seed x with Some g => g | None => seed_of (ea_random_seed x) t end) m true
            (ea_best_of_run x) (ea_best_of_gen x) (ea_worst_of_gen x) (ea_generation_num x) None 0 []) k
          (publisher_init (ea_events x) (names ++ ["init"; "evolution_finished"; "after_generation"]%string)).
Proof.
  unfold algorithm_init. destruct (population_of (ea_population x)) as [pop|e] eqn:Ep; cbn [rbind].
  2:{ split; [discriminate|]. intros (_ & pop & k & Hp & _). apply population_ok in Hp. congruence. }
  destruct (statistics_of (stats_or_none (ea_statistics x))) as [k|e] eqn:Es; cbn [rbind].
  2:{ split; [discriminate|]. intros (_ & p & k & _ & Hk & _). apply statistics_ok in Hk. congruence. }
  pose proof Ep as Hp. apply population_ok in Hp. pose proof Es as Hs. apply statistics_ok in Hs.
  destruct (String.eqb (ea_executor x) "thread" || String.eqb (ea_executor x) "process")%bool eqn:Ex.
  - apply orb_true_iff in Ex. rewrite !String.eqb_eq in Ex. split; [intros [= <-]; split; [exact Ex|]; exists pop, k; auto|].
    intros (_ & p & k' & Hp' & Hs' & ->). apply population_ok in Hp'. apply statistics_ok in Hs'. congruence.
  - apply orb_false_iff in Ex. rewrite !String.eqb_neq in Ex. split; [discriminate|]. intros ([H|H] & _); tauto.
Qed.

Lemma simple_ok t x su : simple_evolution_init t x = Ok su <->
  ea_breeder x <> BrOther /\ (ea_executor x = "thread" \/ ea_executor x = "process")%string /\
  exists m pop k, given_evaluator (ea_evaluator x) m /\ given_population (ea_population x) pop /\ given_statistics (ea_statistics x) k /\
    su = mkSetup (mkAlgo pop (ea_max_generation x) (ea_checkers x) (seed_of (ea_random_seed x) t)
            (match ea_generation_seed x with Some g => g | None => seed_of (ea_random_seed x) t end) m true
            (ea_best_of_run x) (ea_best_of_gen x) (ea_worst_of_gen x) (ea_generation_num x) None 0 []) k
          (publisher_init (ea_events x) (names_of x ++ ["init"; "evolution_finished"; "after_generation"]%string)).
Proof.
  unfold simple_evolution_init, given_evaluator. destruct (ea_breeder x); [| |split; [discriminate|intros [H _]; congruence]].
  all: destruct (ea_evaluator x) as [|m|];
    [rewrite algorithm_ok|rewrite algorithm_ok|split; [discriminate|intros (_ & _ & m & p & k & [[H _]|H] & _); discriminate]].
  all: split; [intros (Hx & pop & k & Hp & Hs & E); split; [discriminate|split; [exact Hx|]]; eexists _, pop, k; eauto 6|].
  all: intros (_ & Hx & m' & pop & k & [[Hm ->]|Hm] & Hp & Hs & E); try discriminate; try (injection Hm as <-); split; [exact Hx|]; exists pop, k; auto.
Qed.

Lemma rejected t x e : simple_evolution_init t x = Raise e -> e = ValueError.
Proof.
  assert (A : forall m names st, algorithm_init t m names st x = Raise e -> e = ValueError).
  { intros m names st. unfold algorithm_init, population_of, statistics_of. intros H.
    repeat (match type of H with context [match ?b with _ => _ end] => destruct b end; cbn [rbind] in H; try congruence). }
  unfold simple_evolution_init. destruct (ea_breeder x), (ea_evaluator x); eauto; congruence.
Qed.

Lemma subpopulation_ok sum a pcr ops sels rate size inds h s :
  new_subpopulation sum a pcr ops sels rate size inds h = Ok s <->
  exists cs, given_creators a cs /\ cs <> [] /\
  exists p os, (pcr = Some p \/ pcr = None /\ p = map (fun _ => ddiv 1 (of_count (length cs))) cs) /\
    length p = length cs /\ (sum p == 1)%Q /\ ops = Some os /\
    s = mkSub cs (map Fin p) os (match sels with None => [SelTournament 10 true 1] | Some l => l end) size h
              (Z.to_nat (n_elite_of rate size)) inds.
Proof.
  unfold new_subpopulation. destruct (creators_of a) as [cs|e] eqn:E; cbn [rbind].
  - apply creators_given in E. rewrite init_accepts. split; [intros H; exists cs; auto|].
    intros (cs' & Hc & H). assert (cs' = cs) as ->; [|exact H]. apply creators_given in Hc. apply creators_given in E. congruence.
  - split; [discriminate|]. intros (cs & Hc & _). apply creators_given in Hc. congruence.
Qed.

(** ** Seeds and events *)

Lemma seeds_set t x su : simple_evolution_init t x = Ok su ->
  match ea_random_seed x with
  | Some s => a_random_seed (su_algo su) = s
  | None => (0 <= a_random_seed (su_algo su) < 2 ^ 32)%Z
  end /\
  a_gen_seed (su_algo su) = match ea_generation_seed x with Some g => g | None => a_random_seed (su_algo su) end.
Proof.
  intros H. apply simple_ok in H. destruct H as (_ & _ & m & pop & k & _ & _ & _ & ->). cbn. unfold seed_of.
  destruct (ea_random_seed x); (split; [|reflexivity]); [reflexivity|]. apply Z.mod_pos_bound. reflexivity.
Qed.

Lemma dict_set_keys {V} (k : string) (v : V) d e : In e (map fst (dict_set String.eqb k v d)) <-> e = k \/ In e (map fst d).
Proof.
  induction d as [|[k' v'] d IH]; cbn; [intuition congruence|]. destruct (String.eqb k k') eqn:E; cbn.
  - apply String.eqb_eq in E. subst k'. intuition congruence.
  - rewrite IH. intuition congruence.
Qed.

Lemma dict_set_values {V} (k : string) (v : V) d (P : V -> Prop) : P v -> Forall (fun p => P (snd p)) d -> Forall (fun p => P (snd p)) (dict_set String.eqb k v d).
Proof.
  intros Hv F. induction F as [|[k' v'] d Hp F IH]; cbn; [constructor; auto|]. destruct (String.eqb k k'); constructor; auto.
Qed.

Lemma init_events names : forall d, Forall (fun p => snd p = @nil (nat * callback)) d ->
  let r := fold_left (fun d n => dict_set String.eqb n [] d) names d in
  (forall e, In e (map fst r) <-> In e names \/ In e (map fst d)) /\ Forall (fun p => snd p = []) r.
Proof.
  induction names as [|n names IH]; intros d F; cbn; [split; [intros e; intuition|exact F]|].
  destruct (IH (dict_set String.eqb n [] d)) as [K V]; [apply (dict_set_values n [] d (fun v => v = [])); auto|]. split; [|exact V].
  intros e. rewrite K, dict_set_keys. intuition congruence.
Qed.

Lemma events_known t x su : ea_events x = None -> simple_evolution_init t x = Ok su ->
  (forall e, In e (map fst (p_events (su_events su))) <->
     In e match ea_event_names x with Some l => l | None => ["before_eval"; "after_eval"; "before_breeding"; "after_breeding"]%string end \/
     In e ["init"; "evolution_finished"; "after_generation"; "before_operator"; "after_operator"]%string) /\
  Forall (fun p => snd p = []) (p_events (su_events su)).
Proof.
  intros He H. apply simple_ok in H. destruct H as (_ & _ & m & pop & k & _ & _ & _ & ->). cbn [su_events]. rewrite He. unfold publisher_init. cbn [p_events].
  destruct (init_events ((names_of x ++ ["init"; "evolution_finished"; "after_generation"]%string) ++ [before_operator; after_operator]) [] (Forall_nil _)) as [K V].
  split; [|exact V]. intros e. rewrite K. cbn [map In]. rewrite !in_app_iff. unfold names_of. cbn. unfold before_operator, after_operator. intuition.
Qed.

(** ** Runs of what has been constructed *)

Lemma plain_zeros l : Forall (fun q => q == 0)%Q l -> fold_left dadd l 0%Q = 0%Q.
Proof.
  intros F. induction F as [|q l Hq F IH]; [reflexivity|]. cbn [fold_left]. unfold dadd at 2, double.
  assert (E : Qeq_bool (0 + q) 0 = true) by (apply Qeq_bool_iff; rewrite Hq; reflexivity). rewrite E. exact IH.
Qed.

Lemma double_zero q : (q == 0)%Q -> double q = 0%Q.
Proof. intros H. unfold double. assert (E : Qeq_bool q 0 = true) by (apply Qeq_bool_iff; exact H). rewrite E. reflexivity. Qed.

Lemma compensated_zeros l : Forall (fun q => q == 0)%Q l -> fold_left cs_add l (0, 0)%Q = (0, 0)%Q.
Proof.
  intros F. induction F as [|q l Hq F IH]; [reflexivity|]. cbn [fold_left].
  assert (E : cs_add (0, 0)%Q q = (0, 0)%Q); [|rewrite E; exact IH]. unfold cs_add. cbn [fst snd].
  assert (E1 : dadd 0 q = 0%Q) by (apply double_zero; rewrite Hq; reflexivity). rewrite E1.
  assert (E2 : dsub 0 0 = 0%Q) by reflexivity. rewrite E2, E1.
  assert (E3 : dsub q 0 = 0%Q) by (apply double_zero; rewrite Hq; reflexivity). rewrite E3.
  assert (E4 : dadd 0 0 = 0%Q) by reflexivity. rewrite !E4. destruct (Qle_bool _ _); reflexivity.
Qed.

Lemma exact_sum l : Forall (fun q => 0 <= q)%Q l -> forall a, (0 <= a)%Q -> (a <= fold_left Qplus l a)%Q /\
  ((fold_left Qplus l a <= 0)%Q -> Forall (fun q => q == 0)%Q l).
Proof.
  intros F. induction F as [|q l Hq F IH]; intros a Ha; cbn [fold_left]; [split; [apply Qle_refl|constructor]|].
  destruct (IH (a + q)%Q) as [L Z]; [apply (Qplus_le_compat 0 a 0 q); assumption|]. split.
  - apply (Qle_trans _ (a + q)); [|exact L]. setoid_rewrite <- (Qplus_0_r a) at 1. apply Qplus_le_compat; [apply Qle_refl|exact Hq].
  - intros H. constructor; [|apply Z; exact H]. apply Qle_antisym; [|exact Hq].
    apply (Qle_trans _ (a + q)); [|apply (Qle_trans _ _ _ L H)]. setoid_rewrite <- (Qplus_0_l q) at 1. apply Qplus_le_compat; [exact Ha|apply Qle_refl].
Qed.

Lemma weights_positive sum p : sum = sum_plain \/ sum = sum_compensated -> Forall (fun q => 0 <= q)%Q p -> (sum p == 1)%Q ->
  exists q, nsum (map Fin p) = Fin q /\ (0 < q)%Q.
Proof.
  intros Hs F H. exists (fold_left Qplus p 0%Q). unfold nsum. rewrite nsum_fins. split; [reflexivity|].
  apply Qnot_le_lt. intros L. destruct (exact_sum p F 0%Q (Qle_refl _)) as [_ Z]. specialize (Z L).
  destruct Hs as [-> | ->].
  - unfold sum_plain in H. rewrite (plain_zeros p Z) in H. discriminate.
  - unfold sum_compensated in H. rewrite (compensated_zeros p Z) in H. discriminate.
Qed.

Lemma constructed_run G ev sched h sum creators cs pcr ops rate size s t x su w :
  gives_numbers ev -> total_on G ev -> fair sched -> sum = sum_plain \/ sum = sum_compensated ->
  given_creators creators cs -> (forall c, In c cs -> scalar_creator c /\ closed_creator G size (HB h) c) ->
  (forall p, pcr = Some p -> Forall (fun q => 0 <= q)%Q p) ->
  Forall (closed_operator G) ops -> (forall op, In op ops -> op_arity op <> 0 /\ Nat.divide (op_arity op) size) -> 1 <= size ->
  (forall g, G g -> printable g) ->
  new_subpopulation sum creators pcr (Some ops) None rate size None (HB h) = Ok s ->
  given_population (ea_population x) [s] -> given_evaluator (ea_evaluator x) ByMap -> Forall calm (ea_checkers x) ->
  simple_evolution_init t x = Ok su ->
  exists a' w', evolve ev sched (su_stats su) (su_algo su, w) = (Ok tt, (a', w')) /\
    forall l, In l (evals (a_trace a')) -> length l = size /\ genomes_in G l w'.
Proof.
  intros Hn Ht Hf Hs Hc Hcr Hp Ho Har Hsz Hpr Es Gp Ge Hk Ei.
  apply subpopulation_ok in Es. destruct Es as (cs' & Hc' & Ne & p & os & Pp & Lp & Sp & [= <-] & ->).
  assert (cs' = cs) as -> by (apply creators_given in Hc; apply creators_given in Hc'; congruence).
  apply simple_ok in Ei. destruct Ei as (_ & _ & m & pop & k & Ge' & Gp' & _ & ->). apply population_ok in Gp. apply population_ok in Gp'.
  assert (pop = [mkSub cs (map Fin p) ops [SelTournament 10 true 1] size (HB h) (Z.to_nat (n_elite_of rate size)) None]) as -> by congruence.
  assert (m = ByMap) as ->.
  { destruct Ge as [[G1 _]|G1], Ge' as [[G2 E2]|G2]; try exact E2; congruence. }
  cbn [su_stats su_algo].
  assert (Fp : Forall (fun q => 0 <= q)%Q p).
  { destruct Pp as [E|[_ ->]]; [apply Hp; exact E|]. apply Forall_forall. intros q Hq. apply in_map_iff in Hq. destruct Hq as (c & <- & _).
    apply double_nonneg. unfold Qdiv. rewrite Qmult_1_l. apply Qinv_le_0_compat. unfold of_count. unfold Qle. cbn. lia. }
  refine (run_completes G ev sched h
    (mkSub cs (map Fin p) ops [SelTournament 10 true 1] size (HB h) (Z.to_nat (n_elite_of rate size)) None) k _ w Hn Ht Hf _ _ _ Hpr).
  - reflexivity.
  - constructor; try reflexivity; cbn; auto.
    + intros n [<-|Hin]; [split; [discriminate|exists size; lia]|]. apply in_map_iff in Hin. destruct Hin as (op & <- & Hop). auto.
    + eexists _, _. split; [reflexivity|]. cbn. repeat split; [lia|discriminate].
    + rewrite map_length. split; [congruence|]. split; [eapply weights_positive; eauto|]. intros c Hin. apply Hcr. exact Hin.
  - split; [exact Ho|]. cbn. intros c Hin. apply Hcr. exact Hin.
Qed.

Lemma constructed_vector_run k b len ev sched h sum creators cs pcr ops rate size s t x su w :
  gives_numbers ev -> total_on (vectors k b len) ev -> fair sched -> sum = sum_plain \/ sum = sum_compensated ->
  given_creators creators cs -> (forall c, In c cs -> scalar_creator c /\ vector_creator k b len c) ->
  (forall p, pcr = Some p -> Forall (fun q => 0 <= q)%Q p) ->
  Forall (vector_operator k b len) ops -> (forall op, In op ops -> op_arity op <> 0 /\ Nat.divide (op_arity op) size) -> 1 <= size ->
  new_subpopulation sum creators pcr (Some ops) None rate size None (HB h) = Ok s ->
  given_population (ea_population x) [s] -> given_evaluator (ea_evaluator x) ByMap -> Forall calm (ea_checkers x) ->
  simple_evolution_init t x = Ok su ->
  exists a' w', evolve ev sched (su_stats su) (su_algo su, w) = (Ok tt, (a', w')) /\
    forall l, In l (evals (a_trace a')) -> length l = size /\ genomes_in (vectors k b len) l w'.
Proof.
  intros Hn Ht Hf Hs Hc Hcr Hp Ho Har Hsz Es Gp Ge Hk Ei. apply (constructed_run (vectors k b len) ev sched h sum creators cs pcr ops rate size s t x su w); auto.
  - intros c Hin. destruct (Hcr c Hin) as [S V]. split; [exact S|]. apply vector_creator_closed. exact V.
  - apply Forall_forall. intros op Hop. apply CompleteVecP.vector_closed. revert op Hop. apply Forall_forall. exact Ho.
  - intros g (v & -> & _). exact I.
Qed.

(** ** Multi-objective runs *)

Lemma multi_objective_ok t x su : nsga2_evolution_init t x = Ok su <->
  (ea_executor x = "thread" \/ ea_executor x = "process")%string /\
  exists pop k, given_population (ea_population x) pop /\ given_statistics (ea_statistics x) k /\
    su = mkSetup (mkAlgo pop (ea_max_generation x) (ea_checkers x) (seed_of (ea_random_seed x) t)
            (match ea_generation_seed x with Some g => g | None => seed_of (ea_random_seed x) t end) ByMap true
            (ea_best_of_run x) (ea_best_of_gen x) (ea_worst_of_gen x) (ea_generation_num x) None 0 []) k
          (publisher_init (ea_events x) (names_of x ++ ["init"; "evolution_finished"; "after_generation"]%string)).
Proof. apply algorithm_ok. Qed.

Lemma nonneg_weights pcr p (cs : list creator) : (forall p, pcr = Some p -> Forall (fun q => 0 <= q)%Q p) ->
  pcr = Some p \/ pcr = None /\ p = map (fun _ => ddiv 1 (of_count (length cs))) cs -> Forall (fun q => 0 <= q)%Q p.
Proof.
  intros Hp [E|[_ ->]]; [apply Hp; exact E|]. apply Forall_forall. intros q Hq. apply in_map_iff in Hq. destruct Hq as (c & <- & _).
  apply double_nonneg. unfold Qdiv. rewrite Qmult_1_l. apply Qinv_le_0_compat. unfold of_count. unfold Qle. cbn. lia.
Qed.

Lemma n_elite_zero size : Z.to_nat (n_elite_of 0 size) = 0.
Proof.
  unfold n_elite_of, dmul. rewrite double_zero; [reflexivity|]. apply Qmult_0_l.
Qed.

Lemma constructed_moo k b len ev h sched so sum creators cs pcr ops size s t x su w :
  sum = sum_plain \/ sum = sum_compensated ->
  given_creators creators cs -> (forall c, In c cs -> (exists len b k upd, c = CVector len b k KNSGA2 upd) /\ vector_creator k b len c) ->
  (forall p, pcr = Some p -> Forall (fun q => 0 <= q)%Q p) ->
  Forall (vector_operator k b len) ops -> (forall op, In op ops -> op_arity op <> 0 /\ Nat.divide (op_arity op) size) -> 1 <= size ->
  new_subpopulation sum creators pcr (Some ops) None 0 size None (HL h) = Ok s ->
  given_population (ea_population x) [s] -> nsga2_evolution_init t x = Ok su ->
  gives_objectives ev (length h) -> total_on (vectors k b len) ev -> fair sched -> any_order so ->
  (Forall (fun c => exists f stored, c = CkUser f stored /\ moo_answers f) (ea_checkers x) ->
   exists a' w' l, nsga2_evolve ev sched so true (su_stats su) (su_algo su, w) = (Ok tt, (a', w')) /\
     a_pop a' = [with_inds s l] /\ length l = size /\ NoDup l /\ genomes_in (vectors k b len) l w' /\ (forall o, In o l -> has_value ev w' o) /\
     evaluations size (2 * size) (evals (a_trace a'))) /\
  (forall opt th cks doubling, ea_checkers x = CkThreshold opt th :: cks ->
   fst (nsga2_evolve ev sched so doubling (su_stats su) (su_algo su, w)) = Raise TypeError).
Proof.
  intros Hs Hc Hcr Hp Ho Har Hsz Es Gp Ei EV Ht Hf Ha.
  apply subpopulation_ok in Es. destruct Es as (cs' & Hc' & Ne & p & os & Pp & Lp & Sp & [= <-] & ->).
  assert (cs' = cs) as -> by (apply creators_given in Hc; apply creators_given in Hc'; congruence).
  apply multi_objective_ok in Ei. destruct Ei as (_ & pop & n & Gp' & _ & ->). apply population_ok in Gp. apply population_ok in Gp'.
  assert (pop = [mkSub cs (map Fin p) ops [SelTournament 10 true 1] size (HL h) (Z.to_nat (n_elite_of 0 size)) None]) as -> by congruence.
  rewrite n_elite_zero. cbn [su_stats su_algo].
  set (s := mkSub cs (map Fin p) ops [SelTournament 10 true 1] size (HL h) 0 None).
  assert (C : forall a, a_pop a = [s] -> Forall (fun c => exists f stored, c = CkUser f stored /\ moo_answers f) (a_checkers a) -> a_method a = ByMap ->
                a_alive a = true -> moo_configured h a w s).
  { intros a Pa Ca Ma Aa. constructor; auto.
    - eexists _, _, _, _. split; [reflexivity|]. split; discriminate.
    - cbn. rewrite map_length. split; [congruence|]. split; [eapply weights_positive; eauto; eapply nonneg_weights; eauto|].
      split; [left; reflexivity|]. intros c Hin. apply Hcr. exact Hin. }
  assert (V : Forall (vector_creator k b len) cs) by (apply Forall_forall; intros c Hin; apply Hcr; exact Hin).
  split.
  - intros Hk. apply (moo_vectors k b len ev h sched so s); auto.
  - intros opt th cks doubling Hk. apply (default_checker_fails (vectors k b len) ev h sched so doubling s n _ w opt th cks); auto.
    + apply C; auto. constructor.
    + split; cbn.
      * apply Forall_forall. intros op Hop. apply CompleteVecP.vector_closed. revert op Hop. apply Forall_forall. exact Ho.
      * intros c Hin. apply vector_creator_closed. apply Hcr. exact Hin.
Qed.

Lemma methods s m : executor_method_of s = Ok m <-> (s = "map" /\ m = ByMap \/ s = "submit" /\ m = BySubmit)%string.
Proof.
  unfold executor_method_of. destruct (String.eqb s "map") eqn:E; [apply String.eqb_eq in E; subst|].
  - split; [intros [= <-]; auto|]. intros [[_ ->]|[H _]]; [reflexivity|discriminate].
  - destruct (String.eqb s "submit") eqn:F; [apply String.eqb_eq in F; subst|].
    + split; [intros [= <-]; auto|]. intros [[H _]|[_ ->]]; [discriminate|reflexivity].
    + apply String.eqb_neq in E, F. split; [discriminate|]. intros [[H _]|[H _]]; contradiction.
Qed.

Lemma subpopulation_rejected sum a pcr ops sels rate size inds h e :
  new_subpopulation sum a pcr ops sels rate size inds h = Raise e -> e = ValueError.
Proof.
  unfold new_subpopulation, creators_of, subpopulation_init. intros H.
  repeat (match type of H with context [match ?b with _ => _ end] => destruct b end; cbn [rbind] in H; try congruence).
Qed.

Lemma multi_objective_rejected t x e : nsga2_evolution_init t x = Raise e -> e = ValueError.
Proof.
  unfold nsga2_evolution_init, algorithm_init, population_of, statistics_of. intros H.
  repeat (match type of H with context [match ?b with _ => _ end] => destruct b end; cbn [rbind] in H; try congruence).
Qed.
