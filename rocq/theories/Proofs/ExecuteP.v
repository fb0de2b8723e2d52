(** * The result of a run. *)
From Coq Require Import QArith.
From Verif.Proofs Require Import KindP ProgramP EvoFinalP TreeExecP BaseP BaseValueP CompleteP CompleteVecP CompleteTreeP ShowP RegP.
From Verif.Model Require Import Tree World Evolution BaseFns Execute.
From Verif.Spec Require Import WorldSpec FitnessSpec VectorSpec TreeSpec SelSpec EvoSpec CompleteSpec BaseSpec RegSpec ShowSpec ExecuteSpec.
Open Scope nat_scope.
Open Scope list_scope.

Lemma execute_of {val} (fsem : func -> list val -> res val) const a w b i : a_best_run a = Some b -> at_ w b = Some i ->
  forall kw, algorithm_execute val fsem const kw a w = ind_execute val fsem const (i_genome i) kw.
Proof. intros B A kw. unfold algorithm_execute. rewrite B. unfold at_ in A. rewrite A. reflexivity. Qed.

Lemma execute_best : forall val (fsem : func -> list val -> res val) const cases score ev sched n a w a' w' h,
  judged_by fsem const cases score ev -> gives_numbers ev -> fair sched -> a_trace a = [] -> a_method a = ByMap ->
  scalar_population w h (a_pop a) -> all_kinds no_penalty w ->
  (forall s, In s (a_pop a) -> forall c, In c (sp_creators s) -> made_with no_penalty c) ->
  evolve ev sched n (a, w) = (Ok tt, (a', w')) ->
  exists b i m, In b (concat (evals (a_trace a'))) /\ at_ w' b = Some i /\
    (forall kw, algorithm_execute val fsem const kw a' w' = ind_execute val fsem const (i_genome i) kw) /\
    score (map (fun kw => algorithm_execute val fsem const kw a' w') cases) = Ok m /\
    forall o, In o (concat (evals (a_trace a'))) ->
      exists j k, at_ w' o = Some j /\ score (map (ind_execute val fsem const (i_genome j)) cases) = Ok k /\ ~ better_score h k m.
Proof.
  intros val fsem const cases score ev sched n a w a' w' h J Hn Hf Htr Hm Hp Hk Hc E.
  pose proof (run_kinds no_penalty ev sched n a w Hk) as K. rewrite E in K. cbn [snd] in K. specialize (K (fun s Hs _ c Hc' => Hc s Hs c Hc')).
  destruct (best_of_run _ _ _ _ _ _ _ h Hn Hf Htr Hm Hp E) as (b & B & Ib & V).
  assert (G : forall o, In o (concat (evals (a_trace a'))) -> exists i m, at_ w' o = Some i /\
            score (map (ind_execute val fsem const (i_genome i)) cases) = Ok m /\ get_pure_fitness (i_fit i) = Ok (VNum m)).
  { intros o Ho. destruct (V o Ho) as [(i & v & A & Ev & Pv) _]. rewrite J in Ev. destruct (score _) as [m|] eqn:Em; [|discriminate]. injection Ev as <-.
    exists i, m. auto. }
  destruct (G b Ib) as (i & m & A & Em & Pm). exists b, i, m. pose proof (execute_of fsem const a' w' b i B A) as X.
  split; [exact Ib|]. split; [exact A|]. split; [exact X|]. split.
  { rewrite <- Em. f_equal. apply map_ext. exact X. }
  intros o Ho. destruct (G o Ho) as (j & k & Aj & Ek & Pk). exists j, k. split; [exact Aj|]. split; [exact Ek|].
  destruct (V o Ho) as [_ (x1 & x2 & S1 & S2 & N)]. rewrite (plain_score _ _ _ _ _ K S1 Aj Pk), (plain_score _ _ _ _ _ K S2 A Pm) in N. exact N.
Qed.

Lemma execute_vector : forall val (fsem : func -> list val -> res val) const k b len ev sched h s n a w,
  gives_numbers ev -> total_on (vectors k b len) ev -> fair sched -> a_trace a = [] -> configured h a w s ->
  Forall (vector_operator k b len) (sp_ops s) ->
  match sp_inds s with
  | Some l => genomes_in (vectors k b len) l w
  | None => Forall (vector_creator k b len) (sp_creators s)
  end ->
  exists a' w' v, evolve ev sched n (a, w) = (Ok tt, (a', w')) /\ vectors k b len (GVec v) /\
    forall kw, algorithm_execute val fsem const kw a' w' = Ok (OVector (v_cells v)).
Proof.
  intros val fsem const k b len ev sched h s n a w Hn Ht Hf Htr C Ho Hi.
  destruct (run_ends (vectors k b len) ev sched h s n a w Hn Ht Hf Htr C) as (a' & w' & o & i & B & A & Gi & E & _).
  { split.
    - eapply Forall_impl; [|exact Ho]. intros op. apply vector_closed.
    - destruct (sp_inds s); [exact Hi|]. rewrite Forall_forall in Hi. intros c Hc. apply vector_creator_closed. auto. }
  pose proof Gi as (v & Eg & _). rewrite (show_printable i) in E by (rewrite Eg; exact I). exists a', w', v. split; [exact E|]. rewrite <- Eg. split; [exact Gi|].
  intros kw. rewrite (execute_of fsem const a' w' o i B A), Eg. reflexivity.
Qed.

Lemma execute_program : forall us ul usin ucos utan t0 ev sched h s n a w,
  finite_functions us ul usin ucos utan -> numeric_functions (t_fset t0) ->
  gives_numbers ev -> total_on (trees_of t0 (program_node t0)) ev -> fair sched -> a_trace a = [] -> configured h a w s ->
  supplied t0 (t_root_type t0) -> typed_terminals t0 (t_root_type t0) -> printable_terminals t0 ->
  Forall tree_operator (sp_ops s) -> node_kind t0 (sp_ops s) (program_node t0) ->
  match sp_inds s with
  | Some l => genomes_in (trees_of t0 (program_node t0)) l w
  | None => Forall (tree_creator t0 (sp_size s)) (sp_creators s)
  end ->
  exists a' w' rt, evolve ev sched n (a, w) = (Ok tt, (a', w')) /\ saturated rt /\ (forall nd, In nd (flatten rt) -> program_node t0 nd) /\
    forall kw,
      (exact_arguments t0 kw -> Forall (fun e => number (snd e)) kw ->
       exists v, algorithm_execute el (base_sem us ul usin ucos utan) el_const kw a' w' = Ok (OValue v) /\ number v /\
         forall env, (forall f, In f (t_fset t0) -> exists g, meaning (f_name f) = Some (arity f, g)) ->
           (forall x u, argument kw x = Some u -> is_number u (env x)) -> is_number v (worth env rt)) /\
      (~ exact_arguments t0 kw -> algorithm_execute el (base_sem us ul usin ucos utan) el_const kw a' w' = Raise ValueError).
Proof.
  intros us ul usin ucos utan t0 ev sched h s n a w FF NF Hn Ht Hf Htr C Hs Htt Hp Ho K Hi.
  destruct (run_ends (trees_of t0 (program_node t0)) ev sched h s n a w Hn Ht Hf Htr C) as (a' & w' & b & i & B & A & Gi & E & _).
  { eapply program_run_closed; eauto. }
  rewrite (show_printable i) in E by (eapply trees_printable; [exact Hp|apply Gi]).
  destruct Gi as [(t & rt & Eg & (Ef & Et & _) & Ov & Sat & Fl & _) Hq]. exists a', w', rt. split; [exact E|]. split; [exact Sat|].
  assert (Hn' : forall nd, In nd (t_nodes t) -> program_node t0 nd) by (intros nd Hnd; eapply Hq; eauto).
  split; [rewrite Fl; exact Hn'|]. intros kw.
  pose proof (execute_of (base_sem us ul usin ucos utan) el_const a' w' b i B A kw) as X. rewrite Eg in X. cbn [ind_execute] in X.
  assert (Eq : exact_arguments t0 kw <-> exact_arguments t kw) by (unfold exact_arguments; rewrite Et; reflexivity).
  assert (Hvar : forall x c, In (TNode (TVar x) c) (t_nodes t) -> In (TVar x) (map fst (t_tset t))).
  { intros x c H. rewrite Et. exact (Hn' _ H). }
  assert (Hcst : finite_constants t) by (intros b0 x tag c H; exact (Hn' _ H)).
  split.
  - intros Ex Nk. apply Eq in Ex. destruct (finite_trees us ul usin ucos utan t rt kw FF Sat Fl Ex) as (v & Ev & Nv); auto.
    { intros f H. apply NF. exact (Hn' _ H). }
    exists v. rewrite X, Ev. split; [reflexivity|]. split; [exact Nv|]. intros env Hm Henv.
    destruct (trees_worth us ul usin ucos utan t rt kw env Sat Fl Ex) as (v' & Ev' & W); auto.
    { intros f H. apply Hm. exact (Hn' _ H). }
    rewrite Ev in Ev'. injection Ev' as <-. exact W.
  - intros Nx. rewrite X, (execute_rejects (base_sem us ul usin ucos utan) el_const t kw); [reflexivity|]. intros H. apply Nx, Eq, H.
Qed.

Lemma execute_numbers : forall val (fsem : func -> list val -> res val) const t0 Q ev sched h s n a w b x tag ty,
  gives_numbers ev -> total_on (trees_of t0 Q) ev -> fair sched -> a_trace a = [] -> configured h a w s ->
  supplied t0 (t_root_type t0) -> typed_terminals t0 (t_root_type t0) -> Forall tree_operator (sp_ops s) -> node_kind t0 (sp_ops s) Q ->
  match sp_inds s with
  | Some l => genomes_in (trees_of t0 Q) l w
  | None => Forall (tree_creator t0 (sp_size s)) (sp_creators s)
  end ->
  In (TNum b x tag, ty) (t_tset t0) ->
  exists r a' w', evolve ev sched n (a, w) = (r, (a', w')) /\ forall kw, algorithm_execute val fsem const kw a' w' = Raise ValueError.
Proof.
  intros val fsem const t0 Q ev sched h s n a w b x tag ty Hn Ht Hf Htr C Hs Htt Ho K Hi Hin.
  destruct (run_ends (trees_of t0 Q) ev sched h s n a w Hn Ht Hf Htr C) as (a' & w' & o & i & B & A & Gi & E & _).
  { eapply program_run_closed; eauto. }
  eexists _, a', w'. split; [exact E|]. intros kw. rewrite (execute_of fsem const a' w' o i B A).
  destruct Gi as [(t & rt & Eg & (_ & Et & _) & _) _]. rewrite Eg. cbn [ind_execute].
  rewrite (execute_constant fsem const t kw b x tag); [reflexivity|]. rewrite Et. apply (in_map fst) in Hin. exact Hin.
Qed.
