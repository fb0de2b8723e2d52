(** * Lemmas about constructors of operators and creators. *)
From Coq Require Import Lia QArith.
From Verif.Spec Require Import WorldSpec FitnessSpec VectorSpec TreeSpec EvoSpec CompleteSpec ShowSpec SetupSpec MakeSpec.
From Verif.Proofs Require Import TreeCreateP CompleteVecP CompleteTreeP ProgramP SetupP.
From Verif.Model Require Import Base Num Fitness Tree World Operators Selection Creators Evolution Setup Make.
Open Scope string_scope.
Open Scope nat_scope.
Open Scope list_scope.

Lemma given_key {X} (f : string -> bool) (o : option X) s :
  forallb f (match o with Some _ => [s] | None => [] end) = true <-> (o <> None -> f s = true).
Proof. destruct o; cbn; [rewrite andb_true_r|]; intuition congruence. Qed.

Lemma accepted c (P : Prop) s : (if existsb (String.eqb s) (parameters_of c) then P else ~ P) ->
  existsb (String.eqb s) (parameters_of c) = true <-> P.
Proof. destruct (existsb _ _); intros H; split; intros E; [exact H|reflexivity|discriminate|contradiction]. Qed.

Ltac by_class c := destruct c; cbn; first [exact I | reflexivity | intros [=]; fail | discriminate | tauto | intuition discriminate].

Lemma keywords_ok c a : forallb (fun k => existsb (String.eqb k) (parameters_of c)) (keywords_of a) = true <-> takes a c.
Proof.
  unfold keywords_of, takes. rewrite !forallb_app, !andb_true_iff, !given_key.
  rewrite (accepted c True "probability") by by_class c.
  rewrite (accepted c (c <> NIdentity) "arity") by by_class c.
  rewrite (accepted c (In c [NBase; NUniformN; NGaussN; NIntN; NBitNFlip]) "n") by by_class c.
  rewrite (accepted c (c = NKPoints) "k") by by_class c.
  rewrite (accepted c (In c [NGaussOne; NGaussN; NErc]) "mu") by by_class c.
  rewrite (accepted c (In c [NGaussOne; NGaussN; NErc]) "sigma") by by_class c.
  rewrite (accepted c (In c [NIntOne; NBitNFlip]) "probability_for_each") by by_class c.
  rewrite (accepted c (In c [NBase; NGaussOne; NGaussN; NSubtreeXO; NSubtreeMut]) "attempts") by by_class c.
  rewrite (accepted c (c = NSubtreeMut) "init_depth") by by_class c.
  generalize (In c [NBase; NUniformN; NGaussN; NIntN; NBitNFlip]), (In c [NGaussOne; NGaussN; NErc]), (In c [NIntOne; NBitNFlip]),
    (In c [NBase; NGaussOne; NGaussN; NSubtreeXO; NSubtreeMut]). intros P1 P2 P3 P4.
  split.
  - intros (_ & H1 & H2 & H3 & H4 & H5 & H6 & H7 & H8). repeat (split; [assumption|]). split; [intros [H|H]; auto|]. auto.
  - intros (H1 & H2 & H3 & H4 & H5 & H6 & H7). split; [intros _; exact I|]. repeat (split; [solve [auto]|]). auto.
Qed.

Lemma init_refuses z e : failable_init z = Raise e -> e = ValueError /\ (z < 1)%Z.
Proof. unfold failable_init. destruct (Z.ltb_spec z 1); [intros [= <-]; auto|discriminate]. Qed.

Lemma failable_made k p ar z op : failable_new k p ar z = Ok op <-> (1 <= z)%Z /\ op = mkOper k p ar (Z.to_nat z).
Proof.
  unfold failable_new, failable_init. destruct (Z.ltb_spec z 1); cbn; split.
  - discriminate.
  - intros [? _]; lia.
  - intros [= <-]. auto.
  - intros [_ ->]. reflexivity.
Qed.

Lemma failable_refused k p ar z e : failable_new k p ar z = Raise e -> e = ValueError /\ (z < 1)%Z.
Proof. unfold failable_new. destruct (failable_init z) eqn:E; cbn; [discriminate|intros [= <-]; apply init_refuses in E; exact E]. Qed.

Lemma made_exactly c a : (exists op, new_operator c a = Ok op) <-> takes a c /\ (forall z, oa_attempts a = Some z -> (1 <= z)%Z).
Proof.
  unfold new_operator. rewrite <- keywords_ok. destruct (forallb _ (keywords_of a)) eqn:K; cbn [negb].
  2:{ split; [intros [op [=]]|intros [[=] _]]. }
  apply keywords_ok in K. destruct K as (_ & _ & _ & _ & _ & K & _).
  assert (G : forall k p ar d, (1 <= d)%Z ->
    (exists op, failable_new k p ar (or_else (oa_attempts a) d) = Ok op) <-> (true = true /\ forall z, oa_attempts a = Some z -> (1 <= z)%Z)).
  { intros k p ar d Hd. split.
    - intros [op E]. split; [reflexivity|]. intros z Ez. rewrite Ez in E. apply failable_made in E. apply E.
    - intros [_ H]. eexists. apply failable_made. split; [|reflexivity]. destruct (oa_attempts a); cbn; auto. }
  assert (F : forall (P : Prop), ~ (oa_attempts a <> None) -> P -> P <-> (true = true /\ forall z, oa_attempts a = Some z -> (1 <= z)%Z)).
  { intros P N HP. split; [|intros _; exact HP]. intros _. split; [reflexivity|]. intros z Ez. destruct N. congruence. }
  destruct c; try (apply G; lia);
    try (apply F; [intros N; specialize (K N); cbn in K; intuition congruence|
                   first [eexists; reflexivity | eexists; apply failable_made; split; [lia|reflexivity]]]).
  destruct (or_else (oa_depth a) (2, 4)) as [mn mx]. apply G. lia.
Qed.

Lemma refused_exactly c a e : new_operator c a = Raise e ->
  (e = TypeError /\ ~ takes a c) \/ (e = ValueError /\ takes a c /\ exists z, oa_attempts a = Some z /\ (z < 1)%Z).
Proof.
  unfold new_operator. destruct (forallb _ (keywords_of a)) eqn:K; cbn [negb].
  2:{ intros [= <-]. left. split; [reflexivity|]. rewrite <- keywords_ok, K. discriminate. }
  apply keywords_ok in K.
  assert (G : forall k p ar d, (1 <= d)%Z -> failable_new k p ar (or_else (oa_attempts a) d) = Raise e ->
    (e = TypeError /\ ~ takes a c) \/ (e = ValueError /\ takes a c /\ exists z, oa_attempts a = Some z /\ (z < 1)%Z)).
  { intros k p ar d Hd E. apply failable_refused in E as [-> L]. right. split; [reflexivity|]. split; [exact K|].
    destruct (oa_attempts a) as [z|]; cbn in L; [eauto|lia]. }
  destruct c; try discriminate; try (apply G; lia);
    try (intros E; apply failable_refused in E as [_ L]; lia).
  destruct (or_else (oa_depth a) (2, 4)) as [mn mx]. apply G. lia.
Qed.

Lemma or_set {X} (o : option X) d : set_by o d (or_else o d).
Proof. destruct o; [left|right]; auto. Qed.

Lemma set_or {X} (o : option X) d x : set_by o d x -> x = or_else o d.
Proof. intros [->|[-> ->]]; reflexivity. Qed.

Lemma attributes c a op : new_operator c a = Ok op ->
  set_by (oa_probability a) (usual_probability c) (op_prob op) /\
  (c <> NSubtreeMut -> set_by (oa_arity a) (usual_arity c) (op_arity op)) /\
  (c = NSubtreeMut -> op_arity op = 1) /\
  exists z, set_by (oa_attempts a) (usual_attempts c) z /\ op_attempts op = Z.to_nat z.
Proof.
  unfold new_operator. destruct (forallb _ (keywords_of a)) eqn:K; cbn [negb]; [|discriminate]. apply keywords_ok in K.
  destruct K as (Ka & _ & _ & _ & _ & K & _).
  assert (N : ~ In c [NBase; NGaussOne; NGaussN; NSubtreeXO; NSubtreeMut] -> oa_attempts a = None).
  { intros H. destruct (oa_attempts a); [|reflexivity]. destruct H. apply K. discriminate. }
  assert (F : forall k p ar z, failable_new k p ar z = Ok op ->
    op_prob op = p /\ op_arity op = ar /\ op_attempts op = Z.to_nat z).
  { intros k p ar z E. apply failable_made in E as [_ ->]. auto. }
  destruct c; cbn [usual_probability usual_arity usual_attempts]; intros E;
    try (destruct (or_else (oa_depth a) (2, 4)) as [mn mx]);
    try (apply F in E as (-> & -> & ->)); try (injection E as <-; cbn [op_prob op_arity op_attempts]);
    (split; [apply or_set|]); (split; [intros NE; try apply or_set|]); try (split; [intros [=]|]); try congruence;
    try (eexists; split; [apply or_set|reflexivity]);
    try (eexists; split; [right; split; [apply N; cbn; intuition congruence|reflexivity]|reflexivity]).
  destruct (oa_arity a); [exfalso; apply Ka; congruence|]. right. auto.
Qed.

Lemma effect c a op : new_operator c a = Ok op -> does c a (op_kind op).
Proof.
  unfold new_operator. destruct (forallb _ (keywords_of a)) eqn:K; cbn [negb]; [|discriminate].
  assert (F : forall k p ar z, failable_new k p ar z = Ok op -> op_kind op = k).
  { intros k p ar z E. apply failable_made in E as [_ ->]. reflexivity. }
  destruct c; intros E; try (destruct (or_else (oa_depth a) (2, 4)) as [mn mx] eqn:D);
    try (apply F in E as ->); try (injection E as <-); cbn [op_kind does]; repeat split; try apply or_set.
  destruct (oa_depth a) as [[x y]|]; injection D as <- <-; [left|right]; auto.
Qed.

Lemma vectors_made k len b upd n h w l bs u :
  set_by len 1 l -> set_by b (BPair (Fin 0) (Fin 1)) bs -> set_by upd false u -> creatable l bs k ->
  exists os w', create_individuals (new_vector_creator k len b upd) n h w = (Ok os, w') /\ length os = n /\
    forall o, In o os -> newborn w' o KSimple h u /\
      exists v, vec_at w' o v /\ v_kind v = k /\ v_bounds v = bs /\ vsize v = l /\ in_box bs (v_cells v).
Proof.
  intros L B U C. assert (new_vector_creator k len b upd = CVector l bs k KSimple u) as ->.
  { unfold new_vector_creator. f_equal; [destruct L as [->|[-> ->]]|destruct B as [->|[-> ->]]|destruct U as [->|[-> ->]]]; reflexivity. }
  cbn [create_individuals]. destruct (creators_ok l bs k KSimple u n h w C) as (os & w' & E & Ln & _ & _ & _ & H).
  exists os, w'. split; [exact E|]. split; [exact Ln|]. intros o Ho. destruct (H o Ho) as (N & v & V & V1 & V2 & _ & V4 & V5 & _).
  split; [exact N|]. exists v. repeat split; assumption.
Qed.

Lemma operators_made calls : (forall ca, In ca calls -> exists op, new_operator (fst ca) (snd ca) = Ok op) ->
  exists ops, new_operators calls = Ok ops /\ Forall2 (fun ca op => new_operator (fst ca) (snd ca) = Ok op) calls ops.
Proof.
  unfold new_operators. induction calls as [|ca l IH]; intros H; [exists []; split; [reflexivity|constructor]|].
  destruct (H ca (or_introl eq_refl)) as [op E]. destruct IH as (ops & E2 & F); [intros x Hx; apply H; right; exact Hx|].
  exists (op :: ops). cbn [rmap]. rewrite E. cbn [rbind]. rewrite E2. split; [reflexivity|]. constructor; auto.
Qed.

Lemma made_arity size c a op : new_operator c a = Ok op -> arity_divides size c a -> op_arity op <> 0 /\ Nat.divide (op_arity op) size.
Proof.
  intros E H. apply attributes in E as (_ & Ha & Hs & _).
  destruct c; try (apply H; apply Ha; discriminate). rewrite (Hs eq_refl). split; [lia|apply Nat.divide_1_l].
Qed.

Lemma made_vector_operator k b len size c a op : creatable len b k -> vector_call k len size c a -> new_operator c a = Ok op -> vector_operator k b len op.
Proof.
  intros (_ & _ & Cb) (Fk & T & _ & Fi & _) E. pose proof E as E0. unfold new_operator in E.
  rewrite (proj2 (keywords_ok c a) T) in E. cbn [negb] in E. unfold vector_operator.
  assert (D : k = KBit -> exists lo hi, v_bounds (mkVec k b len []) = BPair lo hi) by exact Cb.
  assert (M : forall x (d : num), is_fin d = true -> (forall y, x = Some y -> is_fin y = true) -> is_fin (or_else x d) = true).
  { intros [y|] d Hd Hx; cbn; auto. }
  destruct c; cbn [for_vectors] in Fk; try contradiction; cbn [fitting] in Fi;
    try (apply failable_made in E as [L ->]); try (injection E as <-); cbn [op_kind op_arity op_attempts]; try exact I.
  - destruct Fi as [Ha Hk]. split; [|apply Hk, or_set]. destruct (oa_arity a) as [ar|]; cbn; auto.
  - left. split; [cbn; lia|]. split; [exact D|exact Fi].
  - left. split; [cbn; lia|]. split; [exact D|]. apply (proj1 Fi), or_set.
  - right. split; [exact I|]. destruct Fi as (Hn & Hm & Hs). cbn [finite_params]. split; [split; apply M; auto|]. split; [|exact Fk].
    destruct (oa_n a) eqn:En; [|apply (Hn 1); right; auto]. destruct T as (_ & T & _). exfalso. cbn in T. rewrite En in T.
    assert (X : Some n <> None) by discriminate. apply T in X. intuition congruence.
  - right. split; [exact I|]. destruct Fi as (Hn & Hm & Hs). cbn [finite_params]. split; [split; apply M; auto|]. split; [|exact Fk]. apply Hn, or_set.
  - left. split; [cbn; lia|]. split; [exact D|exact I].
  - left. split; [cbn; lia|]. split; [exact D|]. apply (proj1 Fi), or_set.
  - left. split; [cbn; lia|]. split; [split; [exact Fk|exact (D Fk)]|exact Fi].
  - left. split; [cbn; lia|]. split; [split; [exact Fk|exact (D Fk)]|]. apply (proj1 Fi), or_set.
Qed.

Lemma made_tree_operator size c a op : tree_call size c a -> new_operator c a = Ok op ->
  tree_operator op /\ forall mu sigma, op_kind op = OErc mu sigma -> is_fin mu = true /\ is_fin sigma = true.
Proof.
  intros (Fk & T & _ & _ & Hm & Hs) E. unfold new_operator in E. rewrite (proj2 (keywords_ok c a) T) in E. cbn [negb] in E. unfold tree_operator.
  assert (M : forall x (d : num), is_fin d = true -> (forall y, x = Some y -> is_fin y = true) -> is_fin (or_else x d) = true).
  { intros [y|] d Hd Hx; cbn; auto. }
  destruct c; cbn [for_trees] in Fk; try contradiction; try (destruct (or_else (oa_depth a) (2, 4)) as [mn mx]);
    try (apply failable_made in E as [L ->]); try (injection E as <-); cbn [op_kind]; (split; [exact I|]); intros mu sigma Eq; try discriminate.
  injection Eq as <- <-. split; apply M; auto.
Qed.

Lemma made_creator t0 size c : made_for t0 size c -> scalar_creator c /\ tree_creator t0 size c.
Proof.
  intros (a & ((ts & typed & Ef & Et & Eh) & Ee & Er & Hb) & Hc).
  assert (P : forall p, gp_params_of a = Ok p -> gp_for t0 p /\ is_fin (g_bloat p) = true /\ set_by (ga_depth a) (2, 4) (g_min p, g_max p)).
  { unfold gp_params_of. rewrite Ef, Et. pose proof (or_set (ga_depth a) (2, 4)) as S. destruct (or_else (ga_depth a) (2, 4)) as [mn mx].
    intros p [= <-]. unfold gp_for. cbn [g_fset g_terms g_typed g_erc g_root g_bloat g_min g_max]. rewrite Ee, Er. split; [auto|]. split; [|exact S].
    destruct (ga_bloat a); cbn; auto. }
  unfold new_grow, new_full, new_half in Hc. destruct Hc as [E|[E|[E (mn & mx & S & Hm & Hs)]]].
  - destruct (gp_params_of a) as [p|e]; [|discriminate]. injection E as <-. destruct (P p eq_refl) as (G & F & _). split; [exact F|exact G].
  - destruct (ga_prune a); [discriminate|]. destruct (gp_params_of a) as [p|e]; [|discriminate]. injection E as <-. destruct (P p eq_refl) as (G & F & _). split; [exact F|exact G].
  - destruct (ga_prune a); [discriminate|]. destruct (ga_upd a); [discriminate|]. destruct (gp_params_of a) as [p|e]; [|discriminate]. injection E as <-.
    destruct (P p eq_refl) as (G & F & D). apply set_or in S. apply set_or in D. assert (X : (mn, mx) = (g_min p, g_max p)) by congruence. injection X as -> ->.
    split; [split; reflexivity|]. cbn [half_creator tree_creator]. unfold gp_for in *. cbn [g_fset g_terms g_typed g_erc g_root]. auto.
Qed.

Lemma subpopulation_made sum c ops rate size h : sum = sum_plain \/ sum = sum_compensated ->
  exists s, new_subpopulation sum (CrOne c) None (Some ops) None rate size None (HB h) = Ok s.
Proof.
  intros Hs. eexists. apply subpopulation_ok. exists [c]. split; [left; eauto|]. split; [discriminate|].
  exists [ddiv 1 (of_count 1)], ops. split; [right; auto|]. split; [reflexivity|]. split; [|split; reflexivity].
  destruct Hs as [->| ->]; vm_compute; reflexivity.
Qed.

Lemma evolution_made t x s : ea_population x = PoOne s -> other_arguments x -> exists su, simple_evolution_init t x = Ok su.
Proof.
  intros Ep (Hb & He & (k & Hk) & Hv & _). eexists. apply simple_ok. split; [exact Hb|]. split; [exact He|].
  exists ByMap, [s], k. split; [exact Hv|]. split; [right; left; eauto|]. split; [exact Hk|reflexivity].
Qed.

Lemma made_vector_run k b len ev sched h sum upd calls rate size : creatable len b k -> match b with BCells l => length l <> 2 | _ => True end ->
  (forall c a, In (c, a) calls -> vector_call k len size c a) -> 1 <= size ->
  gives_numbers ev -> total_on (vectors k b len) ev -> fair sched -> sum = sum_plain \/ sum = sum_compensated ->
  exists ops s, new_operators calls = Ok ops /\
    new_subpopulation sum (CrOne (new_vector_creator k (Some len) (Some b) upd)) None (Some ops) None rate size None (HB h) = Ok s /\
    forall t x w, ea_population x = PoOne s -> other_arguments x ->
    exists su a' w', simple_evolution_init t x = Ok su /\ evolve ev sched (su_stats su) (su_algo su, w) = (Ok tt, (a', w')) /\
      forall l, In l (evals (a_trace a')) -> length l = size /\ genomes_in (vectors k b len) l w'.
Proof.
  intros Hc Hb Hcalls Hsz Hn Ht Hf Hs.
  destruct (operators_made calls) as (ops & Eo & Fo).
  { intros [c a] Hin. apply made_exactly. destruct (Hcalls c a Hin) as (_ & T & At & _). auto. }
  destruct (subpopulation_made sum (new_vector_creator k (Some len) (Some b) upd) ops rate size h Hs) as [s Es].
  exists ops, s. split; [exact Eo|]. split; [exact Es|]. intros t x w Ep Ho.
  destruct (evolution_made t x s Ep Ho) as [su Ei]. destruct Ho as (_ & _ & _ & Hv & Hk).
  assert (Op : forall op, In op ops -> vector_operator k b len op /\ op_arity op <> 0 /\ Nat.divide (op_arity op) size).
  { intros op Hin. apply Forall2_In_r with (y := op) in Fo; [|exact Hin]. destruct Fo as ([c a] & Hca & E). cbn [fst snd] in E.
    specialize (Hcalls c a Hca). split; [eapply made_vector_operator; eauto|]. eapply made_arity; [exact E|]. apply Hcalls. }
  destruct (constructed_vector_run k b len ev sched h sum (CrOne (new_vector_creator k (Some len) (Some b) upd)) [new_vector_creator k (Some len) (Some b) upd] None ops rate size s t x su w)
    as (a' & w' & E & V); auto.
  - left. eauto.
  - intros c [<-|[]]. split; [split; [reflexivity|exact I]|]. cbn. auto.
  - intros p [=].
  - apply Forall_forall. intros op Hin. apply Op, Hin.
  - intros op Hin. apply Op, Hin.
  - right. left. eauto.
  - exists su, a', w'. auto.
Qed.

Lemma made_tree_run t0 c ev sched h sum calls rate size :
  supplied t0 (t_root_type t0) -> typed_terminals t0 (t_root_type t0) -> printable_terminals t0 ->
  (forall v a, In (v, a) (t_tset t0) -> forall b x tag, v = TNum b x tag -> is_fin x = true) ->
  (forall lo hi, t_erc t0 = Some (ErcFloat lo hi) -> exists a b, lo = Fin a /\ hi = Fin b /\ (a <= b)%Q) ->
  made_for t0 size c -> (forall c a, In (c, a) calls -> tree_call size c a) -> 1 <= size ->
  gives_numbers ev -> total_on (trees_of t0 (program_node t0)) ev -> fair sched -> sum = sum_plain \/ sum = sum_compensated ->
  exists ops s, new_operators calls = Ok ops /\
    new_subpopulation sum (CrOne c) None (Some ops) None rate size None (HB h) = Ok s /\
    forall t x w, ea_population x = PoOne s -> other_arguments x ->
    exists su a' w', simple_evolution_init t x = Ok su /\ evolve ev sched (su_stats su) (su_algo su, w) = (Ok tt, (a', w')) /\
      forall l, In l (evals (a_trace a')) -> length l = size /\ genomes_in (trees_of t0 (program_node t0)) l w'.
Proof.
  intros Hsu Htt Hpr Hfin Herc Hc Hcalls Hsz Hn Ht Hf Hs.
  destruct (operators_made calls) as (ops & Eo & Fo).
  { intros [n a] Hin. apply made_exactly. destruct (Hcalls n a Hin) as (_ & T & At & _). auto. }
  destruct (subpopulation_made sum c ops rate size h Hs) as [s Es].
  exists ops, s. split; [exact Eo|]. split; [exact Es|]. intros t x w Ep Ho.
  destruct (evolution_made t x s Ep Ho) as [su Ei]. destruct Ho as (_ & _ & _ & Hv & Hk).
  assert (Op : forall op, In op ops -> (tree_operator op /\ forall mu sigma, op_kind op = OErc mu sigma -> is_fin mu = true /\ is_fin sigma = true) /\
                                       op_arity op <> 0 /\ Nat.divide (op_arity op) size).
  { intros op Hin. apply Forall2_In_r with (y := op) in Fo; [|exact Hin]. destruct Fo as ([n a] & Hca & E). cbn [fst snd] in E.
    specialize (Hcalls n a Hca). split; [eapply made_tree_operator; eauto|]. eapply made_arity; [exact E|]. apply Hcalls. }
  assert (K : node_kind t0 ops (program_node t0)).
  { apply program_kind; auto. intros op mu sigma Hin. apply Op, Hin. }
  destruct (made_creator t0 size c Hc) as [Sc Tc].
  destruct (constructed_run (trees_of t0 (program_node t0)) ev sched h sum (CrOne c) [c] None ops rate size s t x su w) as (a' & w' & E & V); auto.
  - left. eauto.
  - intros c' [<-|[]]. split; [exact Sc|]. apply program_creator_closed; auto. apply K.
  - intros p [=].
  - apply Forall_forall. intros op Hin. eapply program_closed; eauto; apply Op, Hin.
  - intros op Hin. apply Op, Hin.
  - intros g [G _]. eapply trees_printable; eauto.
  - right. left. eauto.
  - exists su, a', w'. auto.
Qed.

Lemma gp_params_ok a p : gp_params_of a = Ok p <->
  exists fs ts typed mn mx prune, ga_functions a = Some fs /\ ga_terminals a = Some (ts, typed) /\ set_by (ga_depth a) (2, 4) (mn, mx) /\
    set_by (ga_prune a) (Fin (1 # 2)) prune /\
    p = mkGP mn mx fs ts typed (ga_erc a) (or_else (ga_bloat a) (Fin 0)) (ga_root a) (or_else (ga_upd a) false) prune.
Proof.
  unfold gp_params_of. split.
  - destruct (ga_functions a) as [fs|]; [|discriminate]. destruct (ga_terminals a) as [[ts typed]|]; [|discriminate].
    pose proof (or_set (ga_depth a) (2, 4)) as S. destruct (or_else (ga_depth a) (2, 4)) as [mn mx]. intros [= <-].
    exists fs, ts, typed, mn, mx, (or_else (ga_prune a) (Fin (1 # 2))). repeat (split; [solve [reflexivity|exact S|apply or_set]|]). reflexivity.
  - intros (fs & ts & typed & mn & mx & pr & -> & -> & S & Sp & ->). apply set_or in S. apply set_or in Sp. rewrite <- S, Sp. reflexivity.
Qed.

Lemma gp_params_raise a e : gp_params_of a = Raise e -> e = ValueError /\ (ga_functions a = None \/ ga_terminals a = None).
Proof.
  unfold gp_params_of. destruct (ga_functions a) as [fs|]; [|intros [= <-]; auto].
  destruct (ga_terminals a) as [[ts typed]|]; [|intros [= <-]; auto]. destruct (or_else (ga_depth a) (2, 4)). discriminate.
Qed.

Lemma grow_made a c : new_grow a = Ok c <->
  exists fs ts typed mn mx weight upd prune, ga_functions a = Some fs /\ ga_terminals a = Some (ts, typed) /\ set_by (ga_depth a) (2, 4) (mn, mx) /\
    set_by (ga_bloat a) (Fin 0) weight /\ set_by (ga_upd a) false upd /\ set_by (ga_prune a) (Fin (1 # 2)) prune /\
    c = CGP Grow (mkGP mn mx fs ts typed (ga_erc a) weight (ga_root a) upd prune).
Proof.
  unfold new_grow. split.
  - destruct (gp_params_of a) as [p|e] eqn:E; [|discriminate]. intros [= <-]. apply gp_params_ok in E as (fs & ts & typed & mn & mx & pr & E1 & E2 & S & Sp & ->).
    exists fs, ts, typed, mn, mx, (or_else (ga_bloat a) (Fin 0)), (or_else (ga_upd a) false), pr.
    repeat (split; [solve [assumption|apply or_set]|]). reflexivity.
  - intros (fs & ts & typed & mn & mx & wt & u & pr & E1 & E2 & S & Sb & Su & Sp & ->).
    assert (E : gp_params_of a = Ok (mkGP mn mx fs ts typed (ga_erc a) wt (ga_root a) u pr)).
    { apply gp_params_ok. exists fs, ts, typed, mn, mx, pr. apply set_or in Sb. apply set_or in Su. subst wt u. auto. }
    rewrite E. reflexivity.
Qed.

Lemma full_made a c : new_full a = Ok c <->
  ga_prune a = None /\ exists p, new_grow a = Ok (CGP Grow p) /\ c = CGP Full p.
Proof.
  unfold new_full, new_grow. destruct (ga_prune a); [split; [discriminate|intros [[=] _]]|].
  destruct (gp_params_of a) as [p|e]; cbn; split.
  - intros [= <-]. split; [reflexivity|]. exists p. auto.
  - intros (_ & p' & [= <-] & ->). reflexivity.
  - discriminate.
  - intros (_ & p' & [=] & _).
Qed.

Lemma half_made a c : new_half a = Ok c <->
  ga_prune a = None /\ ga_upd a = None /\ exists mn mx fs ts typed weight,
    new_grow a = Ok (CGP Grow (mkGP mn mx fs ts typed (ga_erc a) weight (ga_root a) false (Fin (1 # 2)))) /\
    let q := mkGP mn mx fs ts typed (ga_erc a) (Fin 0) (ga_root a) false (Fin (1 # 2)) in c = CHalf mn mx q q.
Proof.
  unfold new_half. destruct (ga_prune a) eqn:Ep; [split; [discriminate|intros [[=] _]]|].
  destruct (ga_upd a) eqn:Eu; [split; [discriminate|intros (_ & [=] & _)]|]. split.
  - destruct (gp_params_of a) as [p|e] eqn:E; [|discriminate]. intros [= <-]. split; [reflexivity|]. split; [reflexivity|].
    pose proof E as E0. apply gp_params_ok in E as (fs & ts & typed & mn & mx & pr & E1 & E2 & S & Sp & ->).
    exists mn, mx, fs, ts, typed, (or_else (ga_bloat a) (Fin 0)). split; [|reflexivity].
    unfold new_grow. rewrite E0. cbn. rewrite Ep in Sp. rewrite Eu. apply set_or in Sp. subst pr. reflexivity.
  - intros (_ & _ & mn & mx & fs & ts & typed & wt & E & ->). unfold new_grow in E. destruct (gp_params_of a) as [p|e]; [|discriminate].
    injection E as ->. reflexivity.
Qed.

Lemma creators_refused a e :
  (new_grow a = Raise e -> e = ValueError /\ (ga_functions a = None \/ ga_terminals a = None)) /\
  (new_full a = Raise e -> (e = TypeError /\ ga_prune a <> None) \/ (e = ValueError /\ (ga_functions a = None \/ ga_terminals a = None))) /\
  (new_half a = Raise e -> (e = TypeError /\ (ga_prune a <> None \/ ga_upd a <> None)) \/
                           (e = ValueError /\ (ga_functions a = None \/ ga_terminals a = None))).
Proof.
  assert (G : forall k : gp_params -> creator, rbind (gp_params_of a) (fun p => Ok (k p)) = Raise e -> e = ValueError /\ (ga_functions a = None \/ ga_terminals a = None)).
  { intros k. destruct (gp_params_of a) as [p|e'] eqn:E; [discriminate|]. intros [= <-]. apply gp_params_raise. exact E. }
  split; [apply G|]. split.
  - unfold new_full. destruct (ga_prune a); [intros [= <-]; left; split; [reflexivity|discriminate]|]. intros H. right. apply G in H. exact H.
  - unfold new_half. destruct (ga_prune a); [intros [= <-]; left; split; [reflexivity|left; discriminate]|].
    destruct (ga_upd a); [intros [= <-]; left; split; [reflexivity|right; discriminate]|]. intros H. right. apply G in H. exact H.
Qed.

(** A class with another default probability than the others, and an arity that is ignored. *)
Lemma usual_one_refuted : exists c op, new_operator c no_args = Ok op /\ op_prob op <> Fin 1.
Proof. exists NIntOne. eexists. split; [reflexivity|discriminate]. Qed.

Lemma arity_refuted : exists c a ar op, oa_arity a = Some ar /\ new_operator c a = Ok op /\ op_arity op <> ar.
Proof. exists NSubtreeMut, (mkOA None (Some 2) None None None None None None None), 2. eexists. split; [reflexivity|]. split; [reflexivity|discriminate]. Qed.

Lemma tournament_refused size source dest w : length source < size ->
  select (new_tournament size (Some false)) source dest w = (Raise ValueError, w).
Proof.
  intros H. cbn [new_tournament or_else select]. unfold tournament_select. apply Nat.ltb_lt in H. rewrite H. reflexivity.
Qed.

(** One individual, a tournament of two. *)
Definition alone : world := mkWorld [mkInd 1 0 (snd (set_fitness (unmeasured KSimple (HB true)) (VNum (Fin 1)))) 0 [] [] false [] (GVec (mkVec KBit (BPair (Fin 0) (Fin 1)) 1 [Fin 0]))] 2 (tape []).
Lemma replacement_refuted : exists size source w r w', length source < size /\ select (new_tournament size None) source [] w = (Ok r, w').
Proof. exists 2, [0], alone. eexists _, _. split; [cbn; lia|]. vm_compute. reflexivity. Qed.
