(** * Set-ups that cannot work. *)
From Coq Require Import Lia Permutation.
From Verif.Model Require Import Base Num Rng Fitness Vector Tree World Operators Selection Creators Evolution Nsga2 BaseFns.
From Verif.Spec Require Import WorldSpec VectorSpec TreeSpec EvoSpec ErrorSpec.
From Verif.Proofs Require Import Lib WorldP VectorP VecOpP VecFinalP TreeCreateP BreedP BestP RunP TraceP.
From Verif.Model Require Import Base Num Rng Fitness Vector Tree World Operators Selection Creators Evolution Nsga2 BaseFns.
Open Scope nat_scope.
Open Scope list_scope.

(** ** Runs *)

Lemma given_created pop : forall w, Forall (fun s => sp_inds s <> None) pop -> mapM create_subpopulation pop w = (Ok pop, w).
Proof.
  induction pop as [|s pop IH]; intros w H; [reflexivity|]. inversion H; subst. cbn [mapM]. unfold create_subpopulation at 1.
  destruct (sp_inds s) as [l|] eqn:E; [|contradiction]. unfold bind at 1, ret at 1. rewrite (bind_eq_ok _ _ _ _ _ (IH w H3)). reflexivity.
Qed.

Lemma mapM_raises_or {S X Y} (f : X -> SE S Y) l s : (exists ys s', mapM f l s = (Ok ys, s') /\ length ys = length l) \/ exists e s', mapM f l s = (Raise e, s').
Proof.
  destruct (mapM f l s) as [[ys|e] s'] eqn:E; [left|right; eauto]. exists ys, s'. split; [reflexivity|]. eapply mapM_length; eauto.
Qed.

Lemma init_raises ev sched n a w : length (a_pop a) <> 1 ->
  exists e w', initialize ev sched n (a, w) = (Raise e, w') /\ evals (a_trace (fst w')) = evals (a_trace a) /\
    published "init" (a_trace (fst w')) = published "init" (a_trace a) /\
    (Forall (fun s => sp_inds s <> None) (a_pop a) -> e = ValueError).
Proof.
  intros H. unfold initialize. set (a1 := add_trace (TSeed (a_random_seed a)) a). set (w1 := snd (liftR (set_seed (a_random_seed a)) w)).
  assert (E0 : algo_get (a, w) = (Ok a, (a, w))) by reflexivity. rewrite (bind_eq_ok _ _ _ _ _ E0).
  assert (E1 : seed_generators (a_random_seed a) (a, w) = (Ok tt, (a1, w1))) by reflexivity. rewrite (bind_eq_ok _ _ _ _ _ E1).
  assert (T1 : forall f, flat_map f [TSeed (a_random_seed a)] = [] -> @flat_map tev (list oid) f (a_trace a1) = flat_map f (a_trace a)).
  { intros f Hf. unfold a1. cbn [a_trace add_trace]. rewrite flat_map_app, Hf, app_nil_r. reflexivity. }
  assert (T2 : published "init" (a_trace a1) = published "init" (a_trace a)).
  { unfold a1, published. cbn [a_trace add_trace]. rewrite flat_map_app, app_nil_r. reflexivity. }
  destruct (mapM_raises_or create_subpopulation (a_pop a) w1) as [(pop & w2 & E & L)|(e & w2 & E)].
  - assert (E2 : liftM (mapM create_subpopulation (a_pop a)) (a1, w1) = (Ok pop, (a1, w2))) by (unfold liftM; cbn [fst snd]; rewrite E; reflexivity).
    rewrite (bind_eq_ok _ _ _ _ _ E2).
    assert (E3 : algo_mod (set_pop pop) (a1, w2) = (Ok tt, (set_pop pop a1, w2))) by reflexivity. rewrite (bind_eq_ok _ _ _ _ _ E3).
    assert (E4 : act_evaluator ev sched (set_pop pop a1, w2) = (Raise ValueError, (set_pop pop a1, w2))).
    { unfold act_evaluator. assert (Eg : algo_get (set_pop pop a1, w2) = (Ok (set_pop pop a1), (set_pop pop a1, w2))) by reflexivity.
      rewrite (bind_eq_ok _ _ _ _ _ Eg). apply bind_eq_raise. unfold liftM. cbn [fst snd a_pop set_pop].
      destruct pop as [|s [|s' pop]]; [reflexivity|exfalso; cbn in L; lia|reflexivity]. }
    rewrite (bind_eq_raise _ _ _ _ _ E4). exists ValueError. eexists. split; [reflexivity|]. cbn [fst a_trace set_pop].
    split; [apply T1; reflexivity|]. split; [exact T2|reflexivity].
  - assert (E2 : liftM (mapM create_subpopulation (a_pop a)) (a1, w1) = (Raise e, (a1, w2))) by (unfold liftM; cbn [fst snd]; rewrite E; reflexivity).
    rewrite (bind_eq_raise _ _ _ _ _ E2). exists e. eexists. split; [reflexivity|]. cbn [fst]. split; [apply T1; reflexivity|]. split; [exact T2|].
    intros F. rewrite (given_created _ w1 F) in E. discriminate.
Qed.

Lemma one_subpopulation ev sched it fin n a w : length (a_pop a) <> 1 ->
  exists e a' w', evolve_with ev sched it fin n (a, w) = (Raise e, (a', w')) /\ evals (a_trace a') = evals (a_trace a) /\
    published "init" (a_trace a') = published "init" (a_trace a) /\ (Forall (fun s => sp_inds s <> None) (a_pop a) -> e = ValueError).
Proof.
  intros H. destruct (init_raises ev sched n a w H) as (e & [a' w'] & E & R). exists e, a', w'. split; [|exact R].
  unfold evolve_with. apply bind_eq_raise. exact E.
Qed.

Lemma first_eval ev sched a w s b w' : evaluate_population ev sched (a_method a) (a_alive a) [s] w = (Ok b, w') -> inds_of s <> [].
Proof.
  cbn [evaluate_population]. unfold evaluate_inds. intros H E. rewrite E in H. mb H as gs w1 E1. mb H as rs w2 E2.
  destruct (a_method a); [mb H as u w3 E3; discriminate|]. mb H as o w3 E3. mb H as r w4 E4. mb H as u w5 E5. discriminate.
Qed.

Lemma created_one s w pop w' : mapM create_subpopulation [s] w = (Ok pop, w') -> exists s', pop = [s'] /\ sp_sels s' = sp_sels s /\ sp_ops s' = sp_ops s /\ sp_size s' = sp_size s.
Proof.
  cbn [mapM]. intros H. mb H as s' w1 E. mb H as l w2 E2. mr E2. mr H. exists s'. split; [reflexivity|].
  unfold create_subpopulation in E. destruct (sp_inds s) as [i|]; [mr E; auto|]. mb E as c w3 E3. mb E as l w4 E4. mr E. auto.
Qed.

Lemma breed_needs s w pop w' : breed [s] w = (Ok pop, w') -> ready s.
Proof.
  unfold breed. cbn [mapM]. intros H. mb H as s' w1 E. clear H. unfold breed_subpop in E. mb E as u w2 E1. unfold lift in E1.
  destruct (check_arities (sp_size s) (map sel_arity (sp_sels s) ++ map op_arity (sp_ops s))) as [x|] eqn:Ec; [|discriminate].
  mb E as el w3 E2. destruct (sp_sels s) as [|sel sels] eqn:Es; [discriminate|]. split; [congruence|].
  pose proof (check_arities_ok _ _ _ Ec) as C. rewrite Es. intros a Ha. destruct (C a Ha) as [H1 H2]. split; [exact H1|]. apply Nat.mod_divide; assumption.
Qed.

Lemma needs ev sched n a w a' w' : a_trace a = [] -> evolve ev sched n (a, w) = (Ok tt, (a', w')) ->
  exists s l0 ls, a_pop a = [s] /\ evals (a_trace a') = l0 :: ls /\ l0 <> [] /\ (ls <> [] -> ready s).
Proof.
  intros T H. unfold evolve in H. apply evolve_ok in H as (a1 & w1 & st & a2 & a3 & w3 & Hi & Ht & Hm & Hf).
  apply init_ok in Hi as (pop & v & best & Ec & Ee & Ea1). apply terminate_ok in Ht as (_ & b & ans & cs & _ & _ & Ea2 & _).
  apply finish_ok in Hf as [-> _].
  assert (exists s, a_pop a = [s]) as (s & Es).
  { apply mapM_length in Ec. destruct pop as [|x [|y pop]]; try discriminate. destruct (a_pop a) as [|s [|]]; try discriminate. eauto. }
  rewrite Es in Ec. apply created_one in Ec as (s' & -> & S1 & S2 & S3).
  assert (N : inds_of s' <> []) by (eapply first_eval with (a := a); exact Ee).
  assert (R : ready s' -> ready s) by (unfold ready; rewrite S1, S2, S3; auto).
  assert (E2 : evals (a_trace a2) = [inds_of s']).
  { subst a2 a1. cbn. rewrite T, !evals_app. cbn. rewrite app_nil_r. reflexivity. }
  assert (P2 : a_pop a2 = [s']) by (subst a2 a1; reflexivity).
  exists s, (inds_of s'). clear Ea1 Ea2.
  destruct st.
  - destruct Hm as [-> ->]. exists []. split; [exact Es|]. split; [|split; [exact N|intros []; reflexivity]]. cbn. rewrite !evals_app, E2. reflexivity.
  - destruct (loop_trace _ (simple_quiet ev sched) _ _ _ _ _ _ Hm) as (k & tr & _ & Htr & _).
    exists (evals tr). split; [exact Es|]. split; [cbn; rewrite evals_app, Htr, evals_app, E2; cbn; rewrite app_nil_r; reflexivity|]. split; [exact N|].
    intros Hne. apply R. destruct (a_max_gen a2) as [|m].
    + cbn in Hm. injection Hm as <- <-. assert (tr = []) as -> by (apply (app_inv_head (a_trace a2)); rewrite <- Htr, app_nil_r; reflexivity). contradiction.
    + rewrite main_loop_body in Hm. mb Hm as st s1 E. destruct s1 as [a4 w4]. apply body_ok in E as (v1 & a5 & w5 & _ & _ & Ei & _).
      apply iteration_ok in Ei as (pop & v2 & best' & v3 & b' & worst & Eb & _). cbn in Eb. rewrite P2 in Eb. eapply breed_needs; exact Eb.
Qed.

(** A run without selection methods ends in its first generation. *)
Lemma breed_no_selection s w : sp_sels s = [] -> sp_n_elite s = 0 -> (forall op, In op (sp_ops s) -> op_arity op <> 0 /\ Nat.divide (op_arity op) (sp_size s)) ->
  breed [s] w = (Raise IndexError, w).
Proof.
  intros Hs He Ho. unfold breed. cbn [mapM]. apply bind_eq_raise. unfold breed_subpop. rewrite Hs, He. cbn [map app].
  assert (C : check_arities (sp_size s) (map op_arity (sp_ops s)) = Ok tt).
  { induction (sp_ops s) as [|op ops IH]; [reflexivity|]. cbn [map check_arities]. destruct (Ho op (or_introl eq_refl)) as [H1 H2].
    destruct (Nat.eqb_spec (op_arity op) 0); [contradiction|]. apply Nat.mod_divide in H2; [|exact H1]. rewrite H2, Nat.eqb_refl. apply IH. intros; apply Ho; right; assumption. }
  rewrite C. reflexivity.
Qed.

(** ** Keys that cannot be compared *)

Lemma mixed_keys n rev src dest w o p x l : In o src -> In p src -> keyed w o (VNum x) -> keyed w p (VList l) ->
  (forall q, In q src -> exists v, keyed w q v) -> elitism_select n rev src dest w = (Raise TypeError, w).
Proof.
  intros Ho Hp So Sp Hall. unfold elitism_select. apply bind_eq_raise. unfold sorted_by_fitness.
  assert (A : forall l, (forall q, In q l -> exists v, keyed w q v) -> exists ks, mapM augmented l w = (Ok ks, w) /\ Forall2 (keyed w) l ks).
  { clear. induction l as [|q l IH]; intros H; [exists []; split; [reflexivity|constructor]|].
    destruct (H q (or_introl eq_refl)) as (v & Sv). destruct IH as (ks & E & F); [intros; apply H; right; assumption|].
    exists (v :: ks). split; [|constructor; assumption]. cbn [mapM]. destruct Sv as (i & Hi & Ei). unfold bind at 1. unfold augmented at 1.
    rewrite (bind_eq_ok _ _ _ _ _ (load_at _ _ _ Hi)). rewrite Ei. unfold lift. rewrite (bind_eq_ok _ _ _ _ _ E). reflexivity. }
  destruct (A src Hall) as (ks & E & F). rewrite (bind_eq_ok _ _ _ _ _ E).
  assert (K : keys_comparable ks = false).
  { destruct (keys_comparable ks) eqn:Ek; [exfalso|reflexivity].
    assert (In (VNum x) ks /\ In (VList l) ks) as [I1 I2].
    { assert (B : forall q v, In q src -> keyed w q v -> In v ks).
      { intros q v Hq Sq. destruct (In_nth_error _ _ Hq) as (j & Hj). destruct (nth_error_ex ks j) as (v' & Hv').
        { rewrite <- (Forall2_len _ _ _ F). apply nth_error_Some. congruence. }
        pose proof (Forall2_nth_error _ _ _ _ _ _ F Hj Hv') as (i & Hi & Ei). destruct Sq as (i' & Hi' & Ei').
        replace v with v' by congruence. eapply nth_error_In; eauto. }
      split; [exact (B o _ Ho So)|exact (B p _ Hp Sp)]. }
    destruct ks as [|k [|k' ks]]; [destruct I1| |].
    - destruct I1 as [->|[]]. destruct I2 as [?|[]]; discriminate.
    - unfold keys_comparable in Ek. rewrite forallb_forall in Ek.
      assert (S : forall v, In v (k :: k' :: ks) -> v = k \/ same_sort k v = true) by (intros v [->|Hv]; auto).
      destruct (S _ I1) as [<-|S1], (S _ I2) as [E2|S2]; try discriminate.
      + subst k. discriminate.
      + destruct k; discriminate. }
  rewrite K. reflexivity.
Qed.

(** ** Creating trees *)

Definition only {S A} (m : SE S A) : Prop := forall s e s', m s = (Raise e, s') -> e = ValueError.

Lemma only_bind {S A B} (m : SE S A) (k : A -> SE S B) : only m -> (forall x, only (k x)) -> only (x <- m ;; k x).
Proof. intros H1 H2 s e s' H. unfold bind in H. destruct (m s) as [[x|e'] s1] eqn:E; [exact (H2 _ _ _ _ H)|]. injection H as -> ->. exact (H1 _ _ _ E). Qed.
Lemma only_ret {S A} (x : A) : @only S A (ret x). Proof. intros s e s' H. discriminate. Qed.
Lemma only_value {S A} : @only S A (raise ValueError). Proof. intros s e s' H. injection H as <- _. reflexivity. Qed.
Lemma only_mapM {S A B} (f : A -> SE S B) l : (forall x, In x l -> only (f x)) -> only (mapM f l).
Proof.
  induction l as [|x l IH]; intros H; [apply only_ret|]. cbn [mapM]. apply only_bind; [apply H; left; reflexivity|]. intros y.
  apply only_bind; [apply IH; intros; apply H; right; assumption|]. intros ys. apply only_ret.
Qed.
Lemma only_choice {A} (l : list A) : l <> [] -> only (choice l).
Proof.
  intros Hl g e g' H. destruct l as [|x l]; [contradiction|]. unfold choice in H. destruct (randbelow_ok (length (x :: l)) g) as (i & g1 & E).
  rewrite (bind_eq_ok _ _ _ _ _ E) in H. apply randbelow_lt in E; [|cbn; lia]. destruct (nth_error (x :: l) i) as [y|] eqn:Ey; [discriminate|].
  apply nth_error_None in Ey. lia.
Qed.

Lemma only_function t nt : only (random_function t nt).
Proof.
  unfold random_function. destruct (filter _ _) as [|f fs]; [apply only_ret|]. apply only_bind; [apply only_choice; discriminate|]. intros x.
  apply only_bind; [|intros n; apply only_ret]. intros g e g' H. unfold function_node, lift in H. destruct (_ && _); congruence.
Qed.

Lemma only_terminal t nt : only (random_terminal t nt).
Proof.
  unfold random_terminal. apply only_bind.
  - destruct (erc_applies t nt) as [e|]; [|apply only_ret]. apply only_bind; [|intros; apply only_ret].
    destruct e as [lo hi|lo hi]; cbn [draw_erc].
    + intros g e g' H. discriminate.
    + apply only_bind; [|intros x g e g' H; discriminate]. unfold randint. destruct (num_to_Z lo), (num_to_Z hi); try apply only_value.
      destruct (_ <? _)%Z; [apply only_value|]. intros g e g' H. discriminate.
  - intros [|x l]; [apply only_ret|]. apply only_bind; [apply only_choice; discriminate|]. intros v. apply only_ret.
Qed.

Lemma terminal_leaf t nt g n g' : random_terminal t nt g = (Ok (Some n), g') -> exists v a, n = TNode v a.
Proof. intros H. apply random_terminal_ok in H as (v & a & -> & _). eauto. Qed.
Lemma function_call t nt g n g' : random_function t nt g = (Ok (Some n), g') -> exists f, n = FNode f.
Proof. intros H. apply random_function_ok in H as (f & -> & _). eauto. Qed.

Lemma only_grow t mn mx p : forall fuel d nt, Nat.max mn mx < d + fuel -> d <= Nat.max mn mx -> only (grow_tree fuel t mn mx p d nt).
Proof.
  induction fuel as [|fuel IH]; intros d nt Hf Hd; [lia|]. cbn [grow_tree]. set (pick := if d <? mn then _ else _).
  assert (Hp : only pick /\ forall g f g', pick g = (Ok (Some (FNode f)), g') -> d < Nat.max mn mx).
  { unfold pick. destruct (Nat.ltb_spec d mn); [split; [apply only_function|intros; lia]|].
    destruct (Nat.leb_spec mx d).
    - split; [apply only_terminal|]. intros g f g' E. apply terminal_leaf in E as (v & a & E). discriminate.
    - split; [|intros; lia]. apply only_bind; [intros g e g' E; discriminate|]. intros u. destruct (nlt u p); [apply only_terminal|apply only_function]. }
  destruct Hp as [Hp1 Hp2]. intros g e g' H. destruct (pick g) as [[n|e1] g1] eqn:E.
  - rewrite (bind_eq_ok _ _ _ _ _ E) in H. destruct n as [[f|v a]|]; [|discriminate|injection H as <- _; reflexivity].
    revert H. apply only_bind; [|intros; apply only_ret]. apply only_mapM. intros a _. apply Hp2 in E. apply IH; lia.
  - rewrite (bind_eq_raise _ _ _ _ _ E) in H. injection H as <- _. exact (Hp1 _ _ _ E).
Qed.

Lemma only_full t mx : forall fuel d nt, mx < d + fuel -> d <= mx -> only (full_tree fuel t mx d nt).
Proof.
  induction fuel as [|fuel IH]; intros d nt Hf Hd; [lia|]. cbn [full_tree]. destruct (Nat.leb_spec mx d).
  - apply only_bind; [apply only_terminal|]. intros [n|]; [apply only_ret|apply only_value].
  - intros g e g' H0. destruct (random_function t nt g) as [[n|e1] g1] eqn:E.
    + rewrite (bind_eq_ok _ _ _ _ _ E) in H0. destruct n as [n|]; [|injection H0 as <- _; reflexivity].
      apply function_call in E as (f & ->). revert H0. apply only_bind; [|intros; apply only_ret]. apply only_mapM. intros a _. apply IH; lia.
    + rewrite (bind_eq_raise _ _ _ _ _ E) in H0. injection H0 as <- _. exact (only_function _ _ _ _ _ E).
Qed.

Lemma only_tree m p t : only (create_tree m p t).
Proof. destruct m; cbn [create_tree]; [apply only_grow; unfold grow_fuel; lia|apply only_full; lia]. Qed.

Lemma iterM_only {A} (f : A -> M unit) (I : world -> Prop) l : 
  (forall o w, In o l -> I w -> match f o w with (Ok _, w') => I w' | (Raise e, _) => e = ValueError end) ->
  forall w e w', I w -> iterM f l w = (Raise e, w') -> e = ValueError.
Proof.
  induction l as [|o l IH]; intros Hf w e w' Hw H; [discriminate|]. cbn [iterM] in H. pose proof (Hf o w (or_introl eq_refl) Hw) as Ho.
  destruct (f o w) as [[u|e1] w1] eqn:E.
  - rewrite (bind_eq_ok _ _ _ _ _ E) in H. eapply IH; eauto. intros; apply Hf; auto. right. assumption.
  - rewrite (bind_eq_raise _ _ _ _ _ E) in H. injection H as <- _. exact Ho.
Qed.

Lemma only_trees m p n h : only (create_trees m p n h).
Proof.
  intros w e w' H. unfold create_trees in H.
  destruct (handle_input_types (g_fset p) (g_terms p) (g_typed p) (g_erc p) (g_root p)) as [tset|e1] eqn:Eh.
  - rewrite (bind_eq_ok _ _ _ _ _ (new_trees p h tset n w Eh)) in H.
    set (w1 := mkWorld _ _ _) in *. set (l := seq (length (w_heap w)) n) in *.
    set (f := fun o => t <- load_tree o ;; l <- liftR (create_tree m p t) ;; put_genome o (GTree (with_nodes t l))) in *.
    destruct (iterM f l w1) as [[u|e1] w2] eqn:E; [rewrite (bind_eq_ok _ _ _ _ _ E) in H; discriminate|].
    rewrite (bind_eq_raise _ _ _ _ _ E) in H. injection H as <- _.
    revert E. apply (iterM_only f (fun w => forall o, In o l -> exists i t, at_ w o = Some i /\ i_genome i = GTree t)).
    + intros o v Ho Hv. destruct (Hv o Ho) as (i & t & Hi & Hg). unfold f. rewrite (bind_eq_ok _ _ _ _ _ (load_tree_at _ _ _ _ Hi Hg)).
      destruct (create_tree m p t (w_rng v)) as [[l0|e0] g'] eqn:Ec.
      * rewrite (bind_eq_ok _ _ _ _ _ (liftR_eq _ _ _ _ Ec)). unfold put_genome. rewrite (modify_at _ _ _ i) by exact Hi.
        intros o' Ho'. destruct (Nat.eq_dec o o') as [<-|Hne]; [do 2 eexists; split; [eapply at_put_same; exact Hi|reflexivity]|].
        rewrite at_put_other by auto. apply (Hv o' Ho').
      * rewrite (bind_eq_raise _ _ _ _ _ (liftR_eq _ _ _ _ Ec)). exact (only_tree _ _ _ _ _ _ Ec).
    + intros o Ho. apply in_seq in Ho. unfold at_, w1. cbn [w_heap].
      rewrite nth_error_app2 by lia. rewrite nth_error_map.
      rewrite nth_error_nth' with (d := 0) by (rewrite seq_length; lia). cbn [option_map].
      exists (VecCreateP.fresh_ind w (new_fitness (KGP (g_bloat p)) h) (g_upd p) (GTree (blank_tree p tset)) (o - length (w_heap w))), (blank_tree p tset).
      split; [|reflexivity]. rewrite seq_nth by lia. reflexivity.
  - assert (e1 = ValueError) as ->.
    { clear -Eh. unfold handle_input_types in Eh. repeat match type of Eh with context [if ?b then _ else _] => destruct b end; congruence. }
    destruct n as [|n]; [discriminate|].
    assert (E : repeatM (S n) (new_tree_individual p h) w = (Raise ValueError, mkWorld (w_heap w) (w_next_id w + 1) (w_rng w))).
    { cbn [repeatM]. apply bind_eq_raise. unfold new_tree_individual. unfold bind at 1. cbn. rewrite Eh. reflexivity. }
    rewrite (bind_eq_raise _ _ _ _ _ E) in H. congruence.
Qed.

Lemma tree_creators c n h w e w' : match c with CVector _ _ _ _ _ => False | CGP _ _ => True | CHalf mn mx _ _ => mx + 1 <> mn end ->
  create_individuals c n h w = (Raise e, w') -> e = ValueError.
Proof.
  destruct c as [len b k fc upd|m p|mn mx grow full]; intros Hc; [destruct Hc|apply only_trees|]. cbn [create_individuals]. unfold create_half.
  destruct (Nat.eqb_spec (mx + 1) mn); [contradiction|]. assert (G : forall (m : M (list oid)), only m -> m w = (Raise e, w') -> e = ValueError) by (intros m H; apply H).
  apply G. clear G. destruct (mx + 1 <? mn).
  - destruct (n <? _); [apply only_value|apply only_trees].
  - destruct (_ =? 0); [apply only_value|]. apply only_bind.
    + apply only_mapM. intros d _. apply only_bind; [apply only_trees|]. intros a. apply only_bind; [apply only_trees|]. intros b. apply only_ret.
    + intros parts. destruct (_ =? 0); [apply only_ret|]. apply only_bind; [apply only_trees|]. intros r. apply only_ret.
Qed.

(** ** Too many points *)

Lemma sure_apply op inds w : present inds w -> nle (Fin 1) (op_prob op) = true ->
  exists w1, gkeep w w1 /\ forall e w2, op_apply op inds w1 = (Raise e, w2) -> apply_operator op inds w = (Raise e, w2).
Proof.
  intros Hp Hpr. unfold apply_operator. destruct (wp_cases (okind_name (op_kind op)) (op_prob op) (op_apply op) inds w Hp) as (u & w1 & H0 & Hu & K & [[Hf _]|[_ E]]).
  - rewrite (unit_le u _ Hu Hpr) in Hf. discriminate.
  - exists w1. split; [exact K|]. intros e w2 He. rewrite E, He. reflexivity.
Qed.

Lemma gkeep_rng w g : gkeep w (mkWorld (w_heap w) (w_next_id w) g).
Proof. intros o i Hi. exists i. auto. Qed.

Lemma too_many_points op k a rest w va : op_kind op = OKPoint k -> nle (Fin 1) (op_prob op) = true -> present rest w -> vec_at w a va ->
  1 <= k -> vsize va <= k -> exists w', apply_operator op (a :: rest) w = (Raise ValueError, w') /\ gkeep w w'.
Proof.
  intros Hk Hpr Hr Ha H1 Hs. assert (Hp : present (a :: rest) w) by (intros o [<-|Ho]; [destruct Ha as (i & Hi & _); eauto|auto]).
  destruct (sure_apply op _ w Hp Hpr) as (w1 & K & E). pose proof (vec_keep _ _ _ _ K Ha) as (i & Hi & Hg).
  exists w1. split; [|exact K]. apply E. unfold op_apply. rewrite Hk. apply bind_eq_raise. unfold kpoint_apply.
  rewrite (bind_eq_ok _ _ _ _ _ (load_vec_at _ _ _ _ Hi Hg)). unfold bind at 1, liftR, xo_points, sample. rewrite seq_length.
  assert (vsize va - 1 <? k = true) as -> by (apply Nat.ltb_lt; lia). destruct w1. reflexivity.
Qed.

Lemma crossover_alone op k a w va : op_kind op = OKPoint k -> nle (Fin 1) (op_prob op) = true -> vec_at w a va -> k < vsize va ->
  exists w', apply_operator op [a] w = (Raise IndexError, w') /\ gkeep w w'.
Proof.
  intros Hk Hpr Ha Hs. assert (Hp : present [a] w) by (intros o [<-|[]]; destruct Ha as (i & Hi & _); eauto).
  destruct (sure_apply op _ w Hp Hpr) as (w1 & K & E). pose proof (vec_keep _ _ _ _ K Ha) as (i & Hi & Hg).
  destruct (xo_points_ok k (vsize va) (w_rng w1)) as (pts & g & Ep); [lia|].
  exists (mkWorld (w_heap w1) (w_next_id w1) g). split; [|etransitivity; [exact K|apply gkeep_rng]]. apply E. unfold op_apply. rewrite Hk. apply bind_eq_raise. unfold kpoint_apply.
  rewrite (bind_eq_ok _ _ _ _ _ (load_vec_at _ _ _ _ Hi Hg)). rewrite (bind_eq_ok _ _ _ _ _ (liftR_eq _ _ _ _ Ep)). reflexivity.
Qed.

Lemma too_many_cells op m n o rest w v : op_kind op = OVecMut m n -> 1 <= op_attempts op -> nle (Fin 1) (op_prob op) = true -> present rest w -> vec_at w o v ->
  match m with MIntOne _ => False | _ => True end -> vsize v < n -> exists w', apply_operator op (o :: rest) w = (Raise ValueError, w') /\ gkeep w w'.
Proof.
  intros Hk Ha Hpr Hr Hv Hm Hs. assert (Hp : present (o :: rest) w) by (intros x [<-|Hx]; [destruct Hv as (i & Hi & _); eauto|auto]).
  destruct (sure_apply op _ w Hp Hpr) as (w1 & K & E). pose proof (vec_keep _ _ _ _ K Hv) as (i & Hi & Hg).
  pose proof (clone_at o w1 i Hi) as Ec. set (w2 := push _ _) in Ec.
  assert (K2 : gkeep w1 w2) by (pose proof (gk_clone o w1) as G; rewrite Ec in G; exact G).
  pose proof (vec_keep _ _ _ _ K2 (ex_intro _ i (conj Hi Hg))) as (i2 & Hi2 & Hg2).
  assert (Ev : vec_attempt m n (o :: rest) w1 = (Raise ValueError, w2)).
  { cbn [vec_attempt]. etransitivity; [exact (bind_eq_ok _ _ _ _ _ Ec)|]. rewrite (bind_eq_ok _ _ _ _ _ (load_vec_at _ _ _ _ Hi2 Hg2)). apply bind_eq_raise.
    unfold liftR. replace (cell_selector m n v (w_rng w2)) with ((Raise ValueError, w_rng w2) : res (list nat) * rng);
      [destruct w2; reflexivity|].
    unfold cell_selector, sample. rewrite seq_length. assert (vsize v <? n = true) as -> by (apply Nat.ltb_lt; lia). destruct m; try contradiction; reflexivity. }
  exists w2. split; [|etransitivity; eauto]. apply E. unfold op_apply. rewrite Hk. unfold vec_apply, failable_apply.
  destruct (op_attempts op) as [|k]; [lia|]. rewrite failable_step, Ev. reflexivity.
Qed.

Lemma trees_only op o rest w v : for_trees op (S (length rest)) -> 1 <= op_attempts op -> nle (Fin 1) (op_prob op) = true -> present rest w -> vec_at w o v ->
  exists w', apply_operator op (o :: rest) w = (Raise AttributeError, w') /\ gkeep w w'.
Proof.
  intros Hk Ha Hpr Hr Hv. assert (Hp : present (o :: rest) w) by (intros x [<-|Hx]; [destruct Hv as (i & Hi & _); eauto|auto]).
  destruct (sure_apply op _ w Hp Hpr) as (w1 & K & E). pose proof (vec_keep _ _ _ _ K Hv) as (i & Hi & Hg).
  assert (El : load_tree o w1 = (Raise AttributeError, w1)) by (unfold load_tree; rewrite (bind_eq_ok _ _ _ _ _ (load_at _ _ _ Hi)), Hg; reflexivity).
  exists w1. split; [|exact K]. apply E. unfold op_apply, failable_apply. unfold for_trees in Hk. destruct (op_attempts op) as [|n]; [lia|].
  destruct (op_kind op); try contradiction; rewrite failable_step.
  - assert (X : xo_attempt (op_arity op) (o :: rest) w1 = (Raise AttributeError, w1)); [|rewrite X; reflexivity].
    unfold xo_attempt. rewrite Hk. cbn [length]. rewrite Nat.eqb_refl. cbn [negb]. apply bind_eq_raise. unfold pick_subtrees. apply bind_eq_raise. unfold pick_subtree. apply bind_eq_raise. exact El.
  - match goal with |- context [mut_attempt ?a ?b] => assert (X : mut_attempt a b (o :: rest) w1 = (Raise AttributeError, w1)) end; [|rewrite X; reflexivity].
    unfold mut_attempt. apply bind_eq_raise. cbn [mapM]. apply bind_eq_raise. unfold pick_subtree. apply bind_eq_raise. exact El.
  - match goal with |- context [erc_attempt ?a ?b] => assert (X : erc_attempt a b (o :: rest) w1 = (Raise AttributeError, w1)) end; [|rewrite X; reflexivity].
    unfold erc_attempt. apply bind_eq_raise. cbn [mapM]. apply bind_eq_raise. apply bind_eq_raise. exact El.
Qed.

(** ** The multi-objective breeder, and methods called too early *)

Lemma clone_all l : forall w, present l w -> exists os w', mapM clone l w = (Ok os, w') /\ present (os ++ l) w'.
Proof.
  induction l as [|o l IH]; intros w H; [exists [], w; split; [reflexivity|intros x []]|].
  destruct (H o (or_introl eq_refl)) as (i & Hi). pose proof (clone_at o w i Hi) as E. set (w1 := push _ _) in E.
  assert (K : gkeep w w1) by (pose proof (gk_clone o w) as G; rewrite E in G; exact G).
  assert (P1 : present l w1) by (intros x Hx; destruct (H x (or_intror Hx)) as (j & Hj); destruct (K x j Hj) as (j' & Hj' & _); eauto).
  destruct (IH w1 P1) as (os & w2 & E2 & P2). exists (length (w_heap w) :: os), w2. split.
  - cbn [mapM]. rewrite (bind_eq_ok _ _ _ _ _ E). rewrite (bind_eq_ok _ _ _ _ _ E2). reflexivity.
  - assert (K2 : gkeep w1 w2) by (pose proof (st_mapM gkeep clone l (fun x _ => gk_clone x) w1) as G; rewrite E2 in G; exact G).
    assert (K3 : gkeep w w2) by (etransitivity; eauto).
    intros x Hx. cbn [app In] in Hx. destruct Hx as [<-|Hx].
    + destruct (K2 _ _ (at_push_new _ _)) as (j & Hj & _). cbn in Hj. eauto.
    + apply in_app_or in Hx as [Hx|[<-|Hx]]; [apply P2, in_or_app; auto| |apply P2, in_or_app; auto].
      destruct (K3 _ _ Hi) as (j & Hj & _). eauto.
Qed.

Lemma moo_no_selection s w r w' : sp_sels s = [] -> nsga2_breed_subpop s w = (r, w') ->
  exists e, r = Raise e /\ (sp_ops s = [] -> sp_n_elite s = 0 -> present (inds_of s) w -> e = IndexError).
Proof.
  intros Hs H. destruct r as [x|e].
  - exfalso. unfold nsga2_breed_subpop in H. rewrite Hs in H. mb H as u w1 E1. mb H as old w2 E2. mb H as new w3 E3. mb H as v w4 E4. discriminate.
  - exists e. split; [reflexivity|]. intros Ho He Hp. unfold nsga2_breed_subpop in H. rewrite Hs, Ho, He in H. cbn [Nat.ltb Nat.leb] in H.
    unfold bind at 1, ret at 1 in H. destruct (clone_all (inds_of s) w Hp) as (os & w1 & E1 & P1). rewrite (bind_eq_ok _ _ _ _ _ E1) in H.
    assert (E3 : apply_operators [] (inds_of s) w1 = (Ok (inds_of s), w1)) by reflexivity. rewrite (bind_eq_ok _ _ _ _ _ E3) in H. destruct (resets_ok _ _ P1) as (w2 & E2 & _).
    rewrite (bind_eq_ok _ _ _ _ _ E2) in H. unfold raise in H. congruence.
Qed.

Lemma too_early a w : a_best_run a = None ->
  should_terminate (a, w) = (Raise AttributeError, (a, w)) /\ finish (a, w) = (Raise AttributeError, (set_alive false a, w)) /\
  nsga2_finish (a, w) = (Raise AttributeError, (a, w)).
Proof.
  intros H. unfold should_terminate, finish, nsga2_finish, show_best, bind, algo_get, algo_mod, raise. cbn. rewrite H. cbn. rewrite ?H. auto.
Qed.

(** ** Arities, elites and tournaments *)

Lemma arities_checked good x rest n : (forall a, In a good -> a <> 0 /\ Nat.divide a n) ->
  (x = 0 -> check_arities n (good ++ x :: rest) = Raise ZeroDivisionError) /\ (x <> 0 -> ~ Nat.divide x n -> check_arities n (good ++ x :: rest) = Raise ValueError).
Proof.
  induction good as [|a good IH]; intros H; cbn [app check_arities].
  - split; [intros ->; reflexivity|]. intros Hx Hd. destruct (Nat.eqb_spec x 0); [contradiction|]. destruct (Nat.eqb_spec (n mod x) 0) as [E|]; [|reflexivity].
    exfalso. apply Hd. apply Nat.mod_divide; assumption.
  - destruct (H a (or_introl eq_refl)) as [H1 H2]. destruct (Nat.eqb_spec a 0); [contradiction|]. apply Nat.mod_divide in H2; [|exact H1]. rewrite H2. cbn [Nat.eqb].
    apply IH. intros b Hb. apply H. right. exact Hb.
Qed.

Lemma breed_arities s w good x rest : map sel_arity (sp_sels s) ++ map op_arity (sp_ops s) = good ++ x :: rest -> (forall a, In a good -> a <> 0 /\ Nat.divide a (sp_size s)) ->
  (x = 0 -> breed [s] w = (Raise ZeroDivisionError, w)) /\ (x <> 0 -> ~ Nat.divide x (sp_size s) -> breed [s] w = (Raise ValueError, w)).
Proof.
  intros E H. destruct (arities_checked good x rest (sp_size s) H) as [A B]. unfold breed. cbn [mapM]. split; [intros X|intros X Y]; apply bind_eq_raise; unfold breed_subpop; rewrite E.
  - rewrite (A X). reflexivity.
  - rewrite (B X Y). reflexivity.
Qed.

Lemma elites_of_objectives s w l : sp_hib s = HL l -> 0 < sp_n_elite s -> (forall a, In a (map sel_arity (sp_sels s) ++ map op_arity (sp_ops s)) -> a <> 0 /\ Nat.divide a (sp_size s)) ->
  breed [s] w = (Raise TypeError, w).
Proof.
  intros Hh He Ha. unfold breed. cbn [mapM]. apply bind_eq_raise. unfold breed_subpop. assert (C : check_arities (sp_size s) (map sel_arity (sp_sels s) ++ map op_arity (sp_ops s)) = Ok tt).
  { induction (map sel_arity (sp_sels s) ++ map op_arity (sp_ops s)) as [|x ar IH]; [reflexivity|]. cbn [check_arities]. destruct (Ha x (or_introl eq_refl)) as [H1 H2].
    destruct (Nat.eqb_spec x 0); [contradiction|]. apply Nat.mod_divide in H2; [|exact H1]. rewrite H2. apply IH. intros; apply Ha; right; assumption. }
  rewrite C, Hh. destruct (Nat.ltb_spec 0 (sp_n_elite s)); [reflexivity|lia].
Qed.

Lemma tournament_too_large k sar src dest w : length src < k -> select (SelTournament k false sar) src dest w = (Raise ValueError, w).
Proof. intros H. cbn [select]. unfold tournament_select. destruct (Nat.ltb_spec (length src) k); [reflexivity|lia]. Qed.

(** ** The given functions *)

Lemma wrong_arguments us ul usin ucos utan k names f args : In (k, names) parameter_counts -> In (f_name f) names -> length args <> k -> base_sem us ul usin ucos utan f args = Raise TypeError.
Proof.
  intros H1 H2 H3. unfold base_sem.
  destruct H1 as [E|[E|[E|[E|[]]]]]; injection E as <- <-; cbn [In] in H2; repeat (destruct H2 as [H2|H2]; [|]); try (exfalso; exact H2); rewrite <- H2; cbn [lookup base_table String.eqb Ascii.eqb Bool.eqb];
    destruct args as [|? [|? [|? [|? [|? ?]]]]]; cbn [length] in H3; solve [reflexivity|lia].
Qed.
