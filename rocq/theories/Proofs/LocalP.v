(** * What a computation does depends only on the numbers it draws. *)
From Coq Require Import Lia QArith.
From Verif.Model Require Import Num Rng Vector Tree World Creators Evolution.
From Verif.Proofs Require Import Lib.
From Verif.Model Require Import Num Rng Vector Tree World Creators Evolution.
Open Scope nat_scope.
Open Scope list_scope.

Definition stream := Z -> nat -> draw.

Section Local.
  Variables (S : Type) (rg : S -> rng) (sw : S -> stream -> S).

  (** With other numbers where the computation does not look, the same happens. *)
  Definition local {X} (m : SE S X) : Prop := forall s r s', m s = (r, s') ->
    r_py (rg s') = r_py (rg s) /\ r_pyseed (rg s') = r_pyseed (rg s) /\ r_pypos (rg s) <= r_pypos (rg s') /\
    forall h, (forall i, r_pypos (rg s) <= i < r_pypos (rg s') -> h (r_pyseed (rg s)) i = r_py (rg s) (r_pyseed (rg s)) i) ->
      m (sw s h) = (r, sw s' h).

  Lemma local_ret {X} (x : X) : local (ret x).
  Proof. intros s r s' E. injection E as <- <-. repeat split; auto. Qed.
  Lemma local_raise {X} e : @local X (raise e).
  Proof. intros s r s' E. injection E as <- <-. repeat split; auto. Qed.
  Lemma local_lift {X} (x : res X) : local (lift x).
  Proof. intros s r s' E. injection E as <- <-. repeat split; auto. Qed.

  Lemma local_bind {X Y} (m : SE S X) (k : X -> SE S Y) : local m -> (forall x, local (k x)) -> local (x <- m ;; k x).
  Proof.
    intros Hm Hk s r s' E. unfold bind in E. destruct (m s) as [[x|e] s1] eqn:E1.
    - destruct (Hm _ _ _ E1) as (P1 & S1 & L1 & H1). destruct (Hk x _ _ _ E) as (P2 & S2 & L2 & H2).
      split; [congruence|]. split; [congruence|]. split; [lia|]. intros h Hh.
      unfold bind. rewrite (H1 h), (H2 h); [reflexivity| |].
      + intros i Hi. rewrite P1, S1. apply Hh. lia.
      + intros i Hi. apply Hh. lia.
    - injection E as <- <-. destruct (Hm _ _ _ E1) as (P1 & S1 & L1 & H1). repeat split; auto. intros h Hh.
      unfold bind. rewrite (H1 h Hh). reflexivity.
  Qed.

  Lemma local_mapM {X Y} (f : X -> SE S Y) l : (forall x, local (f x)) -> local (mapM f l).
  Proof. intros H. induction l as [|x l IH]; [apply local_ret|]. cbn [mapM]. apply local_bind; [apply H|]. intros y. apply local_bind; [exact IH|]. intros ys. apply local_ret. Qed.
  Lemma local_iterM {X Y} (f : X -> SE S Y) l : (forall x, local (f x)) -> local (iterM f l).
  Proof. intros H. induction l as [|x l IH]; [apply local_ret|]. cbn [iterM]. apply local_bind; [apply H|]. intros y. exact IH. Qed.
  Lemma local_foldM {X Y} (f : Y -> X -> SE S Y) l : (forall y x, local (f y x)) -> forall a, local (foldM f l a).
  Proof. intros H. induction l as [|x l IH]; intros a; [apply local_ret|]. cbn [foldM]. apply local_bind; [apply H|]. intros y. apply IH. Qed.
  Lemma local_repeatM {X} n (m : SE S X) : local m -> local (repeatM n m).
  Proof. intros H. induction n as [|n IH]; [apply local_ret|]. cbn [repeatM]. apply local_bind; [apply H|]. intros y. apply local_bind; [exact IH|]. intros ys. apply local_ret. Qed.
  Lemma local_failable {X} (f : nat -> SE S (bool * X)) z : (forall i, local (f i)) -> local z -> forall n i, local (failable_from f z i n).
  Proof.
    intros Hf Hz n. induction n as [|n IH]; intros i; [exact Hz|]. cbn [failable_from]. apply local_bind; [apply Hf|]. intros [[] x]; cbn [fst snd]; [apply local_ret|apply IH].
  Qed.

  (** A computation which never uses the stream of [t] does not notice what it is. *)
  Variable t : Z.
  Definition blind {X} (m : SE S X) : Prop := forall s r s', m s = (r, s') -> r_pyseed (rg s) <> t ->
    r_pyseed (rg s') <> t /\ r_py (rg s') = r_py (rg s) /\
    forall h, (forall z i, z <> t -> h z i = r_py (rg s) z i) -> m (sw s h) = (r, sw s' h).

  Lemma local_blind {X} (m : SE S X) : local m -> blind m.
  Proof.
    intros H s r s' E N. destruct (H _ _ _ E) as (P & Q & _ & K). split; [congruence|]. split; [exact P|]. intros h Hh. apply K. intros i _. apply Hh. exact N.
  Qed.
  Lemma blind_bind {X Y} (m : SE S X) (k : X -> SE S Y) : blind m -> (forall x, blind (k x)) -> blind (x <- m ;; k x).
  Proof.
    intros Hm Hk s r s' E N. unfold bind in E. destruct (m s) as [[x|e] s1] eqn:E1.
    - destruct (Hm _ _ _ E1 N) as (N1 & P1 & H1). destruct (Hk x _ _ _ E N1) as (N2 & P2 & H2).
      split; [exact N2|]. split; [congruence|]. intros h Hh. unfold bind. rewrite (H1 h Hh), (H2 h); [reflexivity|]. intros z i Hz. rewrite P1. apply Hh. exact Hz.
    - injection E as <- <-. destruct (Hm _ _ _ E1 N) as (N1 & P1 & H1). split; [exact N1|]. split; [exact P1|]. intros h Hh. unfold bind. rewrite (H1 h Hh). reflexivity.
  Qed.
End Local.

Arguments local {S} rg sw {X} m.
Arguments blind {S} rg sw t {X} m.

Definition swr (g : rng) (h : stream) : rng := mkRng h (r_np g) (r_pyseed g) (r_pypos g) (r_npseed g) (r_nppos g).
Definition sww (w : world) (h : stream) : world := mkWorld (w_heap w) (w_next_id w) (swr (w_rng w) h).
Definition swa (s : est) (h : stream) : est := (fst s, sww (snd s) h).

Notation localR := (local (fun g : rng => g) swr).
Notation localM := (local w_rng sww).
Notation localA := (local (fun s : est => w_rng (snd s)) swa).
Notation blindA := (blind (fun s : est => w_rng (snd s)) swa).

Lemma local_draw : localR next_draw.
Proof.
  intros g r g' E. injection E as <- <-. cbn. repeat split; auto. intros h Hh. unfold next_draw, swr. cbn.
  rewrite (Hh (r_pypos g)) by lia. reflexivity.
Qed.
Lemma local_np_draw : localR next_np_draw.
Proof. intros g r g' E. injection E as <- <-. cbn. repeat split; auto. Qed.

Lemma local_liftR {X} (m : R X) : localR m -> localM (liftR m).
Proof.
  intros H w r w' E. unfold liftR in E. destruct (m (w_rng w)) as [r0 g] eqn:E0. injection E as <- <-. destruct (H _ _ _ E0) as (P & Q & L & K).
  cbn [w_rng]. repeat split; auto. intros h Hh. unfold liftR, sww. cbn [w_rng]. rewrite (K h Hh). reflexivity.
Qed.

Lemma local_load o : localM (load o).
Proof.
  intros w r w' E. assert (w' = w) as ->. { unfold load in E. destruct (nth_error _ _); injection E as _ <-; reflexivity. }
  repeat split; auto. intros h _. unfold load in *. cbn [sww w_heap]. destruct (nth_error _ _); injection E as <-; reflexivity.
Qed.
Lemma local_store o i : localM (store o i).
Proof.
  intros w r w' E. unfold store in *. cbn [sww w_heap]. destruct (_ <? _) eqn:El; injection E as <- <-; (repeat split; auto); intros h _; cbn [sww w_heap]; rewrite El; reflexivity.
Qed.
Lemma local_alloc i : localM (alloc i).
Proof. intros w r w' E. injection E as <- <-. repeat split; auto. Qed.
Lemma local_fresh : localM fresh_id.
Proof. intros w r w' E. injection E as <- <-. repeat split; auto. Qed.

Create HintDb loc.
#[export] Hint Resolve local_ret local_raise local_lift local_draw local_np_draw local_load local_store local_alloc local_fresh : loc.

Ltac loc := repeat first
  [ solve [auto 2 with loc nocore]
  | match goal with
    | |- local _ _ (bind _ _) => apply local_bind; [|intros ?]
    | |- local _ _ (mapM _ _) => apply local_mapM; intros ?
    | |- local _ _ (iterM _ _) => apply local_iterM; intros ?
    | |- local _ _ (foldM _ _ _) => apply local_foldM; intros ? ?
    | |- local _ _ (repeatM _ _) => apply local_repeatM
    | |- local _ _ (failable_from _ _ _ _) => apply local_failable; [intros ?|]
    | |- local _ _ (liftR _) => apply local_liftR
    | |- local _ _ (let _ := _ in _) => cbv zeta
    | |- local _ _ (match ?x with _ => _ end) => destruct x
    | |- local _ _ (if ?x then _ else _) => destruct x
    end ].

Lemma local_randbelow n : localR (randbelow n). Proof. unfold randbelow. loc. Qed.
Lemma local_np_randbelow n : localR (np_randbelow n). Proof. unfold np_randbelow. loc. Qed.
Lemma local_unit : localR random_unit. Proof. unfold random_unit. loc. Qed.
#[export] Hint Resolve local_randbelow local_np_randbelow local_unit : loc.
Lemma local_choice {X} (l : list X) : localR (choice l). Proof. unfold choice. loc. Qed.
#[export] Hint Resolve local_choice : loc.
Lemma local_choices {X} (l : list X) k : localR (choices l k). Proof. unfold choices. loc. Qed.
Lemma local_weighted {X} (l : list X) ws : localR (choices_weighted l ws). Proof. unfold choices_weighted. loc. Qed.
Lemma local_pool {X} k : forall l : list X, localR (sample_pool k l). Proof. induction k as [|k IH]; intros l; cbn [sample_pool]; loc. Qed.
#[export] Hint Resolve local_choices local_weighted local_pool : loc.
Lemma local_sample {X} (l : list X) k : localR (sample l k). Proof. unfold sample. loc. Qed.
Lemma local_randint a b : localR (randint a b). Proof. unfold randint. loc. Qed.
Lemma local_uniform a b : localR (uniform a b). Proof. unfold uniform. loc. Qed.
Lemma local_gauss a b : localR (gauss a b). Proof. unfold gauss. loc. Qed.
Lemma local_bool : localR random_bool. Proof. unfold random_bool. loc. Qed.
#[export] Hint Resolve local_sample local_randint local_uniform local_gauss local_bool : loc.
Lemma local_better f n g m : localR (better_than f n g m). Proof. unfold better_than, nsga2_better_than. loc. Qed.
Lemma local_in_bounds v i : localR (get_random_number_in_bounds v i). Proof. unfold get_random_number_in_bounds. loc. Qed.
Lemma local_with_gauss v i a b : localR (get_random_number_with_gauss v i a b). Proof. unfold get_random_number_with_gauss. loc. Qed.
#[export] Hint Resolve local_better local_in_bounds local_with_gauss : loc.
Lemma local_points k n : localR (xo_points k n). Proof. unfold xo_points. loc. Qed.
Lemma local_mut_val m v i : localR (mut_val m v i). Proof. unfold mut_val. loc. Qed.
Lemma local_selector m n v : localR (cell_selector m n v). Proof. unfold cell_selector. loc. Qed.
Lemma local_function t a : localR (random_function t a). Proof. unfold random_function. loc. Qed.
Lemma local_number b x : localR (new_number b x). Proof. unfold new_number. loc. Qed.
#[export] Hint Resolve local_points local_mut_val local_selector local_function local_number : loc.
Lemma local_erc e : localR (draw_erc e). Proof. unfold draw_erc. loc. Qed.
#[export] Hint Resolve local_erc : loc.
Lemma local_terminal t a : localR (random_terminal t a). Proof. unfold random_terminal. loc. Qed.
Lemma local_numeric t : localR (get_random_numeric_node t). Proof. unfold get_random_numeric_node. loc. Qed.
Lemma local_subtree t a : localR (random_subtree t a). Proof. unfold random_subtree. loc. Qed.
#[export] Hint Resolve local_terminal local_numeric local_subtree : loc.
Lemma local_grow fuel t mn mx p : forall d a, localR (grow_tree fuel t mn mx p d a).
Proof. induction fuel as [|fuel IH]; intros d a; cbn [grow_tree]; loc. Qed.
#[export] Hint Resolve local_grow : loc.

Lemma local_modify o f : localM (modify o f). Proof. unfold modify. loc. Qed.
Lemma local_clone o : localM (clone o). Proof. unfold clone. loc. Qed.
#[export] Hint Resolve local_modify local_clone : loc.
Lemma local_unevaluated o : localM (set_fitness_not_evaluated o). Proof. unfold set_fitness_not_evaluated. loc. Qed.
Lemma local_augmented o : localM (augmented o). Proof. unfold augmented. loc. Qed.
Lemma local_pure o : localM (pure_fitness o). Proof. unfold pure_fitness. loc. Qed.
Lemma local_ind_better a b : localM (ind_better_than a b). Proof. unfold ind_better_than. loc. Qed.
Lemma local_load_vec o : localM (load_vec o). Proof. unfold load_vec. loc. Qed.
Lemma local_load_tree o : localM (load_tree o). Proof. unfold load_tree. loc. Qed.
Lemma local_put o g : localM (put_genome o g). Proof. unfold put_genome. loc. Qed.
Lemma local_set_fitness o v : localM (ind_set_fitness o v). Proof. unfold ind_set_fitness. loc. Qed.
#[export] Hint Resolve local_unevaluated local_augmented local_pure local_ind_better local_load_vec local_load_tree local_put local_set_fitness : loc.

(** ** Selection *)
Lemma local_sorted b l : localM (sorted_by_fitness b l). Proof. unfold sorted_by_fitness. loc. Qed.
Lemma local_clone_selected n o : localM (clone_selected n o). Proof. unfold clone_selected. loc. Qed.
Lemma local_winner l : localM (tournament_winner l). Proof. unfold tournament_winner. loc. Qed.
#[export] Hint Resolve local_sorted local_clone_selected local_winner : loc.
Lemma local_elitism n b l d : localM (elitism_select n b l d). Proof. unfold elitism_select. loc. Qed.
Lemma local_select s l d : localM (select s l d). Proof. unfold select, tournament_select, fp_select. loc. Qed.
#[export] Hint Resolve local_elitism local_select : loc.

(** ** Operators *)
Lemma local_kpoint k l : localM (kpoint_apply k l). Proof. unfold kpoint_apply. loc. Qed.
Lemma local_vec_attempt m n l : localM (vec_attempt m n l). Proof. induction l as [|o l IH]; cbn [vec_attempt]; loc. Qed.
Lemma local_record nm l o : localM (record_applied nm l o). Proof. unfold record_applied. loc. Qed.
#[export] Hint Resolve local_kpoint local_vec_attempt local_record : loc.
Lemma local_probability nm p f l : (forall k, localM (f k)) -> localM (with_probability nm p f l). Proof. intros H. unfold with_probability. loc. Qed.
Lemma local_vec_plain m n k l : localM (vec_apply_plain m n k l). Proof. unfold vec_apply_plain, failable_apply. loc. Qed.
#[export] Hint Resolve local_vec_plain : loc.
Lemma local_vec_apply m n k p l : localM (vec_apply m n k p l).
Proof. unfold vec_apply, failable_apply. loc; apply local_probability; intros j; apply local_vec_plain. Qed.
Lemma local_pick a o : localM (pick_subtree a o). Proof. unfold pick_subtree. loc. Qed.
#[export] Hint Resolve local_vec_apply local_pick : loc.
Lemma local_picks l : localM (pick_subtrees l). Proof. unfold pick_subtrees. loc. Qed.
Lemma local_swap_one ss oi : localM (swap_one ss oi). Proof. unfold swap_one. loc. Qed.
#[export] Hint Resolve local_picks local_swap_one : loc.
Lemma local_xo a l : localM (xo_attempt a l). Proof. unfold xo_attempt, swap_subtrees. loc. Qed.
Lemma local_mut_one mn mx oi : localM (mut_one mn mx oi). Proof. unfold mut_one. loc. Qed.
#[export] Hint Resolve local_xo local_mut_one : loc.
Lemma local_mut_attempt mn mx l : localM (mut_attempt mn mx l). Proof. unfold mut_attempt. loc. Qed.
Lemma local_erc_one mu sigma oi : localM (erc_one mu sigma oi). Proof. unfold erc_one. loc. Qed.
#[export] Hint Resolve local_mut_attempt local_erc_one : loc.
Lemma local_erc_attempt mu sigma l : localM (erc_attempt mu sigma l). Proof. unfold erc_attempt. loc. Qed.
#[export] Hint Resolve local_erc_attempt : loc.
Lemma local_op_apply op l : localM (op_apply op l). Proof. unfold op_apply, failable_apply. loc. Qed.
#[export] Hint Resolve local_op_apply : loc.
Lemma local_apply op l : localM (apply_operator op l). Proof. apply local_probability. intros k. apply local_op_apply. Qed.
#[export] Hint Resolve local_apply : loc.

(** ** Breeding and evaluation *)
Lemma local_chunks f a : (forall l, localM (f l)) -> forall fuel l, localM (apply_chunks fuel f a l).
Proof. intros H fuel. induction fuel as [|fuel IH]; intros l; cbn [apply_chunks]; loc. Qed.
Lemma local_operators ops l : localM (apply_operators ops l).
Proof. unfold apply_operators. loc. apply local_chunks. intros k. apply local_apply. Qed.
#[export] Hint Resolve local_operators : loc.
Lemma local_breed pop : localM (breed pop).
Proof. unfold breed, breed_subpop. loc. Qed.

Section Eval.
  Variables (ev : genome -> res fval) (sched : nat -> list nat).
  Lemma local_assign l : forall rs, localM (assign_results l rs).
  Proof. induction l as [|o l IH]; intros [|r rs]; cbn [assign_results]; loc. Qed.
  Hint Resolve local_assign : loc.
  Lemma local_scan l : localM (best_scan l). Proof. unfold best_scan. loc. Qed.
  Hint Resolve local_scan : loc.
  Lemma local_worker o r : localM (worker o r).
  Proof.
    unfold worker. destruct r as [v|e]; [|loc]. intros w r w' E. destruct (ind_set_fitness o v w) as [x w1] eqn:E1. injection E as <- <-.
    destruct (local_set_fitness o v _ _ _ E1) as (P & Q & L & K). repeat split; auto. intros h Hh. rewrite (K h Hh). reflexivity.
  Qed.
  Hint Resolve local_worker : loc.
  Lemma local_evaluate m al pop : localM (evaluate_population ev sched m al pop).
  Proof. unfold evaluate_population, evaluate_inds, run_workers. loc. Qed.
End Eval.

(** ** The algorithm *)
Lemma local_liftM {X} (m : M X) : localM m -> localA (liftM m).
Proof.
  intros H [a w] r [a' w'] E. unfold liftM in E. cbn [fst snd] in *. destruct (m w) as [r0 w1] eqn:E0. injection E as <- <- <-.
  destruct (H _ _ _ E0) as (P & Q & L & K). repeat split; auto. intros h Hh. unfold liftM, swa. cbn [fst snd]. rewrite (K h Hh). reflexivity.
Qed.
Lemma local_get : localA algo_get.
Proof. intros s r s' E. injection E as <- <-. repeat split; auto. Qed.
Lemma local_mod f : localA (algo_mod f).
Proof. intros s r s' E. injection E as <- <-. repeat split; auto. Qed.
Lemma local_publish nm : localA (publish nm).
Proof. intros s r s' E. injection E as <- <-. repeat split; auto. Qed.
#[export] Hint Resolve local_get local_mod local_publish : loc.
Lemma local_act ev sched : localA (act_evaluator ev sched).
Proof. unfold act_evaluator. loc. apply local_liftM, local_evaluate. Qed.
#[export] Hint Resolve local_act : loc.

Lemma local_best s : localM (get_best_individual s). Proof. unfold get_best_individual. loc. Qed.
Lemma local_worst s : localM (get_worst_individual s). Proof. unfold get_worst_individual. loc. Qed.
#[export] Hint Resolve local_best local_worst : loc.
Lemma local_checker pop b g c : localM (run_checker pop b g c).
Proof.
  destruct c as [o th|li st n|f st]; cbn [run_checker]; [loc|loc|]. intros w r w' E.
  assert (H : (forall v, w_heap v = w_heap w -> (w0 <- get ;; r <- lift (f st pop (w_heap w0) b g) ;; ret (fst r, CkUser f (snd r))) v = (r, v)) /\ w' = w).
  { unfold bind, get, lift, ret in *. cbn in *. destruct (f st pop (w_heap w) b g) as [x|e] eqn:Ef; injection E as <- <-; split; auto; intros v ->; rewrite Ef; reflexivity. }
  destruct H as [H ->]. repeat split; auto.
Qed.
#[export] Hint Resolve local_checker : loc.
Lemma local_terminate : localA should_terminate.
Proof. unfold should_terminate. loc. apply local_liftM. unfold run_checkers. loc. Qed.
Lemma local_update g : localA (update_gen g).
Proof. unfold update_gen. loc. apply local_liftM. loc. Qed.
#[export] Hint Resolve local_terminate local_update : loc.
Lemma local_iteration ev sched : localA (generation_iteration ev sched).
Proof.
  unfold generation_iteration. loc; apply local_liftM; loc. apply local_breed.
Qed.

Lemma blind_seed t s : s <> t -> blindA t (seed_generators s).
Proof.
  intros N [a w] r [a' w'] E _. unfold seed_generators, bind, liftM, liftR, set_seed, algo_mod in E. cbn in E. injection E as <- <- <-. cbn.
  repeat split; auto.
Qed.

(** ** Creation *)
Lemma local_full fuel t mx : forall d a, localR (full_tree fuel t mx d a).
Proof. induction fuel as [|fuel IH]; intros d a; cbn [full_tree]; loc. Qed.
#[export] Hint Resolve local_full : loc.
Lemma local_vector len v : localR (create_vector len v). Proof. unfold create_vector. loc. Qed.
#[export] Hint Resolve local_vector : loc.
Lemma local_trees m p n h : localM (create_trees m p n h).
Proof. unfold create_trees, new_tree_individual, create_tree. loc. Qed.
#[export] Hint Resolve local_trees : loc.
Lemma local_create_individuals c n h : localM (create_individuals c n h).
Proof. unfold create_individuals, create_half, create_vectors, new_individual. loc. Qed.
#[export] Hint Resolve local_create_individuals : loc.
Lemma local_create s : localM (create_subpopulation s).
Proof. unfold create_subpopulation. loc. Qed.
