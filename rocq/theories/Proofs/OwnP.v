(** * A run depends on the numbers of the streams of its own seeds only. *)
From Coq Require Import Lia QArith.
From Verif.Model Require Import Num Rng Vector Tree World Creators Evolution Nsga2.
From Verif.Spec Require Import WorldSpec FitnessSpec SelSpec EvoSpec CompleteSpec LimitSpec EverySpec OwnSpec.
From Verif.Proofs Require Import Lib WorldP RunP StatP TraceP LimitP CompleteP ChanceP.
From Verif.Model Require Import Num Rng Vector Tree World Creators Evolution Nsga2.
Open Scope string_scope.
Open Scope nat_scope.
Open Scope list_scope.
Local Arguments vec_attempt : simpl nomatch.

(** ** The same from related states *)

Definition even {S X} (SR : S -> S -> Prop) (m : SE S X) : Prop := forall s1 s2, SR s1 s2 -> fst (m s1) = fst (m s2) /\ SR (snd (m s1)) (snd (m s2)).

Section Even.
  Context {S : Type} (SR : S -> S -> Prop).
  Lemma even_ret {X} (x : X) : even SR (ret x). Proof. intros s1 s2 H. split; [reflexivity|exact H]. Qed.
  Lemma even_raise {X} e : even SR (@raise S X e). Proof. intros s1 s2 H. split; [reflexivity|exact H]. Qed.
  Lemma even_lift {X} (x : res X) : even SR (lift x). Proof. intros s1 s2 H. split; [reflexivity|exact H]. Qed.
  Lemma even_bind {X Y} (m : SE S X) (k : X -> SE S Y) : even SR m -> (forall x, even SR (k x)) -> even SR (x <- m ;; k x).
  Proof.
    intros Hm Hk s1 s2 H. destruct (Hm s1 s2 H) as [E1 E2]. unfold bind. destruct (m s1) as [[x|e] t1], (m s2) as [[y|e'] t2]; cbn [fst snd] in *; try discriminate.
    - injection E1 as <-. apply Hk. exact E2.
    - injection E1 as <-. split; [reflexivity|exact E2].
  Qed.
  Lemma even_mapM {X Y} (f : X -> SE S Y) l : (forall x, even SR (f x)) -> even SR (mapM f l).
  Proof. intros H. induction l as [|x l IH]; [apply even_ret|]. cbn [mapM]. apply even_bind; [apply H|]. intros y. apply even_bind; [exact IH|]. intros ys. apply even_ret. Qed.
  Lemma even_iterM {X Y} (f : X -> SE S Y) l : (forall x, even SR (f x)) -> even SR (iterM f l).
  Proof. intros H. induction l as [|x l IH]; [apply even_ret|]. cbn [iterM]. apply even_bind; [apply H|]. intros y. exact IH. Qed.
  Lemma even_foldM {X Y} (f : Y -> X -> SE S Y) l : (forall y x, even SR (f y x)) -> forall a, even SR (foldM f l a).
  Proof. intros H. induction l as [|x l IH]; intros a; [apply even_ret|]. cbn [foldM]. apply even_bind; [apply H|]. intros y. apply IH. Qed.
  Lemma even_repeatM {X} n (m : SE S X) : even SR m -> even SR (repeatM n m).
  Proof. intros H. induction n as [|n IH]; [apply even_ret|]. cbn [repeatM]. apply even_bind; [apply H|]. intros y. apply even_bind; [exact IH|]. intros ys. apply even_ret. Qed.
  Lemma even_failable {X} (f : nat -> SE S (bool * X)) z : (forall i, even SR (f i)) -> even SR z -> forall n i, even SR (failable_from f z i n).
  Proof.
    intros Hf Hz n. induction n as [|n IH]; intros i; [exact Hz|]. cbn [failable_from]. apply even_bind; [apply Hf|]. intros [[] x]; cbn [fst snd]; [apply even_ret|apply IH].
  Qed.
End Even.

(** ** Generators which are at the same place of streams with the same numbers *)

Section Own.
  Variable T : Z -> Prop.
  Definition on_par (g1 g2 : rng) : Prop :=
    (r_pyseed g1 = r_pyseed g2 /\ r_pypos g1 = r_pypos g2 /\ r_npseed g1 = r_npseed g2 /\ r_nppos g1 = r_nppos g2) /\
    (forall i, r_py g1 (r_pyseed g1) i = r_py g2 (r_pyseed g1) i) /\ (forall i, r_np g1 (r_npseed g1) i = r_np g2 (r_npseed g1) i) /\
    forall z, T z -> same_stream z g1 g2.
  Definition parW (w1 w2 : world) : Prop := w_heap w1 = w_heap w2 /\ w_next_id w1 = w_next_id w2 /\ on_par (w_rng w1) (w_rng w2).
  Definition parA (s1 s2 : est) : Prop := fst s1 = fst s2 /\ parW (snd s1) (snd s2).
  Local Notation evenR := (even on_par).
  Local Notation evenM := (even parW).

  Lemma even_draw : evenR next_draw.
  Proof.
    intros g1 g2 ((A & B & C & D) & P & N & K). cbn. rewrite A, <- B in *. rewrite <- (P (r_pypos g1)). split; [reflexivity|]. repeat split; cbn; auto; try lia; apply K; auto.
  Qed.
  Lemma even_np_draw : evenR next_np_draw.
  Proof.
    intros g1 g2 ((A & B & C & D) & P & N & K). cbn. rewrite C, <- D in *. rewrite <- (N (r_nppos g1)). split; [reflexivity|]. repeat split; cbn; auto; try lia; apply K; auto.
  Qed.
  Lemma even_liftR {X} (m : R X) : evenR m -> evenM (liftR m).
  Proof.
    intros H w1 w2 (A & B & C). destruct (H _ _ C) as [E1 E2]. unfold liftR. destruct (m (w_rng w1)) as [r1 g1], (m (w_rng w2)) as [r2 g2]. cbn [fst snd] in *.
    split; [exact E1|]. split; [exact A|]. split; [exact B|exact E2].
  Qed.
  Lemma even_load o : evenM (load o).
  Proof. intros w1 w2 H. pose proof H as (A & _). unfold load. rewrite A. destruct (nth_error _ _); split; auto. Qed.
  Lemma even_store o i : evenM (store o i).
  Proof. intros w1 w2 (A & B & C). unfold store. rewrite A. destruct (_ <? _); (split; [reflexivity|]); (split; [cbn; congruence|]); split; auto. Qed.
  Lemma even_alloc i : evenM (alloc i).
  Proof. intros w1 w2 (A & B & C). unfold alloc. cbn. rewrite A. split; [reflexivity|]. split; [reflexivity|]. split; auto. Qed.
  Lemma even_fresh : evenM fresh_id.
  Proof. intros w1 w2 (A & B & C). unfold fresh_id. cbn. rewrite B. split; [reflexivity|]. split; [exact A|]. split; [reflexivity|exact C]. Qed.

  Create HintDb ev.
  Hint Resolve even_ret even_raise even_lift even_draw even_np_draw even_load even_store even_alloc even_fresh : ev.

  Ltac ev_ := repeat first
    [ solve [auto 2 with ev nocore]
    | match goal with
      | |- even _ (bind _ _) => apply even_bind; [|intros ?]
      | |- even _ (mapM _ _) => apply even_mapM; intros ?
      | |- even _ (iterM _ _) => apply even_iterM; intros ?
      | |- even _ (foldM _ _ _) => apply even_foldM; intros ? ?
      | |- even _ (repeatM _ _) => apply even_repeatM
      | |- even _ (failable_from _ _ _ _) => apply even_failable; [intros ?|]
      | |- even _ (liftR _) => apply even_liftR
      | |- even _ (let _ := _ in _) => cbv zeta
      | |- even _ (match ?x with _ => _ end) => destruct x
      | |- even _ (if ?x then _ else _) => destruct x
      end ].

Lemma even_randbelow n : evenR (randbelow n). Proof. unfold randbelow. ev_. Qed.
Lemma even_np_randbelow n : evenR (np_randbelow n). Proof. unfold np_randbelow. ev_. Qed.
Lemma even_unit : evenR random_unit. Proof. unfold random_unit. ev_. Qed.
Hint Resolve even_randbelow even_np_randbelow even_unit : ev.
Lemma even_choice {X} (l : list X) : evenR (choice l). Proof. unfold choice. ev_. Qed.
Hint Resolve even_choice : ev.
Lemma even_choices {X} (l : list X) k : evenR (choices l k). Proof. unfold choices. ev_. Qed.
Lemma even_weighted {X} (l : list X) ws : evenR (choices_weighted l ws). Proof. unfold choices_weighted. ev_. Qed.
Lemma even_pool {X} k : forall l : list X, evenR (sample_pool k l). Proof. induction k as [|k IH]; intros l; cbn [sample_pool]; ev_. Qed.
Hint Resolve even_choices even_weighted even_pool : ev.
Lemma even_sample {X} (l : list X) k : evenR (sample l k). Proof. unfold sample. ev_. Qed.
Lemma even_randint a b : evenR (randint a b). Proof. unfold randint. ev_. Qed.
Lemma even_uniform a b : evenR (uniform a b). Proof. unfold uniform. ev_. Qed.
Lemma even_gauss a b : evenR (gauss a b). Proof. unfold gauss. ev_. Qed.
Lemma even_bool : evenR random_bool. Proof. unfold random_bool. ev_. Qed.
Hint Resolve even_sample even_randint even_uniform even_gauss even_bool : ev.
Lemma even_better f n g m : evenR (better_than f n g m). Proof. unfold better_than, nsga2_better_than. ev_. Qed.
Lemma even_in_bounds v i : evenR (get_random_number_in_bounds v i). Proof. unfold get_random_number_in_bounds. ev_. Qed.
Lemma even_with_gauss v i a b : evenR (get_random_number_with_gauss v i a b). Proof. unfold get_random_number_with_gauss. ev_. Qed.
Hint Resolve even_better even_in_bounds even_with_gauss : ev.
Lemma even_points k n : evenR (xo_points k n). Proof. unfold xo_points. ev_. Qed.
Lemma even_mut_val m v i : evenR (mut_val m v i). Proof. unfold mut_val. ev_. Qed.
Lemma even_selector m n v : evenR (cell_selector m n v). Proof. unfold cell_selector. ev_. Qed.
Lemma even_function t a : evenR (random_function t a). Proof. unfold random_function. ev_. Qed.
Lemma even_number b x : evenR (new_number b x). Proof. unfold new_number. ev_. Qed.
Hint Resolve even_points even_mut_val even_selector even_function even_number : ev.
Lemma even_erc e : evenR (draw_erc e). Proof. unfold draw_erc. ev_. Qed.
Hint Resolve even_erc : ev.
Lemma even_terminal t a : evenR (random_terminal t a). Proof. unfold random_terminal. ev_. Qed.
Lemma even_numeric t : evenR (get_random_numeric_node t). Proof. unfold get_random_numeric_node. ev_. Qed.
Lemma even_subtree t a : evenR (random_subtree t a). Proof. unfold random_subtree. ev_. Qed.
Hint Resolve even_terminal even_numeric even_subtree : ev.
Lemma even_grow fuel t mn mx p : forall d a, evenR (grow_tree fuel t mn mx p d a).
Proof. induction fuel as [|fuel IH]; intros d a; cbn [grow_tree]; ev_. Qed.
Hint Resolve even_grow : ev.

Lemma even_modify o f : evenM (modify o f). Proof. unfold modify. ev_. Qed.
Lemma even_clone o : evenM (clone o). Proof. unfold clone. ev_. Qed.
Hint Resolve even_modify even_clone : ev.
Lemma even_unevaluated o : evenM (set_fitness_not_evaluated o). Proof. unfold set_fitness_not_evaluated. ev_. Qed.
Lemma even_augmented o : evenM (augmented o). Proof. unfold augmented. ev_. Qed.
Lemma even_pure o : evenM (pure_fitness o). Proof. unfold pure_fitness. ev_. Qed.
Lemma even_ind_better a b : evenM (ind_better_than a b). Proof. unfold ind_better_than. ev_. Qed.
Lemma even_load_vec o : evenM (load_vec o). Proof. unfold load_vec. ev_. Qed.
Lemma even_load_tree o : evenM (load_tree o). Proof. unfold load_tree. ev_. Qed.
Lemma even_put o g : evenM (put_genome o g). Proof. unfold put_genome. ev_. Qed.
Lemma even_set_fitness o v : evenM (ind_set_fitness o v). Proof. unfold ind_set_fitness. ev_. Qed.
Hint Resolve even_unevaluated even_augmented even_pure even_ind_better even_load_vec even_load_tree even_put even_set_fitness : ev.

(** ** Selection *)
Lemma even_sorted b l : evenM (sorted_by_fitness b l). Proof. unfold sorted_by_fitness. ev_. Qed.
Lemma even_clone_selected n o : evenM (clone_selected n o). Proof. unfold clone_selected. ev_. Qed.
Lemma even_winner l : evenM (tournament_winner l). Proof. unfold tournament_winner. ev_. Qed.
Hint Resolve even_sorted even_clone_selected even_winner : ev.
Lemma even_elitism n b l d : evenM (elitism_select n b l d). Proof. unfold elitism_select. ev_. Qed.
Lemma even_select s l d : evenM (select s l d). Proof. unfold select, tournament_select, fp_select. ev_. Qed.
Hint Resolve even_elitism even_select : ev.

(** ** Operators *)
Lemma even_kpoint k l : evenM (kpoint_apply k l). Proof. unfold kpoint_apply. ev_. Qed.
Lemma even_vec_attempt m n l : evenM (vec_attempt m n l). Proof. induction l as [|o l IH]; cbn [vec_attempt]; ev_. Qed.
Lemma even_record nm l o : evenM (record_applied nm l o). Proof. unfold record_applied. ev_. Qed.
Hint Resolve even_kpoint even_vec_attempt even_record : ev.
Lemma even_probability nm p f l : (forall k, evenM (f k)) -> evenM (with_probability nm p f l). Proof. intros H. unfold with_probability. ev_. Qed.
Lemma even_vec_plain m n k l : evenM (vec_apply_plain m n k l). Proof. unfold vec_apply_plain, failable_apply. ev_. Qed.
Hint Resolve even_vec_plain : ev.
Lemma even_vec_apply m n k p l : evenM (vec_apply m n k p l).
Proof. unfold vec_apply, failable_apply. ev_; apply even_probability; intros j; apply even_vec_plain. Qed.
Lemma even_pick a o : evenM (pick_subtree a o). Proof. unfold pick_subtree. ev_. Qed.
Hint Resolve even_vec_apply even_pick : ev.
Lemma even_picks l : evenM (pick_subtrees l). Proof. unfold pick_subtrees. ev_. Qed.
Lemma even_swap_one ss oi : evenM (swap_one ss oi). Proof. unfold swap_one. ev_. Qed.
Hint Resolve even_picks even_swap_one : ev.
Lemma even_xo a l : evenM (xo_attempt a l). Proof. unfold xo_attempt, swap_subtrees. ev_. Qed.
Lemma even_mut_one mn mx oi : evenM (mut_one mn mx oi). Proof. unfold mut_one. ev_. Qed.
Hint Resolve even_xo even_mut_one : ev.
Lemma even_mut_attempt mn mx l : evenM (mut_attempt mn mx l). Proof. unfold mut_attempt. ev_. Qed.
Lemma even_erc_one mu sigma oi : evenM (erc_one mu sigma oi). Proof. unfold erc_one. ev_. Qed.
Hint Resolve even_mut_attempt even_erc_one : ev.
Lemma even_erc_attempt mu sigma l : evenM (erc_attempt mu sigma l). Proof. unfold erc_attempt. ev_. Qed.
Hint Resolve even_erc_attempt : ev.
Lemma even_op_apply op l : evenM (op_apply op l). Proof. unfold op_apply, failable_apply. ev_. Qed.
Hint Resolve even_op_apply : ev.
Lemma even_apply op l : evenM (apply_operator op l). Proof. apply even_probability. intros k. apply even_op_apply. Qed.
Hint Resolve even_apply : ev.

(** ** Breeding and evaluation *)
Lemma even_chunks f a : (forall l, evenM (f l)) -> forall fuel l, evenM (apply_chunks fuel f a l).
Proof. intros H fuel. induction fuel as [|fuel IH]; intros l; cbn [apply_chunks]; ev_. Qed.
Lemma even_operators ops l : evenM (apply_operators ops l).
Proof. unfold apply_operators. ev_. apply even_chunks. intros k. apply even_apply. Qed.
Hint Resolve even_operators : ev.
Lemma even_breed pop : evenM (breed pop).
Proof. unfold breed, breed_subpop. ev_. Qed.

Variables (ev : genome -> res fval) (sched : nat -> list nat).
  Lemma even_assign l : forall rs, evenM (assign_results l rs).
  Proof. induction l as [|o l IH]; intros [|r rs]; cbn [assign_results]; ev_. Qed.
  Hint Resolve even_assign : ev.
  Lemma even_scan l : evenM (best_scan l). Proof. unfold best_scan. ev_. Qed.
  Hint Resolve even_scan : ev.
  Lemma even_worker o r : evenM (worker o r).
  Proof.
    unfold worker. destruct r as [v|e]; [|ev_]. intros w1 w2 H. destruct (even_set_fitness o v w1 w2 H) as [E1 E2].
    destruct (ind_set_fitness o v w1) as [x1 u1], (ind_set_fitness o v w2) as [x2 u2]. cbn [fst snd] in *. subst. split; [reflexivity|exact E2].
  Qed.
  Hint Resolve even_worker : ev.
  Lemma even_evaluate m al pop : evenM (evaluate_population ev sched m al pop).
  Proof. unfold evaluate_population, evaluate_inds, run_workers. ev_. Qed.

Lemma even_best s : evenM (get_best_individual s). Proof. unfold get_best_individual. ev_. Qed.
Lemma even_worst s : evenM (get_worst_individual s). Proof. unfold get_worst_individual. ev_. Qed.
Hint Resolve even_best even_worst : ev.

Lemma even_full fuel t mx : forall d a, evenR (full_tree fuel t mx d a).
Proof. induction fuel as [|fuel IH]; intros d a; cbn [full_tree]; ev_. Qed.
Hint Resolve even_full : ev.
Lemma even_vector len v : evenR (create_vector len v). Proof. unfold create_vector. ev_. Qed.
Hint Resolve even_vector : ev.
Lemma even_trees m p n h : evenM (create_trees m p n h).
Proof. unfold create_trees, new_tree_individual, create_tree. ev_. Qed.
Hint Resolve even_trees : ev.
Lemma even_create_individuals c n h : evenM (create_individuals c n h).
Proof. unfold create_individuals, create_half, create_vectors, new_individual. ev_. Qed.
Hint Resolve even_create_individuals : ev.
Lemma even_create s : evenM (create_subpopulation s).
Proof. unfold create_subpopulation. ev_. Qed.

  Lemma even_checker pop b g c : evenM (run_checker pop b g c).
  Proof.
    destruct c as [o th|li st n|f st]; cbn [run_checker]; [ev_|ev_|]. intros w1 w2 H. pose proof H as (A & _). unfold bind, get, lift, ret. cbn. rewrite A.
    destruct (f st pop (w_heap w2) b g) as [x|e]; split; auto.
  Qed.
  Hint Resolve even_checker : ev.

  (** ** The algorithm, up to seeding with a seed outside [T] *)
  Hypothesis T_dec : forall z, {T z} + {~ T z}.
  Definition apart (s1 s2 : est) : Prop := exists p z t1 t2, ~ T z /\ a_trace (fst s1) = p ++ TSeed z :: t1 /\ a_trace (fst s2) = p ++ TSeed z :: t2.
  Definition own_from {X} (P : est -> est -> Prop) (m : A X) : Prop :=
    grows m /\ forall s1 s2, P s1 s2 -> (fst (m s1) = fst (m s2) /\ parA (snd (m s1)) (snd (m s2))) \/ apart (snd (m s1)) (snd (m s2)).
  Local Notation own := (own_from parA).

  Lemma apart_grows s1 s2 t1 t2 : apart s1 s2 -> (exists t, a_trace (fst t1) = a_trace (fst s1) ++ t) -> (exists t, a_trace (fst t2) = a_trace (fst s2) ++ t) -> apart t1 t2.
  Proof.
    intros (p & z & x & y & N & E1 & E2) (u & Hu) (v & Hv). exists p, z, (x ++ u), (y ++ v). rewrite Hu, Hv, E1, E2, <- !app_assoc. auto.
  Qed.
  Lemma grows_after {X Y} (m : A X) (k : X -> A Y) s : (forall x, grows (k x)) -> exists t, a_trace (fst (snd ((x <- m ;; k x) s))) = a_trace (fst (snd (m s))) ++ t.
  Proof. intros Hk. unfold bind. destruct (m s) as [[x|e] s1]; [apply Hk|exists []; rewrite app_nil_r; reflexivity]. Qed.

  Lemma own_bind_from {X Y} P (m : A X) (k : X -> A Y) : own_from P m -> (forall x, own (k x)) -> own_from P (x <- m ;; k x).
  Proof.
    intros [Gm Hm] Hk. assert (Gk : forall x, grows (k x)) by (intros x; apply Hk). split; [apply grows_bind; assumption|]. intros s1 s2 H.
    destruct (Hm s1 s2 H) as [[A B]|D].
    - unfold bind. destruct (m s1) as [[x|e] t1], (m s2) as [[y|e'] t2]; cbn [fst snd] in *; try discriminate; injection A as <-; [apply Hk; exact B|left; auto].
    - right. apply (apart_grows _ _ _ _ D); apply grows_after; exact Gk.
  Qed.
  Lemma own_bind {X Y} (m : A X) (k : X -> A Y) : own m -> (forall x, own (k x)) -> own (x <- m ;; k x).
  Proof. apply own_bind_from. Qed.
  Lemma own_ret {X} (x : X) : own (ret x). Proof. split; [apply grows_ret|]. intros s1 s2 H. left. split; [reflexivity|exact H]. Qed.
  Lemma own_raise {X} e : own (@raise _ X e). Proof. split; [apply grows_raise|]. intros s1 s2 H. left. split; [reflexivity|exact H]. Qed.
  Lemma own_lift {X} (r : res X) : own (lift r). Proof. split; [apply grows_lift|]. intros s1 s2 H. left. split; [reflexivity|exact H]. Qed.
  Lemma own_get : own algo_get. Proof. split; [apply grows_get|]. intros s1 s2 H. left. split; [cbn; f_equal; apply H|exact H]. Qed.
  Lemma own_mod f : grows (algo_mod f) -> own (algo_mod f).
  Proof. intros G. split; [exact G|]. intros [a1 w1] [a2 w2] [E H]. left. cbn in *. subst. split; [reflexivity|]. split; auto. Qed.
  Lemma own_liftM {X} (m : M X) : evenM m -> own (liftM m).
  Proof.
    intros H. split; [apply grows_liftM|]. intros [a1 w1] [a2 w2] [E P]. left. cbn [fst snd] in *. subst. destruct (H _ _ P) as [E1 E2]. unfold liftM. cbn [fst snd].
    destruct (m w1) as [r1 u1], (m w2) as [r2 u2]. cbn [fst snd] in *. split; [exact E1|]. split; auto.
  Qed.
  Lemma own_publish nm : own (publish nm).
  Proof.
    split; [apply grows_publish|]. intros [a1 w1] [a2 w2] [E P]. left. pose proof P as (A & _). unfold publish. cbn [fst snd] in *. subst a2. rewrite A. split; [reflexivity|]. split; [reflexivity|exact P].
  Qed.

  (** Seeding puts the generators at the same place again, wherever they were. *)
  Definition preA (s1 s2 : est) : Prop := fst s1 = fst s2 /\ same_objects (snd s1) (snd s2) /\ forall x, T x -> same_stream x (w_rng (snd s1)) (w_rng (snd s2)).
  Lemma own_seed_from z : own_from preA (seed_generators z).
  Proof.
    split; [apply grows_seed|]. intros [a1 w1] [a2 w2] (E & (Hh & Hi) & K). cbn [fst snd] in *. subst a2. unfold seed_generators, bind, liftM, liftR, set_seed, algo_mod. cbn.
    destruct (T_dec z) as [Hz|Hz]; [left|right].
    - split; [reflexivity|]. split; [reflexivity|]. split; [exact Hh|]. split; [exact Hi|]. cbn. destruct (K z Hz) as [K1 K2]. repeat split; auto; apply K; auto.
    - exists (a_trace a1), z, [], []. auto.
  Qed.
  Lemma own_seed z : own (seed_generators z).
  Proof.
    split; [apply grows_seed|]. intros s1 s2 [E (Hh & Hi & _ & _ & _ & K)]. apply own_seed_from. repeat split; auto; apply K; auto.
  Qed.

  Hint Resolve own_ret own_raise own_lift own_get own_publish own_seed : ev.
  Ltac ow := repeat first
    [ solve [auto 2 with ev nocore]
    | match goal with
      | |- own_from _ (bind _ _) => apply own_bind; [|intros ?]
      | |- own_from _ (liftM _) => apply own_liftM
      | |- own_from _ (algo_mod _) => apply own_mod; solve [gr]
      | |- own_from _ (match ?x with _ => _ end) => destruct x
      | |- own_from _ (if ?x then _ else _) => destruct x
      end ].

  Lemma own_act : own (act_evaluator ev sched). Proof. unfold act_evaluator. ow. apply even_evaluate. Qed.
  Hint Resolve own_act : ev.
  Lemma own_terminate : own should_terminate.
  Proof. unfold should_terminate. ow. unfold run_checkers. ev_. Qed.
  Lemma own_update g : own (update_gen g).
  Proof. unfold update_gen. ow. ev_. Qed.
  Hint Resolve own_terminate own_update : ev.
  Lemma own_iteration : own (generation_iteration ev sched).
  Proof. unfold generation_iteration. ow; try (ev_; fail). apply even_breed. Qed.
  Lemma own_loop it : own it -> forall todo g, own (main_loop it todo g).
  Proof. intros Hi. induction todo as [|todo IH]; intros g; cbn [main_loop]; ow; auto. Qed.
  Lemma own_finish : own finish. Proof. unfold finish, show_best. ow. Qed.

  Lemma even_nsga2_select so l n : evenM (nsga2_select so l n).
  Proof. intros w1 w2 (A & B & C). unfold nsga2_select. rewrite A, B. destruct (sort_select _ _ _ _ _ _) as [r st]. split; [reflexivity|]. split; [reflexivity|]. split; [reflexivity|exact C]. Qed.
  Hint Resolve even_nsga2_select : ev.
  Lemma own_nsga2 so d : own (nsga2_generation ev sched so d).
  Proof.
    unfold nsga2_generation. ow.
    - destruct d; [apply even_mapM; intros s; unfold nsga2_breed_subpop; ev_|apply even_breed].
    - unfold select_for_population. ev_.
  Qed.
  Lemma own_nsga2_finish : own nsga2_finish. Proof. unfold nsga2_finish, show_best. ow. Qed.

  Lemma own_init n : own_from preA (initialize ev sched n).
  Proof.
    unfold initialize. assert (H : forall a, own_from preA (seed_generators (a_random_seed a) ;;; pop <- liftM (mapM create_subpopulation (a_pop a)) ;;
      algo_mod (set_pop pop) ;;; best <- act_evaluator ev sched ;; algo_mod (set_best_run (Some best)) ;;; publish "init" ;;; algo_mod (add_stats n))).
    { intros a. apply own_bind_from; [apply own_seed_from|]. intros _. ow. apply even_mapM. intros s. apply even_create. }
    split; [gr; try apply grows_seed; try apply grows_eval|]. intros [a1 w1] [a2 w2] P. pose proof P as [E _]. cbn in E. subst a2. exact (proj2 (H a1) _ _ P).
  Qed.

  Lemma own_run it fin n : own it -> own fin -> own_from preA (evolve_with ev sched it fin n).
  Proof.
    intros Hi Hf. unfold evolve_with. apply own_bind_from; [apply own_init|]. intros _. ow; auto. apply own_loop. exact Hi.
  Qed.
End Own.

Lemma seeds_in z tr : In z (seeds tr) <-> In (TSeed z) tr.
Proof.
  unfold seeds. rewrite in_flat_map. split.
  - intros (e & He & Hz). destruct e; cbn in Hz; try contradiction. destruct Hz as [->|[]]. exact He.
  - intros H. exists (TSeed z). split; [exact H|left; reflexivity].
Qed.

Lemma same_until ev sched n a w1 w2 zs : same_objects w1 w2 -> (forall z, In z zs -> same_stream z (w_rng w1) (w_rng w2)) ->
  let r1 := evolve ev sched n (a, w1) in let r2 := evolve ev sched n (a, w2) in
  (fst r1 = fst r2 /\ fst (snd r1) = fst (snd r2) /\ same_objects (snd (snd r1)) (snd (snd r2))) \/
  exists common z rest1 rest2, ~ In z zs /\ a_trace (fst (snd r1)) = common ++ TSeed z :: rest1 /\ a_trace (fst (snd r2)) = common ++ TSeed z :: rest2.
Proof.
  intros Ho Hs. cbv zeta. destruct (proj2 (own_run (fun z => In z zs) ev sched (fun z => in_dec Z.eq_dec z zs) (generation_iteration ev sched) finish n
    (own_iteration _ ev sched) (own_finish _)) (a, w1) (a, w2)) as [(A & B & C & D & _)|D].
  - split; [reflexivity|]. split; [exact Ho|exact Hs].
  - left. split; [exact A|]. split; [exact B|]. split; [exact C|exact D].
  - right. exact D.
Qed.

Lemma own_streams ev sched n a w1 w2 r a' w1' : evolve ev sched n (a, w1) = (r, (a', w1')) -> same_objects w1 w2 ->
  (forall z, In z (seeds (a_trace a')) -> same_stream z (w_rng w1) (w_rng w2)) ->
  exists w2', evolve ev sched n (a, w2) = (r, (a', w2')) /\ same_objects w1' w2'.
Proof.
  intros E Ho Hs. destruct (same_until ev sched n a w1 w2 _ Ho Hs) as [(A & B & C)|(p & z & t1 & t2 & N & E1 & _)]; rewrite E in *; cbn [fst snd] in *.
  - destruct (evolve ev sched n (a, w2)) as [r2 [a2 w2']]. cbn [fst snd] in *. subst. exists w2'. auto.
  - exfalso. apply N. apply seeds_in. rewrite E1. apply in_app_iff. right. left. reflexivity.
Qed.

Lemma same_until_moo ev sched so d n a w1 w2 zs : same_objects w1 w2 -> (forall z, In z zs -> same_stream z (w_rng w1) (w_rng w2)) ->
  let r1 := nsga2_evolve ev sched so d n (a, w1) in let r2 := nsga2_evolve ev sched so d n (a, w2) in
  (fst r1 = fst r2 /\ fst (snd r1) = fst (snd r2) /\ same_objects (snd (snd r1)) (snd (snd r2))) \/
  exists common z rest1 rest2, ~ In z zs /\ a_trace (fst (snd r1)) = common ++ TSeed z :: rest1 /\ a_trace (fst (snd r2)) = common ++ TSeed z :: rest2.
Proof.
  intros Ho Hs. cbv zeta. destruct (proj2 (own_run (fun z => In z zs) ev sched (fun z => in_dec Z.eq_dec z zs) (nsga2_generation ev sched so d) nsga2_finish n
    (own_nsga2 _ ev sched so d) (own_nsga2_finish _)) (a, w1) (a, w2)) as [(A & B & C & D & _)|D].
  - split; [reflexivity|]. split; [exact Ho|exact Hs].
  - left. split; [exact A|]. split; [exact B|]. split; [exact C|exact D].
  - right. exact D.
Qed.

Lemma own_streams_moo ev sched so d n a w1 w2 r a' w1' : nsga2_evolve ev sched so d n (a, w1) = (r, (a', w1')) -> same_objects w1 w2 ->
  (forall z, In z (seeds (a_trace a')) -> same_stream z (w_rng w1) (w_rng w2)) ->
  exists w2', nsga2_evolve ev sched so d n (a, w2) = (r, (a', w2')) /\ same_objects w1' w2'.
Proof.
  intros E Ho Hs. destruct (same_until_moo ev sched so d n a w1 w2 _ Ho Hs) as [(A & B & C)|(p & z & t1 & t2 & N & E1 & _)]; rewrite E in *; cbn [fst snd] in *.
  - destruct (nsga2_evolve ev sched so d n (a, w2)) as [r2 [a2 w2']]. cbn [fst snd] in *. subst. exists w2'. auto.
  - exfalso. apply N. apply seeds_in. rewrite E1. apply in_app_iff. right. left. reflexivity.
Qed.

(** Which seeds these are. *)
Lemma own_seeds ev sched n a w a' w' z : a_trace a = [] -> evolve ev sched n (a, w) = (Ok tt, (a', w')) -> In z (seeds (a_trace a')) ->
  z = a_random_seed a \/ exists k, 1 <= k <= a_max_gen a /\ z = ((a_gen_seed a + Z.of_nat k) mod 2 ^ 32)%Z.
Proof.
  intros Ht E H. destruct (evolve_well_run ev sched n a w a' w' Ht E) as (k & b & pre & c & Hk & _ & _ & _ & Hs & _). rewrite Hs in H.
  destruct H as [<-|H]; [left; reflexivity|right]. apply in_map_iff in H. destruct H as (j & <- & Hj). apply in_seq in Hj. exists j. split; [lia|reflexivity].
Qed.

(** ** The past of a run does not depend on the numbers of its future *)

Lemma evals_kinds tr : length (evals tr) = length (filter (fun k => match k with Eval => true | _ => false end) (map kind_of tr)).
Proof. unfold evals. induction tr as [|e tr IH]; [reflexivity|]. cbn [flat_map map filter]. rewrite app_length, IH. destruct e; reflexivity. Qed.
Lemma doings_kinds tr : length (doings tr) = length (filter (fun k => match k with Seed | Eval | Breed => true | _ => false end) (map kind_of tr)).
Proof. unfold doings. induction tr as [|e tr IH]; [reflexivity|]. cbn [map filter]. destruct e; cbn [does kind_of length]; rewrite IH; reflexivity. Qed.
Lemma rounds_count (p : kind -> bool) k : length (filter p (concat (repeat generation_events k))) = k * length (filter p generation_events).
Proof. induction k as [|k IH]; [reflexivity|]. cbn [repeat concat]. rewrite filter_app, app_length, IH. reflexivity. Qed.

Lemma well_counts a tr final : well_run a tr final -> exists k, k <= a_max_gen a /\ length (evals tr) = S k /\ length (doings tr) = 2 + 3 * k /\
  seeds tr = a_random_seed a :: map (fun g => ((a_gen_seed a + Z.of_nat g) mod 2 ^ 32)%Z) (seq 1 k).
Proof.
  intros (k & st & pre & c & Hk & H0 & Hm & _ & Hs & _). exists k. split; [exact Hk|]. rewrite evals_kinds, doings_kinds, Hm.
  destruct st; [rewrite (H0 eq_refl) in *; repeat split; exact Hs|]. rewrite !filter_app, !app_length, !rounds_count. cbn. split; [lia|]. split; [lia|exact Hs].
Qed.

Lemma limited_self a : limited (a_max_gen a) (a_checkers a) a = a.
Proof. destruct a. reflexivity. Qed.

Lemma doings_evals tr : evals tr = evals (doings tr).
Proof. unfold evals, doings. induction tr as [|e tr IH]; [reflexivity|]. cbn [filter]. destruct e; cbn [does flat_map]; rewrite IH; reflexivity. Qed.

Section Past.
  Variables (G : genome -> Prop) (ev : genome -> res fval) (sched : nat -> list nat) (h : bool) (s : subpop) (n : nat) (a : algo).
  Hypotheses (Hnum : gives_numbers ev) (Htot : total_on G ev) (Hfair : fair sched) (Htr : a_trace a = []) (Pr : forall g, G g -> printable g).

  Lemma limited_configured w m : configured h a w s -> configured h (limited m [] a) w s.
  Proof. intros [? ? ? ? ? ? ? ? ?]. constructor; auto. constructor. Qed.

  Lemma past w a1 w1 j l : configured h a w s -> closed_under G w s -> evolve ev sched n (a, w) = (Ok tt, (a1, w1)) -> nth_error (evals (a_trace a1)) j = Some l ->
    exists b v, evolve ev sched n (limited j [] a, w) = (Ok tt, (b, v)) /\ seeds (a_trace b) = a_random_seed a :: map (seed_at a) (seq 1 j) /\
      nth_error (evals (a_trace b)) j = Some l /\ forall o, In o l -> exists i g, at_ v o = Some i /\ at_ w1 o = Some (set_gen g i).
  Proof.
    intros C K E Hj. destruct (run_completes G ev sched h s n (limited j [] a) w Hnum Htot Hfair Htr (limited_configured w j C) K Pr) as (b & v & Eb & Gb).
    exists b, v. split; [exact Eb|]. pose proof (evolve_well_run _ _ _ _ _ _ _ Htr E) as W1. pose proof (evolve_well_run _ _ _ (limited j [] a) _ _ _ Htr Eb) as W2.
    destruct (well_counts _ _ _ W1) as (k1 & L1 & V1 & D1 & S1). destruct (well_counts _ _ _ W2) as (k2 & L2 & V2 & D2 & S2).
    assert (k2 = j).
    { destruct W2 as (k & st & pre & c & Hk & _ & _ & _ & Hs & Hc & _ & Hl & _ & _ & Hn). rewrite Hs in S2. injection S2 as S2. apply (f_equal (@length Z)) in S2. rewrite !map_length, !seq_length in S2. subst k2.
      destruct Hn as [Hn _]; [|exact Hn]. intros T. assert (length c = 0) by (apply (Hl c); rewrite Hc; apply in_app_iff; right; left; reflexivity). destruct c; [exact T|discriminate]. }
    subst k2. split; [exact S2|]. assert (Lj : j <= k1) by (apply Nat.lt_succ_r; rewrite <- V1; apply nth_error_Some; congruence).
    assert (E' := E). rewrite <- (limited_self a) in E'.
    destruct (limits_only ev sched n a w j [] (a_max_gen a) (a_checkers a) (b, v) (a1, w1) Htr Eb E') as [(more & Hm & _) _]; [cbn [fst]; lia|]. cbn [fst] in Hm.
    assert (Hl : nth_error (evals (a_trace b)) j = Some l).
    { rewrite doings_evals in Hj. rewrite Hm in Hj. unfold evals in Hj at 1. rewrite flat_map_app in Hj. fold (evals (doings (a_trace b))) in Hj. rewrite <- doings_evals in Hj.
      rewrite nth_error_app1 in Hj by lia. exact Hj. }
    split; [exact Hl|]. intros o Ho. destruct (Gb l (nth_error_In _ _ Hl)) as [_ Gl]. destruct (Gl o Ho) as (i & Hi & _).
    destruct (longer_better ev sched n a w j [] (a_max_gen a) (a_checkers a) b v a1 w1 h Hnum Hfair Htr (cf_method _ _ _ _ C) (configured_scalar h a w s C) Eb E') as [R _]; [lia|].
    destruct (R o i Hi) as (g & Hg). exists i, g. auto.
  Qed.

  Lemma the_past w1 w2 a1 w1' a2 w2' k : configured h a w1 s -> closed_under G w1 s -> same_objects w1 w2 ->
    (forall z, z = a_random_seed a \/ (exists j, 1 <= j <= k /\ z = seed_at a j) -> same_stream z (w_rng w1) (w_rng w2)) ->
    evolve ev sched n (a, w1) = (Ok tt, (a1, w1')) -> evolve ev sched n (a, w2) = (Ok tt, (a2, w2')) ->
    forall j, j <= k -> nth_error (evals (a_trace a1)) j = nth_error (evals (a_trace a2)) j /\
      forall l o, nth_error (evals (a_trace a1)) j = Some l -> In o l -> exists g, genome_now w1' o = Some g /\ genome_now w2' o = Some g.
  Proof.
    intros C1 K1 Ho Hs E1 E2. destruct Ho as [Hh Hi].
    assert (C2 : configured h a w2 s).
    { assert (w2 = mkWorld (w_heap w1) (w_next_id w1) (w_rng w2)) as -> by (destruct w2; cbn in *; congruence). apply (configured_rng h a w1 s (w_rng w2)), C1. }
    assert (K2 : closed_under G w2 s).
    { assert (w2 = mkWorld (w_heap w1) (w_next_id w1) (w_rng w2)) as -> by (destruct w2; cbn in *; congruence). exact K1. }
    pose proof (evolve_well_run _ _ _ _ _ _ _ Htr E1) as W1. pose proof (evolve_well_run _ _ _ _ _ _ _ Htr E2) as W2.
    destruct (well_counts _ _ _ W1) as (k1 & L1 & V1 & D1 & S1). destruct (well_counts _ _ _ W2) as (k2 & L2 & V2 & D2 & S2).
    assert (Both : forall j l1 l2, j <= k -> nth_error (evals (a_trace a1)) j = Some l1 -> nth_error (evals (a_trace a2)) j = Some l2 ->
      l1 = l2 /\ forall o, In o l1 -> exists g, genome_now w1' o = Some g /\ genome_now w2' o = Some g).
    { intros j l1 l2 Lj H1 H2. destruct (past w1 a1 w1' j l1 C1 K1 E1 H1) as (b & v & Eb & Sb & Hb & Rb). destruct (past w2 a2 w2' j l2 C2 K2 E2 H2) as (b' & v' & Eb' & Sb' & Hb' & Rb').
      destruct (own_streams ev sched n (limited j [] a) w1 w2 _ _ _ Eb (conj Hh Hi)) as (v2 & Ev2 & Hv & _).
      { intros z Hz. apply Hs. rewrite Sb in Hz. destruct Hz as [<-|Hz]; [left; reflexivity|right]. apply in_map_iff in Hz. destruct Hz as (x & <- & Hx). apply in_seq in Hx. exists x. split; [lia|reflexivity]. }
      rewrite Eb' in Ev2. injection Ev2 as -> ->. rewrite Hb in Hb'. injection Hb' as ->. split; [reflexivity|]. intros o Hin.
      destruct (Rb o Hin) as (i & g & Ho1 & Ho2). destruct (Rb' o Hin) as (i' & g' & Ho1' & Ho2'). assert (i' = i) as -> by (unfold at_ in *; rewrite Hv in Ho1; congruence).
      exists (i_genome i). unfold genome_now. rewrite Ho2, Ho2'. auto. }
    assert (Far : (k1 = k2 /\ evals (a_trace a1) = evals (a_trace a2)) \/ (k < k1 /\ k < k2)).
    { set (zs := a_random_seed a :: map (seed_at a) (seq 1 k)).
      assert (Hzs : forall z, In z zs -> same_stream z (w_rng w1) (w_rng w2)).
      { intros z [<-|Hz]; apply Hs; [left; reflexivity|right]. apply in_map_iff in Hz. destruct Hz as (x & <- & Hx). apply in_seq in Hx. exists x. split; [lia|reflexivity]. }
      destruct (same_until ev sched n a w1 w2 zs (conj Hh Hi) Hzs) as [(_ & A & _)|(p & z & t1 & t2 & N & T1 & T2)]; rewrite E1, E2 in *; cbn [fst snd] in *.
      - left. subst a2. rewrite V1 in V2. split; [congruence|reflexivity].
      - right. assert (Q : forall kk tr t, tr = p ++ TSeed z :: t -> seeds tr = a_random_seed a :: map (fun g => ((a_gen_seed a + Z.of_nat g) mod 2 ^ 32)%Z) (seq 1 kk) -> k < kk).
        { intros kk tr t -> Hq. rewrite seeds_app in Hq. cbn [seeds flat_map] in Hq. assert (Hz : nth_error (a_random_seed a :: map (seed_at a) (seq 1 kk)) (length (seeds p)) = Some z).
          { change (map (seed_at a) (seq 1 kk)) with (map (fun g => ((a_gen_seed a + Z.of_nat g) mod 2 ^ 32)%Z) (seq 1 kk)). rewrite <- Hq. rewrite nth_error_app2, Nat.sub_diag by lia. reflexivity. }
          destruct (length (seeds p)) as [|c]; [injection Hz as <-; exfalso; apply N; left; reflexivity|]. cbn [nth_error] in Hz.
          rewrite nth_error_map in Hz. destruct (nth_error (seq 1 kk) c) as [x|] eqn:Ex; [|discriminate]. injection Hz as <-.
          assert (Lc : c < kk) by (rewrite <- (seq_length kk 1); apply nth_error_Some; congruence). assert (x = S c) as ->.
          { apply (nth_error_nth _ _ 0) in Ex. rewrite seq_nth in Ex by exact Lc. lia. }
          destruct (le_lt_dec kk k) as [L|L]; [|exact L]. exfalso. apply N. right. apply in_map. apply in_seq. lia. }
        split; [apply (Q k1 _ _ T1 S1)|apply (Q k2 _ _ T2 S2)]. }
    intros j Lj. assert (Eq : nth_error (evals (a_trace a1)) j = nth_error (evals (a_trace a2)) j).
    { destruct Far as [[_ Ee]|[F1 F2]]; [rewrite Ee; reflexivity|].
      destruct (nth_error (evals (a_trace a1)) j) as [l1|] eqn:X1; [|apply nth_error_None in X1; lia]. destruct (nth_error (evals (a_trace a2)) j) as [l2|] eqn:X2; [|apply nth_error_None in X2; lia].
      destruct (Both j l1 l2 Lj X1 X2) as [-> _]. reflexivity. }
    split; [exact Eq|]. intros l o Hl Hin. apply (proj2 (Both j l l Lj Hl ltac:(rewrite <- Eq; exact Hl)) o Hin).
  Qed.
End Past.
