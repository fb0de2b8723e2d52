(** * Subscribers of a run, and what statistics report. *)
From Coq Require Import Lia QArith.
From Verif.Proofs Require Export CompleteP.
From Verif.Model Require Import Tree World Evolution Nsga2 Statistics.
From Verif.Spec Require Export StatSpec.
Open Scope nat_scope.
Open Scope list_scope.

(** ** Steps that keep the history and the executor *)

Definition grows {X} (m : A X) : Prop := forall s, exists t, a_trace (fst (snd (m s))) = a_trace (fst s) ++ t.
Definition lives {X} (m : A X) : Prop := forall s, a_alive (fst (snd (m s))) = a_alive (fst s).

Lemma grows_bind {X Y} (m : A X) (k : X -> A Y) : grows m -> (forall x, grows (k x)) -> grows (x <- m ;; k x).
Proof.
  intros Hm Hk s. unfold bind. destruct (m s) as [[x|e] s1] eqn:E; destruct (Hm s) as (t & Ht); rewrite E in Ht; cbn [fst snd] in Ht.
  - destruct (Hk x s1) as (t' & Ht'). exists (t ++ t'). rewrite Ht', Ht, app_assoc. reflexivity.
  - exists t. exact Ht.
Qed.
Lemma lives_bind {X Y} (m : A X) (k : X -> A Y) : lives m -> (forall x, lives (k x)) -> lives (x <- m ;; k x).
Proof.
  intros Hm Hk s. unfold bind. destruct (m s) as [[x|e] s1] eqn:E; pose proof (Hm s) as H; rewrite E in H; cbn [fst snd] in H.
  - rewrite Hk. exact H.
  - exact H.
Qed.
Lemma grows_same {X} (m : A X) : (forall s, a_trace (fst (snd (m s))) = a_trace (fst s)) -> grows m.
Proof. intros H s. exists []. rewrite app_nil_r. apply H. Qed.
Lemma liftM_algo {X} (m : M X) s : fst (snd (liftM m s)) = fst s.
Proof. unfold liftM. destruct (m (snd s)); reflexivity. Qed.
Lemma grows_liftM {X} (m : M X) : grows (liftM m).
Proof. apply grows_same. intros s. rewrite liftM_algo. reflexivity. Qed.
Lemma lives_liftM {X} (m : M X) : lives (liftM m).
Proof. intros s. rewrite liftM_algo. reflexivity. Qed.
Lemma grows_ret {X} (x : X) : grows (ret x). Proof. apply grows_same. reflexivity. Qed.
Lemma lives_ret {X} (x : X) : lives (ret x). Proof. intros s. reflexivity. Qed.
Lemma grows_raise {X} e : grows (@raise _ X e). Proof. apply grows_same. reflexivity. Qed.
Lemma lives_raise {X} e : lives (@raise _ X e). Proof. intros s. reflexivity. Qed.
Lemma grows_lift {X} (r : res X) : grows (lift r). Proof. apply grows_same. reflexivity. Qed.
Lemma lives_lift {X} (r : res X) : lives (lift r). Proof. intros s. reflexivity. Qed.
Lemma grows_get : grows algo_get. Proof. apply grows_same. reflexivity. Qed.
Lemma lives_get : lives algo_get. Proof. intros s. reflexivity. Qed.
Lemma grows_mod f : (forall a, a_trace (f a) = a_trace a) -> grows (algo_mod f).
Proof. intros H. apply grows_same. intros s. apply H. Qed.
Lemma grows_add e : grows (algo_mod (add_trace e)). Proof. intros s. exists [e]. reflexivity. Qed.
Lemma lives_mod f : (forall a, a_alive (f a) = a_alive a) -> lives (algo_mod f).
Proof. intros H s. apply H. Qed.
Lemma grows_publish n : grows (publish n). Proof. intros s. eexists. reflexivity. Qed.
Lemma lives_publish n : lives (publish n). Proof. intros s. reflexivity. Qed.

Ltac gr := repeat first
  [ apply grows_bind; [|intros ?] | apply grows_liftM | apply grows_ret | apply grows_raise | apply grows_lift | apply grows_get
  | apply grows_add | apply grows_publish | (apply grows_mod; intros; reflexivity)
  | match goal with |- grows (match ?x with _ => _ end) => destruct x end ].
Ltac li := repeat first
  [ apply lives_bind; [|intros ?] | apply lives_liftM | apply lives_ret | apply lives_raise | apply lives_lift | apply lives_get
  | apply lives_publish | (apply lives_mod; intros; reflexivity)
  | match goal with |- lives (match ?x with _ => _ end) => destruct x end ].

Lemma grows_terminate : grows should_terminate. Proof. unfold should_terminate. gr. Qed.
Lemma lives_terminate : lives should_terminate. Proof. unfold should_terminate. li. Qed.
Lemma grows_eval ev sched : grows (act_evaluator ev sched). Proof. unfold act_evaluator. gr. Qed.
Lemma lives_eval ev sched : lives (act_evaluator ev sched). Proof. unfold act_evaluator. li. Qed.
Lemma grows_iteration ev sched : grows (generation_iteration ev sched).
Proof. unfold generation_iteration. gr; apply grows_eval. Qed.
Lemma lives_iteration ev sched : lives (generation_iteration ev sched).
Proof. unfold generation_iteration. li; apply lives_eval. Qed.
Lemma grows_nsga2 ev sched so d : grows (nsga2_generation ev sched so d).
Proof. unfold nsga2_generation. gr; apply grows_eval. Qed.
Lemma lives_nsga2 ev sched so d : lives (nsga2_generation ev sched so d).
Proof. unfold nsga2_generation. li; apply lives_eval. Qed.
Lemma grows_finish : grows finish. Proof. unfold finish, show_best. gr. Qed.
Lemma grows_nsga2_finish : grows nsga2_finish. Proof. unfold nsga2_finish, show_best. gr. Qed.
Lemma grows_seed z : grows (seed_generators z). Proof. unfold seed_generators. gr. Qed.
Lemma lives_seed z : lives (seed_generators z). Proof. unfold seed_generators. li. Qed.
Lemma grows_update g : grows (update_gen g). Proof. unfold update_gen. gr. Qed.
Lemma lives_update g : lives (update_gen g). Proof. unfold update_gen. li. Qed.
Lemma grows_loop it : grows it -> forall todo g, grows (main_loop it todo g).
Proof.
  intros Hi. induction todo as [|todo IH]; intros g; cbn [main_loop]; gr; try exact Hi; try apply grows_seed; try apply grows_update;
    try apply grows_terminate. apply IH.
Qed.
Lemma lives_loop it : lives it -> forall todo g, lives (main_loop it todo g).
Proof.
  intros Hi. induction todo as [|todo IH]; intros g; cbn [main_loop]; li; try exact Hi; try apply lives_seed; try apply lives_update;
    try apply lives_terminate. apply IH.
Qed.

(** ** Statistics only read *)

Lemma steps_load o : steps eq (load o). Proof. intros v. rewrite load_state. reflexivity. Qed.
Lemma steps_pure o : steps eq (pure_fitness o).
Proof. apply (st_bind (@eq world)); [apply steps_load|intros; apply (st_lift (@eq world))]. Qed.
Lemma steps_sorted rev l : steps eq (sorted_by_fitness rev l).
Proof.
  unfold sorted_by_fitness. apply (st_bind (@eq world)).
  - apply (st_mapM (@eq world)). intros o _. apply (st_bind (@eq world)); [apply steps_load|intros; apply (st_lift (@eq world))].
  - intros ks. destruct (keys_comparable ks); [apply (st_ret (@eq world))|apply (st_raise (@eq world))].
Qed.
Lemma steps_best s : steps eq (get_best_individual s).
Proof. unfold get_best_individual. apply (st_bind (@eq world)); [apply (st_lift (@eq world))|]. intros r. apply (st_bind (@eq world)); [apply steps_sorted|intros; apply (st_lift (@eq world))]. Qed.
Lemma steps_worst s : steps eq (get_worst_individual s).
Proof. unfold get_worst_individual. apply (st_bind (@eq world)); [apply steps_sorted|intros; apply (st_lift (@eq world))]. Qed.
Lemma steps_average s : steps eq (get_average_fitness s).
Proof.
  unfold get_average_fitness. apply (st_bind (@eq world)); [apply (st_mapM (@eq world)); intros; apply steps_pure|]. intros vs.
  apply (st_bind (@eq world)); [apply (st_lift (@eq world))|]. intros [|x xs]; [apply (st_ret (@eq world))|apply (st_lift (@eq world))].
Qed.
Lemma steps_size s : steps eq (get_average_size s).
Proof.
  unfold get_average_size. apply (st_bind (@eq world)); [apply (st_mapM (@eq world)); intros; apply (st_bind (@eq world)); [apply steps_load|intros; apply (st_ret (@eq world))]|].
  intros [|x xs]; [apply (st_ret (@eq world))|apply (st_lift (@eq world))].
Qed.
Lemma steps_write b s : steps eq (write_subpopulation b s).
Proof.
  unfold write_subpopulation. apply (st_bind (@eq world)); [apply steps_best|intros x1]. apply (st_bind (@eq world)); [apply steps_pure|intros x2].
  apply (st_bind (@eq world)); [apply steps_worst|intros x3]. apply (st_bind (@eq world)); [apply steps_pure|intros x4].
  apply (st_bind (@eq world)); [apply steps_average|intros x5]. apply (st_bind (@eq world)); [|intros x6; apply (st_ret (@eq world))].
  destruct b; [apply (st_bind (@eq world)); [apply steps_size|intros; apply (st_ret (@eq world))]|apply (st_ret (@eq world))].
Qed.

(** Writing changes nothing but the output, which grows. *)
Definition writes {X} (m : O X) : Prop := forall s out, exists ls, snd (m (s, out)) = (s, out ++ ls).
Lemma writes_bind {X Y} (m : O X) (k : X -> O Y) : writes m -> (forall x, writes (k x)) -> writes (x <- m ;; k x).
Proof.
  intros Hm Hk s out. unfold bind. destruct (Hm s out) as (ls & H). destruct (m (s, out)) as [[x|e] st]; cbn [snd] in H; subst st.
  - destruct (Hk x s (out ++ ls)) as (ls' & H'). exists (ls ++ ls'). rewrite H', app_assoc. reflexivity.
  - exists ls. reflexivity.
Qed.
Lemma writes_ret {X} (x : X) : writes (ret x). Proof. intros s out. exists []. cbn. rewrite app_nil_r. reflexivity. Qed.
Lemma writes_info l : writes (info l). Proof. intros s out. exists [l]. reflexivity. Qed.
Lemma writes_get : writes (liftA algo_get). Proof. intros s out. exists []. cbn. rewrite app_nil_r. reflexivity. Qed.
Lemma writes_liftM {X} (m : M X) : steps eq m -> writes (liftA (liftM m)).
Proof.
  intros H [a w] out. exists []. specialize (H w). unfold liftA, liftM. cbn [fst snd]. destruct (m w) as [r w']. cbn [snd] in H. subst.
  cbn. rewrite app_nil_r. reflexivity.
Qed.
Lemma writes_subpops b : forall pop i, writes (write_subpopulations b i pop).
Proof.
  induction pop as [|s pop IH]; intros i; cbn [write_subpopulations]; [apply writes_ret|].
  apply writes_bind; [apply writes_info|]. intros _. apply writes_bind; [apply writes_liftM, steps_write|]. intros vs.
  apply writes_bind; [apply writes_info|]. intros _. apply IH.
Qed.
Lemma writes_stat k : writes (write_statistics k).
Proof.
  unfold write_statistics. apply writes_bind; [apply writes_get|]. intros a. apply writes_bind; [apply writes_info|]. intros _.
  destruct k; [apply writes_subpops|apply writes_subpops|apply writes_ret].
Qed.

Section Observe.
  Variables (ev : genome -> res fval) (sched : nat -> list nat) (data_of : string -> est -> told) (user : string -> list (told -> O unit))
    (stats : list stat).
  Hypothesis Hread : forall name cb, In cb (user name) -> only_reads cb.

  Lemma registered_in a k : In k (registered stats a) -> In k stats.
  Proof. unfold registered. generalize (a_stats a / length stats). induction n as [|n IH]; cbn; [tauto|]. rewrite in_app_iff. tauto. Qed.

  Lemma iter_writes (l : list (O unit)) (P : exn -> est -> Prop) :
    (forall m, In m l -> writes m /\ forall s out e, fst (m (s, out)) = Raise e -> P e s) ->
    forall s out, exists ls, snd (iterM (fun m => m) l (s, out)) = (s, out ++ ls) /\
      (fst (iterM (fun m => m) l (s, out)) = Ok tt \/ exists e, fst (iterM (fun m => m) l (s, out)) = Raise e /\ P e s).
  Proof.
    induction l as [|m l IH]; intros Hl s out; [exists []; cbn; rewrite app_nil_r; auto|].
    destruct (Hl m (or_introl eq_refl)) as [W R]. destruct (W s out) as (ls & H). specialize (R s out). cbn [iterM]. unfold bind.
    destruct (m (s, out)) as [[x|e] st]; cbn [fst snd] in *; subst st.
    - destruct (IH (fun m' H' => Hl m' (or_intror H')) s (out ++ ls)) as (ls' & H' & D). exists (ls ++ ls'). rewrite H', app_assoc. auto.
    - exists ls. split; [reflexivity|]. right. exists e. auto.
  Qed.

  Lemma iterM_map {S X Y} (f : Y -> SE S unit) (g : X -> Y) l : forall s, iterM f (map g l) s = iterM (fun x => f (g x)) l s.
  Proof. induction l as [|x l IH]; intros s; [reflexivity|]. cbn. unfold bind. destruct (f (g x) s) as [[u|e] s1]; [apply IH|reflexivity]. Qed.

  Lemma call_reads name d s out : exists ls, snd (call_subscribers user stats name d (s, out)) = (s, out ++ ls) /\
    (fst (call_subscribers user stats name d (s, out)) = Ok tt \/
     exists e, fst (call_subscribers user stats name d (s, out)) = Raise e /\ subscriber_raises user stats e s).
  Proof.
    unfold call_subscribers.
    destruct (iter_writes (map (fun cb => cb d) (user name)) (subscriber_raises user stats)) with (s := s) (out := out) as (ls & H & D).
    { intros m Hm. apply in_map_iff in Hm as (cb & <- & Hcb). pose proof (Hread _ _ Hcb) as Hr. split.
      - intros s0 o0. apply Hr.
      - intros s0 o0 e He. left. exists name, cb, d, o0. split; [exact Hcb|exact He]. }
    rewrite iterM_map in H, D. cbv beta in H, D.
    unfold bind. change (iterM (fun x : told -> O unit => x d) (user name) (s, out)) with (iterM (fun cb => cb d) (user name) (s, out)) in H, D.
    destruct (iterM (fun cb => cb d) (user name) (s, out)) as [[u|e] st]; cbn [fst snd] in *; subst st.
    - destruct (String.eqb name "after_generation").
      + change (liftA algo_get (s, out ++ ls)) with (@Ok algo (fst s), (s, out ++ ls)). cbv iota beta.
        destruct (iter_writes (map write_statistics (registered stats (fst s))) (subscriber_raises user stats)) with (s := s) (out := out ++ ls) as (ls' & H' & D').
        { intros m Hm. apply in_map_iff in Hm as (k & <- & Hk). split; [apply writes_stat|]. intros s0 o0 e He. right. exists k, o0.
          split; [eapply registered_in; exact Hk|exact He]. }
        rewrite iterM_map in H', D'. exists (ls ++ ls'). rewrite app_assoc. split; [exact H'|exact D'].
      + exists ls. split; [reflexivity|left; reflexivity].
    - exists ls. split; [reflexivity|]. right. destruct D as [D|(e' & E & D)]; [discriminate|]. injection E as <-. exists e. auto.
  Qed.

  (** The run with subscribers does the same, or a subscriber has raised on the way. *)
  Definition sim {X} (m : A X) (m' : O X) : Prop := forall s out r s' out', m' (s, out) = (r, (s', out')) ->
    (exists ls, out' = out ++ ls) /\
    (m s = (r, s') \/
     exists e, r = Raise e /\ subscriber_raises user stats e s' /\ a_alive (fst s') = a_alive (fst s) /\
       exists t, a_trace (fst (snd (m s))) = a_trace (fst s') ++ t).

  Lemma sim_lift {X} (m : A X) : sim m (liftA m).
  Proof.
    intros s out r s' out' H. unfold liftA in H. cbn [fst snd] in H. destruct (m s) as [r0 s0]. injection H as <- <- <-.
    split; [exists []; rewrite app_nil_r; reflexivity|left; reflexivity].
  Qed.
  Lemma sim_bind {X Y} (m : A X) m' (k : X -> A Y) k' : sim m m' -> lives m -> (forall x, sim (k x) (k' x)) -> (forall x, grows (k x)) ->
    sim (x <- m ;; k x) (x <- m' ;; k' x).
  Proof.
    intros Hm Lm Hk Gk s out r s' out' H. unfold bind in H |- *. destruct (m' (s, out)) as [[x|e] [s1 out1]] eqn:E.
    - destruct (Hm _ _ _ _ _ E) as ((ls & ->) & [Es|(e & D & _)]); [|discriminate].
      destruct (Hk x _ _ _ _ _ H) as ((ls' & ->) & D). split; [exists (ls ++ ls'); rewrite app_assoc; reflexivity|].
      pose proof (Lm s) as Ls. rewrite Es in Ls |- *. cbn [fst snd] in Ls. rewrite <- Ls. exact D.
    - injection H as <- <- <-. destruct (Hm _ _ _ _ _ E) as (L & [Es|(e' & D & R & AL & (t & Ht))]); (split; [exact L|]).
      + left. rewrite Es. reflexivity.
      + right. injection D as <-. exists e. split; [reflexivity|]. split; [exact R|]. split; [exact AL|].
        destruct (m s) as [[x|e0] s0]; cbn [fst snd] in Ht |- *; [|exists t; exact Ht].
        destruct (Gk x s0) as (t' & Ht'). exists (t ++ t'). rewrite Ht', Ht, app_assoc. reflexivity.
  Qed.
  Lemma sim_publish name : sim (publish name) (publish_all data_of user stats name).
  Proof.
    intros s out r s' out' H. unfold publish_all in H. unfold bind, liftA in H. cbn [fst snd] in H.
    destruct (publish name s) as [r0 s1] eqn:E. assert (r0 = Ok tt) as -> by (destruct s; inversion E; reflexivity).
    change (get (s1, out)) with (@Ok (est * list line) (s1, out), (s1, out)) in H. cbv iota beta in H. cbn [fst] in H.
    destruct (call_reads name (data_of name s1) s1 out) as (ls & H1 & D). rewrite H in H1, D. cbn [fst snd] in H1, D. injection H1 as -> ->.
    split; [exists ls; reflexivity|]. destruct D as [->|(e & -> & D)]; [left; reflexivity|].
    right. exists e. split; [reflexivity|]. split; [exact D|]. rewrite ?E. destruct s as [a w]. injection E as <-. split; [reflexivity|].
    exists []. rewrite app_nil_r. reflexivity.
  Qed.

  Lemma sim_loop it : grows it -> lives it -> forall todo g, sim (main_loop it todo g) (main_loop_all data_of user stats it todo g).
  Proof.
    intros Gi Li. induction todo as [|todo IH]; intros g; cbn [main_loop main_loop_all].
    - intros s out r s' out' H. injection H as <- <- <-. split; [exists []; rewrite app_nil_r; reflexivity|left; reflexivity].
    - repeat first [apply sim_bind; [apply sim_lift|li; try apply lives_update; try apply lives_seed; try exact Li; try apply lives_terminate|intros ?|
        intros ?; gr; try apply grows_update; try apply grows_seed; try exact Gi; try apply grows_terminate; try (apply grows_loop; exact Gi)]].
      destruct x5; [apply sim_bind; [apply sim_lift|li|intros _; apply sim_publish|intros _; gr]|].
      apply sim_bind; [apply sim_publish|li|intros _; apply IH|intros _; apply grows_loop; exact Gi].
  Qed.

  Lemma lives_init n : lives (initialize ev sched n).
  Proof. unfold initialize. li; try apply lives_seed; apply lives_eval. Qed.

  Lemma sim_init : sim (initialize ev sched (length stats)) (initialize_all ev sched data_of user stats).
  Proof.
    unfold initialize, initialize_all.
    apply sim_bind; [apply sim_lift|li|intros a|intros a; gr; try apply grows_seed; apply grows_eval].
    apply sim_bind; [apply sim_lift|apply lives_seed|intros _|intros _; gr; apply grows_eval].
    apply sim_bind; [apply sim_lift|li|intros pop|intros pop; gr; apply grows_eval].
    apply sim_bind; [apply sim_lift|li|intros _|intros _; gr; apply grows_eval].
    apply sim_bind; [apply sim_lift|apply lives_eval|intros best|intros best; gr].
    apply sim_bind; [apply sim_lift|li|intros _|intros _; gr].
    apply sim_bind; [apply sim_publish|li|intros _; apply sim_lift|intros _; gr].
  Qed.

  Lemma sim_evolve it fin : grows it -> lives it -> grows fin ->
    sim (evolve_with ev sched it fin (length stats)) (evolve_all_with ev sched data_of user stats it fin).
  Proof.
    intros Gi Li Gf. unfold evolve_with, evolve_all_with.
    apply sim_bind; [apply sim_init|apply lives_init|intros _|intros _; gr; try apply grows_terminate; try (apply grows_loop; exact Gi); exact Gf].
    apply sim_bind; [apply sim_lift|apply lives_terminate|intros st|intros st; gr; try (apply grows_loop; exact Gi); exact Gf].
    apply sim_bind.
    - destruct st.
      + apply sim_bind; [apply sim_lift|li|intros _; apply sim_publish|intros _; gr].
      + apply sim_bind; [apply sim_lift|li|intros a; apply sim_loop; assumption|intros a; apply grows_loop; exact Gi].
    - destruct st; li. apply lives_loop. exact Li.
    - intros _. apply sim_bind; [apply sim_publish|li|intros _; apply sim_lift|intros _; exact Gf].
    - intros _. gr. exact Gf.
  Qed.
End Observe.

Lemma observers ev sched user stats a w out r a' w' out' :
  (forall name cb, In cb (user name) -> only_reads cb) ->
  evolve_all ev sched user stats ((a, w), out) = (r, ((a', w'), out')) ->
  (exists ls, out' = out ++ ls) /\
  (evolve ev sched (length stats) (a, w) = (r, (a', w')) \/
   exists e, r = Raise e /\ subscriber_raises user stats e (a', w') /\ a_alive a' = a_alive a /\
     exists later, a_trace (fst (snd (evolve ev sched (length stats) (a, w)))) = a_trace a' ++ later).
Proof.
  intros Hr H. exact (sim_evolve ev sched _ user stats Hr _ _ (grows_iteration ev sched) (lives_iteration ev sched) grows_finish _ _ _ _ _ H).
Qed.

Lemma observers_moo ev sched so d user stats a w out r a' w' out' :
  (forall name cb, In cb (user name) -> only_reads cb) ->
  nsga2_evolve_all ev sched so d user stats ((a, w), out) = (r, ((a', w'), out')) ->
  (exists ls, out' = out ++ ls) /\
  (nsga2_evolve ev sched so d (length stats) (a, w) = (r, (a', w')) \/
   exists e, r = Raise e /\ subscriber_raises user stats e (a', w') /\ a_alive a' = a_alive a /\
     exists later, a_trace (fst (snd (nsga2_evolve ev sched so d (length stats) (a, w)))) = a_trace a' ++ later).
Proof.
  intros Hr H. exact (sim_evolve ev sched _ user stats Hr _ _ (grows_nsga2 ev sched so d) (lives_nsga2 ev sched so d) grows_nsga2_finish _ _ _ _ _ H).
Qed.

(** ** What statistics report *)

Lemma regen_pure w w' o v : regen w w' -> pure_at w o v -> pure_at w' o v.
Proof. intros R (i & A & E). destruct (R o i A) as (n & B). exists (set_gen n i). auto. Qed.
Lemma regen_scored w w' o x : regen w w' -> scored w o x -> scored w' o x.
Proof. intros R (i & A & E). destruct (R o i A) as (n & B). exists (set_gen n i). auto. Qed.
Lemma regen_unpure w w' o v : regen w w' -> (exists x, scored w o x) -> pure_at w' o v -> pure_at w o v.
Proof.
  intros R (x & i & A & _) (j & B & E). destruct (R o i A) as (n & B'). rewrite B in B'. injection B' as ->. exists i. auto.
Qed.
Lemma regen_unsize w w' o v : regen w w' -> (exists x, scored w o x) -> size_at w' o v -> size_at w o v.
Proof.
  intros R (x & i & A & _) (j & B & E). destruct (R o i A) as (n & B'). rewrite B in B'. injection B' as ->. exists i. auto.
Qed.

Lemma report_regen h w w' g l k ls : regen w w' -> report h w g l k ls -> report h w' g l k ls.
Proof.
  intros R H. assert (K : k = SMinimal \/ k <> SMinimal) by (destruct k; auto; right; discriminate). destruct K as [->|K]; [exact H|].
  assert (exists score b c vb vc avg sizes,
      (forall o, In o l -> scored w o (score o)) /\
      first_best h score l b /\ pure_at w b vb /\
      first_best (negb h) score l c /\ pure_at w c vc /\
      (forall q, (forall o, In o l -> pure_at w o (VNum (Fin (q o)))) -> mean q l avg) /\
      match k with
      | SSizeTree => exists x, sizes = [VNum x] /\
          forall n, (forall o, In o l -> size_at w o (n o)) -> mean (fun o => inject_Z (Z.of_nat (n o))) l x
      | _ => sizes = []
      end /\
      ls = [LGeneration g; LSubpop 0; LValues ([vb; vc; VNum avg] ++ sizes)]) as
    (score & b & c & vb & vc & avg & sizes & S & Fb & Pb & Fc & Pc & M & Z & E) by (destruct k; [exact H|exact H|congruence]).
  assert (H' : exists score b c vb vc avg sizes,
      (forall o, In o l -> scored w' o (score o)) /\
      first_best h score l b /\ pure_at w' b vb /\
      first_best (negb h) score l c /\ pure_at w' c vc /\
      (forall q, (forall o, In o l -> pure_at w' o (VNum (Fin (q o)))) -> mean q l avg) /\
      match k with
      | SSizeTree => exists x, sizes = [VNum x] /\
          forall n, (forall o, In o l -> size_at w' o (n o)) -> mean (fun o => inject_Z (Z.of_nat (n o))) l x
      | _ => sizes = []
      end /\
      ls = [LGeneration g; LSubpop 0; LValues ([vb; vc; VNum avg] ++ sizes)]).
  { exists score, b, c, vb, vc, avg, sizes. split; [intros o Ho; eapply regen_scored; eauto|]. split; [exact Fb|].
    split; [eapply regen_pure; eauto|]. split; [exact Fc|]. split; [eapply regen_pure; eauto|].
    split; [intros q Hq; apply M; intros o Ho; eapply regen_unpure; [exact R|eexists; exact (S o Ho)|apply Hq; exact Ho]|].
    split; [|exact E]. destruct k; try exact Z. destruct Z as (x & Ex & Mx). exists x. split; [exact Ex|]. intros n Hn. apply Mx.
    intros o Ho. eapply regen_unsize; [exact R|eexists; exact (S o Ho)|apply Hn; exact Ho]. }
  destruct k; [exact H'|exact H'|congruence].
Qed.

Lemma reports_regen h w w' stats ps ls : regen w w' -> reports h w stats ps ls -> reports h w' stats ps ls.
Proof.
  intros R. induction 1 as [|g l rest blocks out F H IH]; [constructor|]. constructor; [|exact IH].
  eapply Forall2_imp; [|exact F]. intros k b. apply report_regen. exact R.
Qed.

Lemma reports_app h w stats p q ls ms : reports h w stats p ls -> reports h w stats q ms -> reports h w stats (p ++ q) (ls ++ ms).
Proof.
  induction 1 as [|g l rest blocks out F H IH]; intros K; [exact K|]. cbn [app]. rewrite <- app_assoc. constructor; auto.
Qed.

Lemma first_best_in h score l b : first_best h score l b -> In b l.
Proof. intros (pre & post & -> & _). apply in_elt. Qed.

Lemma average_any s w : (forall o, In o (inds_of s) -> exists x, pure_at w o (VNum x)) ->
  exists avg, get_average_fitness s w = (Ok avg, w).
Proof.
  intros H. set (l := inds_of s) in *.
  assert (E : exists xs, mapM pure_fitness l w = (Ok (map VNum xs), w) /\ length xs = length l).
  { induction l as [|o l IH]; [exists []; split; reflexivity|]. destruct IH as (xs & E & L); [intros; apply H; right; assumption|].
    destruct (H o (or_introl eq_refl)) as (x & i & A & P). exists (x :: xs). cbn [mapM]. rewrite (bind_eq_ok _ _ _ _ _ (pure_value _ _ _ _ A P)).
    rewrite (bind_eq_ok _ _ _ _ _ E). split; [reflexivity|cbn; congruence]. }
  destruct E as (xs & E & L). unfold get_average_fitness. fold l. rewrite (bind_eq_ok _ _ _ _ _ E).
  assert (Er : rmap as_num (map VNum xs) = Ok xs) by (clear; induction xs as [|x xs IH]; simpl; [reflexivity|rewrite IH; reflexivity]).
  rewrite Er. unfold bind, lift. destruct xs as [|x xs]; [eexists; reflexivity|].
  assert (D : forall y n, exists z, ndiv y (nof_nat (S n)) = Ok z).
  { intros y n. unfold ndiv, nof_nat. destruct y; try (eexists; reflexivity); cbn; try (eexists; reflexivity). }
  destruct (D (nsum (x :: xs)) (length xs)) as (z & Ez). exists z. cbn [length]. rewrite Ez. reflexivity.
Qed.

Lemma mean_fin (q : oid -> Q) l : l <> [] -> exists x, ndiv (nsum (map (fun o => Fin (q o)) l)) (nof_nat (length l)) = Ok x /\ mean q l x.
Proof.
  intros Hl. destruct (nsum_fin q l 0) as (t & E & _ & _ & T).
  assert (Z0 : (0 < inject_Z (Z.of_nat (length l)))%Q) by (destruct l; [congruence|]; unfold inject_Z, Qlt; simpl; lia).
  exists (Fin (t / inject_Z (Z.of_nat (length l)))). split.
  - unfold nsum. rewrite E. unfold nof_nat, ndiv. destruct (Qeq_bool _ 0) eqn:Z; [|reflexivity]. apply Qeq_bool_eq in Z.
    exfalso. rewrite Z in Z0. discriminate.
  - eexists. split; [reflexivity|]. rewrite T. field. intros Z. rewrite Z in Z0. discriminate.
Qed.

Lemma size_mean s w : inds_of s <> [] -> present (inds_of s) w -> exists x, get_average_size s w = (Ok x, w) /\
  forall n, (forall o, In o (inds_of s) -> size_at w o (n o)) -> mean (fun o => inject_Z (Z.of_nat (n o))) (inds_of s) x.
Proof.
  intros Hl P. set (l := inds_of s) in *.
  set (n := fun o => match at_ w o with Some i => isize i | None => 0 end).
  assert (E : mapM (fun o => i <- load o ;; ret (isize i)) l w = (Ok (map n l), w)).
  { apply mapM_pure. intros o Ho. destruct (P o Ho) as (i & A). rewrite (bind_eq_ok _ _ _ _ _ (load_at _ _ _ A)). unfold n. rewrite A. reflexivity. }
  destruct (mean_fin (fun o => inject_Z (Z.of_nat (n o))) l Hl) as (x & Ex & Mx). exists x. split.
  - unfold get_average_size. fold l. rewrite (bind_eq_ok _ _ _ _ _ E). 
    assert (D : map n l <> []) by (destruct l; [congruence|discriminate]). destruct (map n l) as [|y ys] eqn:Em; [congruence|]. rewrite <- Em.
    rewrite map_map, map_length. unfold lift. change (fun x0 : oid => nof_nat (n x0)) with (fun o : oid => Fin (inject_Z (Z.of_nat (n o)))).
    rewrite Ex. reflexivity.
  - intros m Hm. destruct Mx as (z & Ez & Mz). exists z. split; [exact Ez|]. rewrite Mz.
    assert (F : forall k, (forall o, In o k -> m o = n o) ->
      fold_right (fun o y => inject_Z (Z.of_nat (n o)) + y)%Q 0%Q k = fold_right (fun o y => inject_Z (Z.of_nat (m o)) + y)%Q 0%Q k).
    { induction k as [|o k IH]; intros Hk; [reflexivity|]. cbn. rewrite (Hk o (or_introl eq_refl)), IH; auto. intros; apply Hk; right; assumption. }
    rewrite F; [reflexivity|]. intros o Ho. destruct (Hm o Ho) as (i & A & S). unfold n. rewrite A. symmetry. exact S.
Qed.

Lemma average_mean s w : inds_of s <> [] -> (forall o, In o (inds_of s) -> exists x, pure_at w o (VNum x)) ->
  exists avg, get_average_fitness s w = (Ok avg, w) /\
    forall q, (forall o, In o (inds_of s) -> pure_at w o (VNum (Fin (q o)))) -> mean q (inds_of s) avg.
Proof.
  intros Hl H. destruct (average_any s w H) as (avg & E). exists avg. split; [exact E|]. intros q Hq.
  destruct (average_fitness s w q Hl Hq) as (a & E' & M & _). rewrite E in E'. injection E' as ->. exists a. auto.
Qed.

(** The lines of one statistics object about one subpopulation. *)
Lemma written ev h s l a w k : gives_numbers ev -> sp_hib s = HB h -> l <> [] -> a_pop a = [with_inds s l] ->
  (forall o, In o l -> scalar_at w h o /\ has_value ev w o) ->
  exists ls, report h w (a_gen_num a) l k ls /\ forall out, write_statistics k ((a, w), out) = (Ok tt, ((a, w), out ++ ls)).
Proof.
  intros Hn Hh Hl Hp Hi.
  assert (Hs : forall o, In o l -> scored w o (score_of w o)) by (intros o Ho; destruct (Hi o Ho); eapply scored_at; eauto).
  assert (Hv : forall o, In o l -> exists x, pure_at w o (VNum x)).
  { intros o Ho. destruct (Hi o Ho) as [_ (i & v & A & E & P)]. destruct (Hn _ _ E) as (x & -> & _). exists x, i. auto. }
  destruct (best_individual (with_inds s l) w h (score_of w) Hh Hl Hs) as (b & Eb & Fb).
  destruct (worst_individual (with_inds s l) w (score_of w) Hl Hs) as (c & Ec & Fc).
  change (inds_of (with_inds s l)) with l in Fb, Fc. change (sp_hib (with_inds s l)) with (sp_hib s) in Fc. rewrite Hh in Fc. cbn [hib_truthy] in Fc.
  destruct (Hv b (first_best_in _ _ _ _ Fb)) as (xb & ib & Ab & Pb). destruct (Hv c (first_best_in _ _ _ _ Fc)) as (xc & ic & Ac & Pc).
  destruct (average_mean (with_inds s l) w Hl Hv) as (avg & Ea & Ma).
  destruct (size_mean (with_inds s l) w Hl) as (x & Ex & Mx).
  { intros o Ho. destruct (Hs o Ho) as (i & A & _). eauto. }
  assert (Ew : forall sz, write_subpopulation sz (with_inds s l) w = (Ok ([VNum xb; VNum xc; VNum avg] ++ (if sz then [VNum x] else [])), w)).
  { intros sz. unfold write_subpopulation. rewrite (bind_eq_ok _ _ _ _ _ Eb), (bind_eq_ok _ _ _ _ _ (pure_value _ _ _ _ Ab Pb)),
      (bind_eq_ok _ _ _ _ _ Ec), (bind_eq_ok _ _ _ _ _ (pure_value _ _ _ _ Ac Pc)), (bind_eq_ok _ _ _ _ _ Ea).
    destruct sz; [|reflexivity]. erewrite bind_eq_ok; [|rewrite (bind_eq_ok _ _ _ _ _ Ex); reflexivity]. reflexivity. }
  assert (Wr : forall sz out, write_subpopulations sz 0 (a_pop a) ((a, w), out) =
     (Ok tt, ((a, w), out ++ [LSubpop 0; LValues ([VNum xb; VNum xc; VNum avg] ++ (if sz then [VNum x] else []))]))).
  { intros sz out. rewrite Hp. cbn [write_subpopulations]. erewrite bind_eq_ok; [|reflexivity].
    erewrite bind_eq_ok; [|unfold liftA, liftM; cbn [fst snd]; rewrite Ew; reflexivity].
    erewrite bind_eq_ok; [|reflexivity]. cbn [fst snd ret]. unfold ret. rewrite <- app_assoc. reflexivity. }
  assert (W : forall sz out, (a0 <- liftA algo_get ;; info (LGeneration (a_gen_num a0)) ;;; write_subpopulations sz 0 (a_pop a0)) ((a, w), out) =
     (Ok tt, ((a, w), out ++ [LGeneration (a_gen_num a); LSubpop 0; LValues ([VNum xb; VNum xc; VNum avg] ++ (if sz then [VNum x] else []))]))).
  { intros sz out. erewrite bind_eq_ok; [|reflexivity]. cbn [fst snd]. erewrite bind_eq_ok; [|reflexivity]. cbn [fst snd]. rewrite Wr, <- app_assoc. reflexivity. }
  destruct k.
  - eexists. split; [|intros out; exact (W false out)]. exists (score_of w), b, c, (VNum xb), (VNum xc), avg, [].
    split; [exact Hs|]. split; [exact Fb|]. split; [exists ib; auto|]. split; [exact Fc|]. split; [exists ic; auto|]. split; [exact Ma|]. split; [reflexivity|reflexivity].
  - eexists. split; [|intros out; exact (W true out)]. exists (score_of w), b, c, (VNum xb), (VNum xc), avg, [VNum x].
    split; [exact Hs|]. split; [exact Fb|]. split; [exists ib; auto|]. split; [exact Fc|]. split; [exists ic; auto|]. split; [exact Ma|]. split; [exists x; auto|reflexivity].
  - eexists. split; [reflexivity|]. intros out. reflexivity.
Qed.

(** ** Reports of a whole run *)

Lemma liftA_bind {X Y} (m : A X) (k : X -> A Y) s : liftA (x <- m ;; k x) s = (x <- liftA m ;; liftA (k x)) s.
Proof. unfold liftA, bind. destruct (m (fst s)) as [[x|e] s1]; reflexivity. Qed.

Lemma liftA_chain {X Y Z} (m : A X) (k : X -> A Y) (f : Y -> O Z) s :
  (y <- liftA (x <- m ;; k x) ;; f y) s = (x <- liftA m ;; y <- liftA (k x) ;; f y) s.
Proof. unfold liftA, bind. destruct (m (fst s)) as [[x|e] s1]; reflexivity. Qed.

Lemma liftA_ok {X} (m : A X) s x s' out : m s = (Ok x, s') -> liftA m (s, out) = (Ok x, (s', out)).
Proof. intros E. unfold liftA. cbn [fst snd]. rewrite E. reflexivity. Qed.

Lemma main_loop_all_body data_of user stats it todo gen s : main_loop_all data_of user stats it (S todo) gen s =
  (stop <- liftA (body it gen) ;;
   if stop then liftA (algo_mod (set_final (Some gen))) ;;; publish_all data_of user stats "after_generation"
   else publish_all data_of user stats "after_generation" ;;; main_loop_all data_of user stats it todo (S gen)) s.
Proof.
  unfold body. cbn [main_loop_all]. rewrite liftA_chain. apply bind_ext. intros _ s1.
  rewrite liftA_chain. apply bind_ext. intros _ s2. rewrite liftA_chain. apply bind_ext. intros a s3.
  rewrite liftA_chain. apply bind_ext. intros _ s4. rewrite liftA_chain. apply bind_ext. intros _ s5.
  rewrite liftA_chain. apply bind_ext. intros _ s6. reflexivity.
Qed.

Lemma regen_rng w g : regen w (mkWorld (w_heap w) (w_next_id w) g).
Proof. intros o i A. exists (i_gen i). rewrite set_gen_same. exact A. Qed.

Section Reports.
  Variables (G : genome -> Prop) (ev : genome -> res fval) (sched : nat -> list nat) (h : bool) (s : subpop).
  Variables (data_of : string -> est -> told) (user : string -> list (told -> O unit)) (stats : list stat).
  Hypothesis (Hnum : gives_numbers ev) (Htot : total_on G ev) (Hfair : fair sched).
  Hypothesis (Hhib : sp_hib s = HB h) (Hsize : 1 <= sp_size s).
  Hypothesis Har : forall n, In n (map sel_arity (sp_sels s) ++ map op_arity (sp_ops s)) -> n <> 0 /\ Nat.divide n (sp_size s).
  Hypothesis Hsel : exists sel sels, sp_sels s = sel :: sels /\ tournament_for (sp_size s) sel.
  Hypothesis Hop : Forall (closed_operator G) (sp_ops s).
  Hypothesis Huser : forall name cb, In cb (user name) -> forall d t, cb d t = (Ok tt, t).

  Notation going := (going G ev h s).

  Lemma body_reports g a w : going a w -> exists st a' w' l', body (generation_iteration ev sched) g (a, w) = (Ok st, (a', w')) /\
    going a' w' /\ regen w w' /\ a_pop a' = [with_inds s l'] /\ evals (a_trace a') = evals (a_trace a) ++ [l'] /\
    a_gen_num a' = g /\ a_stats a' = a_stats a /\ a_final a' = a_final a.
  Proof.
    intros H. destruct (going_body G ev sched h s Hnum Htot Hfair Hhib Hsize Har Hsel Hop g a w H) as (st & a' & w' & E & H').
    destruct (go_pop _ _ _ _ _ _ H) as (l & P1 & P2 & P3 & P4). destruct (go_pop _ _ _ _ _ _ H') as (l' & Q1 & Q2 & Q3 & Q4).
    exists st, a', w', l'. split; [exact E|]. split; [exact H'|].
    apply body_ok in E. destruct E as (w1 & a2 & w2 & R1 & L1 & E2 & E3).
    apply terminate_ok in E3. destruct E3 as (-> & best0 & answers & cs & B0 & _ & -> & _).
    apply iteration_ok in E2. destruct E2 as (pop & v & best & v2 & c & worst & E4 & E5 & E6 & _ & ->).
    cbn [a_pop set_gen_seed add_trace set_gen_num a_method a_alive a_best_run] in E4, E5, E6.
    rewrite P1 in E4.
    assert (Sw : forall o, In o (inds_of (with_inds s l)) -> scalar_at w1 h o).
    { intros o Ho. eapply regen_scalar; [exact R1|]. apply P4. exact Ho. }
    destruct (breed_scalar _ _ _ _ h Sw E4) as (s' & -> & F & N).
    assert (Es : s' = with_inds s l') by (unfold after_breeding in Q1; destruct c; cbn in Q1; injection Q1 as <-; reflexivity).
    subst s'. change (inds_of (with_inds s l')) with l' in N.
    rewrite (go_method _ _ _ _ _ _ H), (go_alive _ _ _ _ _ _ H) in E5.
    destruct (evaluate_ok ev sched l' v h best v2 Hfair Hnum (fun o Ho => proj1 (N o Ho)) E5) as (_ & _ & _ & O2 & _).
    split; [|split; [exact Q1|split; [|split; [|split]]]].
    - transitivity v2.
      + intros o i A. destruct (R1 o i A) as (n & B). exists n.
        assert (Av : at_ v o = Some (set_gen n i)) by (eapply frame_at; eauto).
        assert (No : ~ In o l') by (intros C; apply N in C; apply at_lt in B; unfold oid in *; lia).
        rewrite (O2 o No). exact Av.
      + destruct (a_best_run a) as [r|]; [|destruct E6 as [_ ->]; reflexivity].
        pose proof (g_better regen regen_rng best r v2) as K. rewrite E6 in K. exact K.
    - unfold after_breeding. destruct c; cbn; rewrite !evals_app; cbn; rewrite ?app_nil_r; reflexivity.
    - unfold after_breeding. destruct c; reflexivity.
    - unfold after_breeding. destruct c; reflexivity.
    - unfold after_breeding. destruct c; reflexivity.
  Qed.

  Definition pub (nm : string) (a : algo) (w : world) : algo :=
    add_trace (TPublish nm (a_gen_num a) (a_best_run a) (match a_best_run a with Some o => at_ w o | None => None end)) a.

  Lemma user_quiet cbs : (forall cb, In cb cbs -> forall d t, cb d t = (Ok tt, t)) -> forall d e out, iterM (fun cb : told -> O unit => cb d) cbs (e, out) = (Ok tt, (e, out)).
  Proof.
    induction cbs as [|cb cbs IH]; intros H d e out; [reflexivity|]. cbn [iterM].
    rewrite (bind_eq_ok _ _ _ _ _ (H cb (or_introl eq_refl) d (e, out))). apply IH. intros c Hc. apply H. right. exact Hc.
  Qed.

  Lemma registered_once a : a_stats a = length stats -> registered stats a = stats.
  Proof.
    intros E. unfold registered. rewrite E. destruct stats as [|k ks]; [reflexivity|].
    rewrite Nat.div_same by (cbn; lia). cbn [repeat concat]. apply app_nil_r.
  Qed.

  Lemma publish_other nm a w out : String.eqb nm "after_generation" = false ->
    publish_all data_of user stats nm ((a, w), out) = (Ok tt, ((pub nm a w, w), out)).
  Proof.
    intros E. unfold publish_all. rewrite (bind_eq_ok _ _ _ _ _ (liftA_ok _ _ _ _ out (publish_eq nm a w))).
    erewrite bind_eq_ok; [|reflexivity]. unfold call_subscribers. rewrite E. rewrite (bind_eq_ok _ _ _ _ _ (user_quiet _ (Huser nm) _ _ _)). reflexivity.
  Qed.

  Lemma all_written ks l a w : l <> [] -> a_pop a = [with_inds s l] -> (forall o, In o l -> scalar_at w h o /\ has_value ev w o) ->
    exists blocks, Forall2 (report h w (a_gen_num a) l) ks blocks /\
      forall out, iterM write_statistics ks ((a, w), out) = (Ok tt, ((a, w), out ++ concat blocks)).
  Proof.
    intros Hl Hp Hi. induction ks as [|k ks (blocks & F & E)].
    - exists []. split; [constructor|]. intros out. cbn. rewrite app_nil_r. reflexivity.
    - destruct (written ev h s l a w k Hnum Hhib Hl Hp Hi) as (ls & Rk & Ek). exists (ls :: blocks). split; [constructor; assumption|].
      intros out. cbn [iterM concat]. rewrite (bind_eq_ok _ _ _ _ _ (Ek out)), E, app_assoc. reflexivity.
  Qed.

  Lemma publish_reports l a w : going a w -> a_pop a = [with_inds s l] -> a_stats a = length stats ->
    exists blocks, Forall2 (report h w (a_gen_num a) l) stats blocks /\
      forall out, publish_all data_of user stats "after_generation" ((a, w), out) = (Ok tt, ((pub "after_generation" a w, w), out ++ concat blocks)).
  Proof.
    intros H Hp Hs. destruct (go_pop _ _ _ _ _ _ H) as (l0 & P1 & P2 & P3 & P4).
    assert (l0 = l) by (rewrite Hp in P1; injection P1 as <-; reflexivity). subst l0.
    destruct (all_written stats l (pub "after_generation" a w) w (nonempty s Hsize l P2) Hp P4) as (blocks & F & E).
    exists blocks. split; [exact F|]. intros out. unfold publish_all.
    rewrite (bind_eq_ok _ _ _ _ _ (liftA_ok _ _ _ _ out (publish_eq _ a w))). fold (pub "after_generation" a w).
    erewrite bind_eq_ok; [|reflexivity]. unfold call_subscribers. rewrite (bind_eq_ok _ _ _ _ _ (user_quiet _ (Huser _) _ _ _)). cbn [String.eqb Ascii.eqb Bool.eqb].
    erewrite bind_eq_ok; [|reflexivity]. cbn [fst snd]. rewrite registered_once by exact Hs. apply E.
  Qed.

  Lemma evals_pub nm a w : evals (a_trace (pub nm a w)) = evals (a_trace a).
  Proof. unfold pub. cbn [a_trace add_trace]. rewrite evals_app. apply app_nil_r. Qed.

  Lemma going_pub nm a w : going a w -> going (pub nm a w) w.
  Proof. intros H. destruct (going_publish G ev h s nm a w H) as (a' & E & H'). rewrite publish_eq in E. injection E as <-. exact H'. Qed.

  Lemma loop_reports todo : forall g a w, going a w -> a_stats a = length stats -> g <> 0 -> a_final a <> Some 0 ->
    exists a' w' rest ls, main_loop (generation_iteration ev sched) todo g (a, w) = (Ok tt, (a', w')) /\ going a' w' /\ regen w w' /\
      evals (a_trace a') = evals (a_trace a) ++ rest /\ reports h w' stats (combine (seq g (length rest)) rest) ls /\ a_final a' <> Some 0 /\
      forall out, main_loop_all data_of user stats (generation_iteration ev sched) todo g ((a, w), out) = (Ok tt, ((a', w'), out ++ ls)).
  Proof.
    induction todo as [|todo IH]; intros g a w H Hs Hg Hf.
    { exists a, w, [], []. split; [reflexivity|]. split; [exact H|]. split; [reflexivity|]. split; [symmetry; apply app_nil_r|].
      split; [constructor|]. split; [exact Hf|]. intros out. rewrite app_nil_r. reflexivity. }
    destruct (body_reports g a w H) as (st & a1 & w1 & l' & E1 & H1 & R1 & P1 & V1 & N1 & S1 & F1).
    rewrite Hs in S1.
    setoid_rewrite main_loop_all_body. rewrite main_loop_body, (bind_eq_ok _ _ _ _ _ E1).
    destruct st.
    - assert (H2 : going (set_final (Some g) a1) w1) by (eapply going_skip; [..|apply regen_refl|exact H1]; reflexivity).
      destruct (publish_reports l' (set_final (Some g) a1) w1 H2 P1 S1) as (blocks & F & E2).
      exists (pub "after_generation" (set_final (Some g) a1) w1), w1, [l'], (concat blocks ++ []).
      split; [reflexivity|]. split; [apply going_pub; exact H2|]. split; [exact R1|]. split; [rewrite evals_pub; exact V1|].
      split; [cbn; constructor; [|constructor]; cbn in F; rewrite N1 in F; exact F|]. split; [cbn; congruence|].
      intros out. rewrite (bind_eq_ok _ _ _ _ _ (liftA_ok _ _ _ _ out E1)), app_nil_r.
      erewrite bind_eq_ok; [|apply liftA_ok; reflexivity]. apply E2.
    - destruct (publish_reports l' a1 w1 H1 P1 S1) as (blocks & F & E2).
      destruct (IH (S g) (pub "after_generation" a1 w1) w1 (going_pub _ _ _ H1) S1) as (a3 & w3 & rest & ls & E3 & H3 & R3 & V3 & Rp & Hf3 & E4);
        [discriminate|cbn; congruence|].
      exists a3, w3, (l' :: rest), (concat blocks ++ ls).
      split; [rewrite (bind_eq_ok _ _ _ _ _ (publish_eq _ a1 w1)); exact E3|]. split; [exact H3|].
      split; [etransitivity; eauto|]. split; [rewrite V3, evals_pub, V1, <- app_assoc; reflexivity|].
      split.
      + cbn [length seq combine]. rewrite N1 in F. constructor; [|exact Rp].
        clear -F R3. induction F; constructor; [eapply report_regen; eauto|assumption].
      + split; [exact Hf3|]. intros out. rewrite (bind_eq_ok _ _ _ _ _ (liftA_ok _ _ _ _ out E1)), (bind_eq_ok _ _ _ _ _ (E2 out)), E4, app_assoc. reflexivity.
  Qed.

  Lemma init_quiet e e' out : initialize ev sched (length stats) e = (Ok tt, e') ->
    initialize_all ev sched data_of user stats (e, out) = (Ok tt, (e', out)).
  Proof.
    intros E. unfold initialize in E. unfold initialize_all.
    mb E as a t E1. rewrite (bind_eq_ok _ _ _ _ _ (liftA_ok _ _ _ _ out E1)).
    mb E as x t1 E2. rewrite (bind_eq_ok _ _ _ _ _ (liftA_ok _ _ _ _ out E2)).
    mb E as pop t2 E3. rewrite (bind_eq_ok _ _ _ _ _ (liftA_ok _ _ _ _ out E3)).
    mb E as x1 t3 E4. rewrite (bind_eq_ok _ _ _ _ _ (liftA_ok _ _ _ _ out E4)).
    mb E as best t4 E5. rewrite (bind_eq_ok _ _ _ _ _ (liftA_ok _ _ _ _ out E5)).
    mb E as x2 t5 E6. rewrite (bind_eq_ok _ _ _ _ _ (liftA_ok _ _ _ _ out E6)).
    mb E as x3 t6 E7. destruct t5 as [a5 w5]. rewrite (bind_eq_ok _ _ _ _ _ (publish_other "init" a5 w5 out eq_refl)).
    rewrite publish_eq in E7. injection E7 as <- <-. apply liftA_ok. exact E.
  Qed.
End Reports.

Lemma run_reports G ev sched h s user stats a w : gives_numbers ev -> total_on G ev -> fair sched -> a_trace a = [] -> a_stats a = 0 -> a_final a <> Some 0 ->
  configured h a w s -> closed_under G w s -> (forall g, G g -> printable g) ->
  (forall name cb, In cb (user name) -> forall d t, cb d t = (Ok tt, t)) ->
  exists a' w' first later ls, evolve ev sched (length stats) (a, w) = (Ok tt, (a', w')) /\
    evals (a_trace a') = first :: later /\
    (later = [] /\ reports h w' stats [(a_gen_num a, first)] ls /\ a_final a' = Some 0 \/
     reports h w' stats (combine (seq 1 (length later)) later) ls /\ a_final a' <> Some 0) /\
    forall out, evolve_all ev sched user stats ((a, w), out) = (Ok tt, ((a', w'), out ++ ls)).
Proof.
  intros Hnum Htot Hfair Htr Hst Hfin C K Hpr Huser. pose proof (cf_hib _ _ _ _ C) as Hhib. pose proof (cf_size _ _ _ _ C) as Hsize.
  pose proof (cf_arities _ _ _ _ C) as Har. pose proof (cf_sel _ _ _ _ C) as Hsel. pose proof (proj1 K) as Hop.
  destruct (init_going G ev sched h s (length stats) a w Hnum Htot Hfair Htr C K) as (a1 & w1 & l & Ei & H1 & P1 & V1 & S1 & N1 & F1).
  assert (S1' : a_stats a1 = length stats) by (rewrite S1; unfold add_stats; cbn; rewrite Hst; cbn; lia).
  destruct (going_terminate G ev h s Hnum Hhib Hsize a1 w1 H1) as (st & a2 & E2 & H2).
  destruct (terminate_ok _ _ _ _ _ E2) as (_ & b0 & answers & cs & _ & _ & Ea2 & _).
  assert (P2 : a_pop a2 = [with_inds s l]) by (rewrite Ea2; exact P1).
  assert (S2 : a_stats a2 = length stats) by (rewrite Ea2; exact S1').
  assert (N2 : a_gen_num a2 = a_gen_num a) by (rewrite Ea2; exact N1).
  assert (F2 : a_final a2 <> Some 0) by (rewrite Ea2; cbn; rewrite F1; exact Hfin).
  assert (V2 : evals (a_trace a2) = [l]).
  { rewrite Ea2. cbn [a_trace add_trace set_checkers]. rewrite evals_app, V1. reflexivity. }
  assert (E3 : exists a3 w3 later ls,
     (if st then algo_mod (set_final (Some 0)) ;;; publish "after_generation"
      else a <- algo_get ;; main_loop (generation_iteration ev sched) (a_max_gen a) 1) (a2, w1) = (Ok tt, (a3, w3)) /\
     going G ev h s a3 w3 /\ evals (a_trace a3) = l :: later /\
     (later = [] /\ reports h w3 stats [(a_gen_num a, l)] ls /\ a_final a3 = Some 0 \/
      reports h w3 stats (combine (seq 1 (length later)) later) ls /\ a_final a3 <> Some 0) /\
     forall out, (if st then liftA (algo_mod (set_final (Some 0))) ;;; publish_all simple_data user stats "after_generation"
      else a <- liftA algo_get ;; main_loop_all simple_data user stats (generation_iteration ev sched) (a_max_gen a) 1) ((a2, w1), out) =
      (Ok tt, ((a3, w3), out ++ ls))).
  { destruct st.
    - assert (H3 : going G ev h s (set_final (Some 0) a2) w1) by (eapply going_skip; [..|apply regen_refl|exact H2]; reflexivity).
      destruct (publish_reports G ev h s simple_data user stats Hnum Hhib Hsize Huser l _ w1 H3 P2 S2) as (blocks & F & E).
      exists (pub "after_generation" (set_final (Some 0) a2) w1), w1, [], (concat blocks ++ []).
      split; [reflexivity|]. split; [apply going_pub; exact H3|]. split; [rewrite evals_pub; exact V2|].
      split; [left; split; [reflexivity|split; [|reflexivity]]; constructor; [|constructor]; cbn in F; rewrite N2 in F; exact F|].
      intros out. rewrite app_nil_r. erewrite bind_eq_ok; [|apply liftA_ok; reflexivity]. apply E.
    - destruct (loop_reports G ev sched h s simple_data user stats Hnum Htot Hfair Hhib Hsize Har Hsel Hop Huser (a_max_gen a2) 1 a2 w1 H2 S2 ltac:(discriminate) F2)
        as (a3 & w3 & later & ls & E & H3 & _ & V3 & R3 & F3 & E').
      exists a3, w3, later, ls. split; [exact E|]. split; [exact H3|]. split; [rewrite V3, V2; reflexivity|]. split; [right; split; [exact R3|exact F3]|].
      intros out. exact (E' out). }
  destruct E3 as (a3 & w3 & later & ls & E3 & H3 & V3 & R3 & E3').
  pose proof (going_pub G ev h s "evolution_finished" a3 w3 H3) as H4.
  destruct (go_best _ _ _ _ _ _ H4) as (b' & B & _ & _ & Gb). destruct (Gb b' (or_introl eq_refl)) as (i & A & Gi).
  assert (Ef : finish (pub "evolution_finished" a3 w3, w3) = (Ok tt, (set_alive false (pub "evolution_finished" a3 w3), w3))).
  { unfold finish. erewrite bind_eq_ok; [|reflexivity]. unfold show_best. erewrite bind_eq_ok; [|reflexivity].
    cbn [fst snd a_best_run set_alive]. rewrite B. erewrite bind_eq_ok; [|unfold liftM; cbn [fst snd]; rewrite (load_at _ _ _ A); reflexivity].
    unfold lift. rewrite (show_printable i (Hpr _ Gi)). reflexivity. }
  exists (set_alive false (pub "evolution_finished" a3 w3)), w3, l, later, ls.
  split; [|split; [rewrite <- V3; apply evals_pub|split; [exact R3|]]].
  - unfold evolve, evolve_with. rewrite (bind_eq_ok _ _ _ _ _ Ei), (bind_eq_ok _ _ _ _ _ E2), (bind_eq_ok _ _ _ _ _ E3),
      (bind_eq_ok _ _ _ _ _ (publish_eq _ a3 w3)). exact Ef.
  - intros out. unfold evolve_all, evolve_all_with.
    rewrite (bind_eq_ok _ _ _ _ _ (init_quiet ev sched simple_data user stats Huser _ _ out Ei)), (bind_eq_ok _ _ _ _ _ (liftA_ok _ _ _ _ out E2)),
      (bind_eq_ok _ _ _ _ _ (E3' out)), (bind_eq_ok _ _ _ _ _ (publish_other simple_data user stats Huser "evolution_finished" a3 w3 _ eq_refl)).
    apply liftA_ok. exact Ef.
Qed.
