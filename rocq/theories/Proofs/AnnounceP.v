(** * What the listeners of an algorithm are told (C85). *)
From Coq Require Import Lia Permutation.
From Verif.Model Require Import Base World Evolution Nsga2 Statistics.
From Verif.Spec Require Import WorldSpec EvoSpec Nsga2Spec AnnounceSpec.
From Verif.Proofs Require Import Lib WorldP RunP StatP Nsga2P.
From Verif.Model Require Import Base World Evolution Nsga2 Statistics.
Open Scope nat_scope.
Open Scope string_scope.
Open Scope list_scope.

(** ** Steps that publish nothing *)

Definition unpublished (e : tev) : Prop := forall name, kind_of e <> Publish name.
Definition mum {X} (m : A X) : Prop := forall s, exists t, a_trace (fst (snd (m s))) = a_trace (fst s) ++ t /\ Forall unpublished t.

Lemma mum_bind {X Y} (m : A X) (k : X -> A Y) : mum m -> (forall x, mum (k x)) -> mum (x <- m ;; k x).
Proof.
  intros Hm Hk s. unfold bind. destruct (m s) as [[x|e] s1] eqn:E; destruct (Hm s) as (t & Ht & F); rewrite E in Ht; cbn [fst snd] in Ht.
  - destruct (Hk x s1) as (t' & Ht' & F'). exists (t ++ t'). rewrite Ht', Ht, app_assoc. split; [reflexivity|]. apply Forall_app. auto.
  - exists t. auto.
Qed.
Lemma mum_same {X} (m : A X) : (forall s, a_trace (fst (snd (m s))) = a_trace (fst s)) -> mum m.
Proof. intros H s. exists []. rewrite app_nil_r. split; [apply H|constructor]. Qed.
Lemma mum_liftM {X} (m : M X) : mum (liftM m).
Proof. apply mum_same. intros s. rewrite liftM_algo. reflexivity. Qed.
Lemma mum_ret {X} (x : X) : mum (ret x). Proof. apply mum_same. reflexivity. Qed.
Lemma mum_raise {X} e : mum (@raise _ X e). Proof. apply mum_same. reflexivity. Qed.
Lemma mum_lift {X} (r : res X) : mum (lift r). Proof. apply mum_same. reflexivity. Qed.
Lemma mum_get : mum algo_get. Proof. apply mum_same. reflexivity. Qed.
Lemma mum_mod f : (forall a, a_trace (f a) = a_trace a) -> mum (algo_mod f).
Proof. intros H. apply mum_same. intros s. apply H. Qed.
Lemma mum_add e : unpublished e -> mum (algo_mod (add_trace e)).
Proof. intros H s. exists [e]. split; [reflexivity|]. constructor; [exact H|constructor]. Qed.

Ltac mu := repeat first
  [ apply mum_bind; [|intros ?] | apply mum_liftM | apply mum_ret | apply mum_raise | apply mum_lift | apply mum_get
  | (apply mum_add; intros ?; discriminate) | (apply mum_mod; intros; reflexivity)
  | match goal with |- mum (match ?x with _ => _ end) => destruct x end
  | match goal with |- mum (if ?x then _ else _) => destruct x end ].

Lemma mum_terminate : mum should_terminate. Proof. unfold should_terminate. mu. Qed.
Lemma mum_eval ev sched : mum (act_evaluator ev sched). Proof. unfold act_evaluator. mu. Qed.
Lemma mum_iteration ev sched : mum (generation_iteration ev sched).
Proof. unfold generation_iteration. mu; apply mum_eval. Qed.
Lemma mum_nsga2 ev sched so d : mum (nsga2_generation ev sched so d).
Proof. unfold nsga2_generation. mu; apply mum_eval. Qed.
Lemma mum_finish : mum finish. Proof. unfold finish, show_best. mu. Qed.
Lemma mum_nsga2_finish : mum nsga2_finish. Proof. unfold nsga2_finish, show_best. mu. Qed.
Lemma mum_seed z : mum (seed_generators z). Proof. unfold seed_generators. mu. Qed.
Lemma mum_update g : mum (update_gen g). Proof. unfold update_gen. mu. Qed.
Lemma mum_body it g : mum it -> mum (body it g).
Proof. intros H. unfold body. mu; first [apply mum_update|apply mum_seed|exact H|apply mum_terminate]. Qed.

(** ** Statistics announce nothing *)

Definition mute {X} (m : O X) : Prop := forall s out, exists ls, snd (m (s, out)) = (s, out ++ ls) /\ heard ls = [].
Lemma heard_app l l' : heard (l ++ l') = heard l ++ heard l'. Proof. apply flat_map_app. Qed.
Lemma mute_bind {X Y} (m : O X) (k : X -> O Y) : mute m -> (forall x, mute (k x)) -> mute (x <- m ;; k x).
Proof.
  intros Hm Hk s out. unfold bind. destruct (Hm s out) as (ls & H & N). destruct (m (s, out)) as [[x|e] st]; cbn [snd] in H; subst st.
  - destruct (Hk x s (out ++ ls)) as (ls' & H' & N'). exists (ls ++ ls'). rewrite H', app_assoc, heard_app, N, N'. auto.
  - exists ls. auto.
Qed.
Lemma mute_ret {X} (x : X) : mute (ret x). Proof. intros s out. exists []. cbn. rewrite app_nil_r. auto. Qed.
Lemma mute_info l : heard [l] = [] -> mute (info l). Proof. intros N s out. exists [l]. auto. Qed.
Lemma mute_get : mute (liftA algo_get). Proof. intros s out. exists []. cbn. rewrite app_nil_r. auto. Qed.
Lemma mute_liftM {X} (m : M X) : steps eq m -> mute (liftA (liftM m)).
Proof.
  intros H [a w] out. exists []. specialize (H w). unfold liftA, liftM. cbn [fst snd]. destruct (m w) as [r w']. cbn [snd] in H. subst.
  cbn. rewrite app_nil_r. auto.
Qed.
Lemma mute_subpops b : forall pop i, mute (write_subpopulations b i pop).
Proof.
  induction pop as [|s pop IH]; intros i; cbn [write_subpopulations]; [apply mute_ret|].
  apply mute_bind; [apply mute_info; reflexivity|]. intros _. apply mute_bind; [apply mute_liftM, steps_write|]. intros vs.
  apply mute_bind; [apply mute_info; reflexivity|]. intros _. apply IH.
Qed.
Lemma mute_stat k : mute (write_statistics k).
Proof.
  unfold write_statistics. apply mute_bind; [apply mute_get|]. intros a. apply mute_bind; [apply mute_info; reflexivity|]. intros _.
  destruct k; [apply mute_subpops|apply mute_subpops|apply mute_ret].
Qed.
Lemma mute_iter {Y} (f : Y -> O unit) l : (forall y, mute (f y)) -> mute (iterM f l).
Proof. intros H. induction l as [|y l IH]; cbn [iterM]; [apply mute_ret|]. apply mute_bind; [apply H|]. intros _. exact IH. Qed.

(** ** The run *)

Section Told.
  Variables (ev : genome -> res fval) (sched : nat -> list nat) (data_of : string -> est -> told) (stats : list stat).
  Variables (it fin : A unit) (tells : list tev -> string -> nat -> option oid -> told -> Prop).
  (** What holds of the algorithm whenever it publishes. *)
  Variable B : algo -> Prop.
  Definition alike (a a' : algo) : Prop :=
    a_pop a' = a_pop a /\ a_best_gen a' = a_best_gen a /\ a_max_gen a' = a_max_gen a /\
    exists t, a_trace a' = a_trace a ++ t /\ Forall (fun e => kind_of e <> Eval /\ kind_of e <> Breed) t.
  Hypothesis Bskip : forall a a', alike a a' -> B a -> B a'.
  Hypothesis Btell : forall name a w i, B a -> name = "init" -> length (evals (a_trace a)) = 1 ->
    tells (a_trace a) name (a_gen_num a) (a_best_run a) (data_of name (add_trace (TPublish name (a_gen_num a) (a_best_run a) i) a, w)).
  Hypothesis Btell' : forall name a w i, B a -> name <> "init" ->
    tells (a_trace a) name (a_gen_num a) (a_best_run a) (data_of name (add_trace (TPublish name (a_gen_num a) (a_best_run a) i) a, w)).
  Hypothesis Mit : mum it.
  Hypothesis Mfin : mum fin.
  Hypothesis Bfin : forall a w a' w', B a -> fin (a, w) = (Ok tt, (a', w')) -> B a'.
  Hypothesis Bit : forall a w a' w', B a -> it (a, w) = (Ok tt, (a', w')) -> B a'.

  Notation good s out := (announced tells (a_trace (fst s)) (heard out)).
  Definition tri {X} (P : est -> Prop) (m : O X) (Q : X -> est -> Prop) : Prop := forall s out, P s -> good s out ->
    match m (s, out) with (r, (s', out')) => good s' out' /\ forall x, r = Ok x -> Q x s' end.

  Lemma tri_bind {X Y} P (m : O X) Q (k : X -> O Y) R : tri P m Q -> (forall x, tri (Q x) (k x) R) -> tri P (x <- m ;; k x) R.
  Proof.
    intros Hm Hk s out HP G. unfold bind. specialize (Hm s out HP G). destruct (m (s, out)) as [[x|e] [s1 out1]]; destruct Hm as [G1 Q1].
    - apply Hk; auto.
    - split; [exact G1|]. discriminate.
  Qed.

  Lemma announced_ext tr l t : announced tells tr l -> Forall unpublished t -> announced tells (tr ++ t) l.
  Proof.
    intros H F. revert tr H. induction t as [|e t IH]; intros tr H; [rewrite app_nil_r; exact H|].
    inversion F; subst. change (e :: t) with ([e] ++ t). rewrite app_assoc. apply IH; [assumption|]. apply an_other; assumption.
  Qed.

  Lemma tri_lift {X} (P : est -> Prop) (m : A X) (Q : X -> est -> Prop) : mum m ->
    (forall s x s', P s -> m s = (Ok x, s') -> Q x s') -> tri P (liftA m) Q.
  Proof.
    intros Hm HQ s out HP G. unfold liftA. cbn [fst snd]. destruct (Hm s) as (t & Ht & F). destruct (m s) as [r s'] eqn:E. cbn [fst snd] in Ht |- *.
    split; [rewrite Ht; apply announced_ext; assumption|]. intros x ->. eauto.
  Qed.

  Lemma tri_weak {X} (P P' : est -> Prop) (m : O X) (Q Q' : X -> est -> Prop) : (forall s, P s -> P' s) -> (forall x s, Q' x s -> Q x s) -> tri P' m Q' -> tri P m Q.
  Proof.
    intros HP HQ H s out Hs G. specialize (H s out (HP s Hs) G). destruct (m (s, out)) as [r [s' out']]. destruct H as [G' H]. split; auto.
  Qed.

  Lemma tri_publish name (P : est -> Prop) :
    (forall a w i, P (a, w) -> tells (a_trace a) name (a_gen_num a) (a_best_run a) (data_of name (add_trace (TPublish name (a_gen_num a) (a_best_run a) i) a, w))) ->
    tri P (publish_all data_of listeners stats name) (fun _ s => exists a i, P (a, snd s) /\ fst s = add_trace (TPublish name (a_gen_num a) (a_best_run a) i) a).
  Proof.
    intros HT [a w] out HP G. unfold publish_all. rewrite (bind_eq_ok _ _ _ _ _ (liftA_ok _ _ _ _ out (publish_eq name a w))).
    set (i := match a_best_run a with Some o => at_ w o | None => None end).
    erewrite bind_eq_ok; [|reflexivity]. cbn [fst]. set (a1 := add_trace (TPublish name (a_gen_num a) (a_best_run a) i) a).
    set (d := data_of name (a1, w)). unfold call_subscribers, listeners. cbn [iterM].
    erewrite bind_eq_ok; [|erewrite bind_eq_ok; [|reflexivity]; reflexivity].
    assert (G1 : good (a1, w) (out ++ [LTold name d])).
    { rewrite heard_app. cbn [heard flat_map app fst a1 a_trace add_trace]. apply an_told; [exact G|]. apply HT. exact HP. }
    cbn [fst snd]. destruct (String.eqb name "after_generation").
    - erewrite bind_eq_ok; [|reflexivity]. cbn [fst snd].
      pose proof (mute_iter write_statistics (registered stats a1) mute_stat (a1, w) (out ++ [LTold name d])) as (ls & H & N).
      match goal with |- match ?m with _ => _ end => change (snd m = ((a1, w), (out ++ [LTold name d]) ++ ls)) in H; destruct m as [r [s' out']] end.
      cbn [snd] in H. injection H as -> ->.
      split; [rewrite heard_app, N, app_nil_r; exact G1|]. intros x _. exists a, i. auto.
    - split; [exact G1|]. intros x _. exists a, i. auto.
  Qed.

  Lemma alike_pub name g b i a : alike a (add_trace (TPublish name g b i) a).
  Proof. repeat split. exists [TPublish name g b i]. split; [reflexivity|]. constructor; [|constructor]. split; discriminate. Qed.
  Lemma alike_same a a' : a_pop a' = a_pop a -> a_best_gen a' = a_best_gen a -> a_max_gen a' = a_max_gen a -> a_trace a' = a_trace a -> alike a a'.
  Proof. intros H1 H2 H3 H4. repeat split; auto. exists []. rewrite app_nil_r. split; [exact H4|constructor]. Qed.
  Lemma alike_seed z a : alike a (add_trace (TSeed z) a).
  Proof. repeat split. exists [TSeed z]. split; [reflexivity|]. constructor; [|constructor]. split; discriminate. Qed.
  Lemma alike_terminate a w st a' w' : should_terminate (a, w) = (Ok st, (a', w')) -> alike a a'.
  Proof.
    intros H. unfold should_terminate in H. mb H as a0 s E. unfold algo_get in E. injection E as <- <-. cbn [fst] in H.
    destruct (a_best_run a) as [o|]; [|discriminate]. mb H as x s E. destruct s as [a1 w1]. la E.
    mb H as u s E1. unfold algo_mod in E1. cbn [fst snd] in E1. injection E1 as _ <-. mb H as u2 s E1. unfold algo_mod in E1. cbn [fst snd] in E1. injection E1 as _ <-. mr H.
    repeat split. exists [TCheck (fst x)]. split; [reflexivity|]. constructor; [|constructor]. split; discriminate.
  Qed.

  Lemma B_body g a w st a' w' : B a -> body it g (a, w) = (Ok st, (a', w')) -> B a'.
  Proof.
    intros H E. apply body_ok in E. destruct E as (w1 & a2 & w2 & _ & _ & E & T).
    apply alike_terminate in T. apply (Bskip _ _ T). refine (Bit _ _ _ _ _ E).
    eapply Bskip; [|exact H]. repeat split. exists [TSeed (next_seed (a_gen_seed a))]. split; [reflexivity|]. constructor; [|constructor]. split; discriminate.
  Qed.

  Definition BB (s : est) : Prop := B (fst s).

  Lemma tri_pub_B name : name <> "init" -> tri BB (publish_all data_of listeners stats name) (fun _ => BB).
  Proof.
    intros N. eapply tri_weak; [intros s H; exact H| |apply tri_publish].
    - cbv beta. intros x [a w] (a0 & i & H & E). cbn [fst snd] in *. subst a. unfold BB in *. cbn [fst] in *. eapply Bskip; [apply alike_pub|exact H].
    - intros a w i H. apply Btell'; assumption.
  Qed.

  Lemma tri_loop : forall todo g, tri BB (main_loop_all data_of listeners stats it todo g) (fun _ => BB).
  Proof.
    induction todo as [|todo IH]; intros g.
    - intros s out H G. cbn. split; [exact G|]. intros x _. exact H.
    - intros s out. rewrite main_loop_all_body. revert s out.
      change (tri BB (stop <- liftA (body it g) ;;
        if stop then liftA (algo_mod (set_final (Some g))) ;;; publish_all data_of listeners stats "after_generation"
        else publish_all data_of listeners stats "after_generation" ;;; main_loop_all data_of listeners stats it todo (S g)) (fun _ => BB)).
      apply (tri_bind _ _ (fun _ => BB)).
      + apply tri_lift; [apply mum_body; exact Mit|]. intros [a w] x [a' w'] H E. eapply B_body; eauto.
      + intros [|].
        * apply (tri_bind _ _ (fun _ => BB)); [|intros _; apply tri_pub_B; discriminate].
          apply tri_lift; [apply mum_mod; reflexivity|]. intros [a w] x s' H E. unfold algo_mod in E. injection E as _ <-. eapply Bskip; [|exact H]. apply alike_same; reflexivity.
        * apply (tri_bind _ _ (fun _ => BB)); [apply tri_pub_B; discriminate|]. intros _. apply IH.
  Qed.

  (** The preparations. *)
  Variables (a00 : algo).
  Hypothesis Binit : forall pop a best, a_max_gen a = a_max_gen a00 -> a_best_gen a = a_best_gen a00 -> evals (a_trace a) = [flat_map inds_of pop] ->
    existsb (fun e => match e with TBreed => true | _ => false end) (a_trace a) = false -> a_pop a = pop -> B (set_best_run best a).

  Definition fresh_at (s : est) : Prop := a_trace (fst s) = [] /\ a_max_gen (fst s) = a_max_gen a00 /\ a_best_gen (fst s) = a_best_gen a00.
  Definition seeded (s : est) : Prop := (exists z, a_trace (fst s) = [TSeed z]) /\ a_max_gen (fst s) = a_max_gen a00 /\ a_best_gen (fst s) = a_best_gen a00.
  Definition ready (s : est) : Prop := BB s /\ length (evals (a_trace (fst s))) = 1.

  Lemma tri_init : tri fresh_at (initialize_all ev sched data_of listeners stats) (fun _ => BB).
  Proof.
    unfold initialize_all.
    apply (tri_bind _ _ (fun _ => fresh_at)).
    { apply tri_lift; [apply mum_get|]. intros s x s' H E. unfold algo_get in E. injection E as _ <-. exact H. }
    intros a. apply (tri_bind _ _ (fun _ => seeded)).
    { apply tri_lift; [apply mum_seed|]. intros [a1 w] x [a2 w'] (T & M & G) E. cbn [fst] in *. apply seed_ok in E. destruct E as [-> ->].
      split; [exists (a_random_seed a); cbn; rewrite T; reflexivity|]. split; assumption. }
    intros _. apply (tri_bind _ _ (fun _ => seeded)).
    { apply tri_lift; [apply mum_liftM|]. intros [a1 w] x [a2 w'] H E. la E. exact H. }
    intros pop. apply (tri_bind _ _ (fun _ => seeded)).
    { apply tri_lift; [apply mum_mod; reflexivity|]. intros [a1 w] x s' H E. unfold algo_mod in E. injection E as _ <-. exact H. }
    intros _. apply (tri_bind _ _ (fun _ s => (exists z, a_trace (fst s) = [TSeed z; TEval (flat_map inds_of (a_pop (fst s)))]) /\ a_max_gen (fst s) = a_max_gen a00 /\ a_best_gen (fst s) = a_best_gen a00)).
    { apply tri_lift; [apply mum_eval|]. intros [a1 w] x [a2 w'] ((z & T) & M & G) E. cbn [fst] in *. apply eval_ok in E. destruct E as [_ ->].
      split; [exists z; cbn; rewrite T; reflexivity|]. split; assumption. }
    intros best. apply (tri_bind _ _ (fun _ => ready)).
    { apply tri_lift; [apply mum_mod; reflexivity|]. intros [a1 w] x s' ((z & T) & M & G) E. unfold algo_mod in E. injection E as _ <-. cbn [fst] in *.
      split; [|cbn; rewrite T; reflexivity]. unfold BB. cbn [fst]. apply (Binit (a_pop a1)); auto; rewrite T; reflexivity. }
    intros _. apply (tri_bind _ _ (fun _ => BB)).
    { eapply tri_weak; [intros s H; exact H| |apply tri_publish].
      - cbv beta. intros x [a1 w] (a0 & i & [H _] & E). cbn [fst snd] in *. subst a1. unfold BB in *. cbn [fst] in *. eapply Bskip; [apply alike_pub|exact H].
      - intros a1 w i [H1 H2]. apply Btell; auto. }
    intros _. apply tri_lift; [apply mum_mod; reflexivity|]. intros [a1 w] x s' H E. unfold algo_mod in E. injection E as _ <-. eapply Bskip; [|exact H]. apply alike_same; reflexivity.
  Qed.

  Lemma tri_evolve : tri fresh_at (evolve_all_with ev sched data_of listeners stats it fin) (fun _ => BB).
  Proof.
    unfold evolve_all_with. apply (tri_bind _ _ (fun _ => BB)); [apply tri_init|]. intros _.
    apply (tri_bind _ _ (fun _ => BB)).
    { apply tri_lift; [apply mum_terminate|]. intros [a w] x [a' w'] H E. eapply Bskip; [eapply alike_terminate; exact E|exact H]. }
    intros stop. apply (tri_bind _ _ (fun _ => BB)).
    { destruct stop.
      - apply (tri_bind _ _ (fun _ => BB)); [|intros _; apply tri_pub_B; discriminate].
        apply tri_lift; [apply mum_mod; reflexivity|]. intros [a w] x s' H E. unfold algo_mod in E. injection E as _ <-. eapply Bskip; [|exact H]. apply alike_same; reflexivity.
      - apply (tri_bind _ _ (fun _ => BB)); [|intros a; apply tri_loop].
        apply tri_lift; [apply mum_get|]. intros s x s' H E. unfold algo_get in E. injection E as _ <-. exact H. }
    intros _. apply (tri_bind _ _ (fun _ => BB)); [apply tri_pub_B; discriminate|]. intros _.
    apply tri_lift; [exact Mfin|]. intros [a w] [] [a' w'] H E. exact (Bfin _ _ _ _ H E).
  Qed.
End Told.

(** ** Best individuals are members, survivors are members *)

Lemma scan_in_all l w b w' : best_scan l w = (Ok b, w') -> In b l.
Proof.
  destruct l as [|a l]; [discriminate|]. cbn [best_scan].
  assert (K : forall m x v v', foldM (fun best o => b <- ind_better_than o best ;; ret (if b then o else best)) m x v = (Ok b, v') -> In b (x :: m)).
  { induction m as [|y m IH]; intros x v v' H; cbn [foldM] in H; [mr H; left; reflexivity|].
    mb H as z v1 E. apply IH in H. mb E as c v2 E1. mr E. destruct c; simpl in *; tauto. }
  intros H. exact (K _ _ _ _ H).
Qed.

Lemma eval_in ev sched m al pop w b w' : evaluate_population ev sched m al pop w = (Ok b, w') -> In b (flat_map inds_of pop).
Proof.
  destruct pop as [|s [|s' pop]]; try discriminate. cbn [evaluate_population flat_map]. rewrite app_nil_r. unfold evaluate_inds. intros H.
  mb H as gs w1 E1. mb H as rs w2 E2. destruct m.
  - mb H as u w3 E3. eapply scan_in_all; exact H.
  - mb H as u w3 E3. mb H as u2 w4 E4. mb H as u3 w5 E5. eapply scan_in_all; exact H.
Qed.

Lemma map_snd_combine {X Y} : forall (xs : list X) (ys : list Y), length xs = length ys -> map snd (combine xs ys) = ys.
Proof. induction xs as [|x xs IH]; intros [|y ys] H; try discriminate; [reflexivity|]. cbn. rewrite IH; [reflexivity|]. cbn in H. congruence. Qed.

Lemma sort_front_perm obj k f f' : sort_front obj k f = Ok f' -> Permutation f' f.
Proof.
  unfold sort_front. destruct (rmap (obj_at obj k) f) as [ks|e] eqn:E; [|discriminate]. cbn [rbind]. intros H. injection H as <-.
  apply rmap_ok in E. apply Forall2_len in E. rewrite <- (map_snd_combine ks f) at 2 by congruence. apply Permutation_map, sort_perm.
Qed.

Lemma crowd_obj_perm obj f k s f' s' : crowd_objective obj f k s = (Ok f', s') -> Permutation f' f.
Proof.
  unfold crowd_objective. intros H. mb H as g s1 E. unfold lift in E. injection E as E _. apply sort_front_perm in E.
  destruct g as [|x g]; [discriminate|].
  mb H as u1 s2 E1. mb H as u2 s3 E2. mb H as u3 s4 E3. mb H as u4 s5 E4. mb H as u5 s6 E5. mr H. exact E.
Qed.

Lemma crowding_perm obj f s f' s' : calc_crowding obj f s = (Ok f', s') -> Permutation f' f.
Proof.
  unfold calc_crowding. intros H. mb H as u s1 E. destruct f as [|o f]; [discriminate|]. mb H as l s2 E2.
  assert (K : forall ks g v g' v', foldM (crowd_objective obj) ks g v = (Ok g', v') -> Permutation g' g).
  { induction ks as [|k ks IH]; intros g v g' v' Hk; cbn [foldM] in Hk; [mr Hk; apply Permutation_refl|].
    mb Hk as h v1 Ek. apply crowd_obj_perm in Ek. apply IH in Hk. eapply Permutation_trans; eassumption. }
  exact (K _ _ _ _ _ H).
Qed.

Lemma in_firstn_all {X} (x : X) : forall n l, In x (firstn n l) -> In x l.
Proof. induction n as [|n IH]; intros [|y l] H; cbn in H; try contradiction. destruct H as [H|H]; [left; exact H|right; auto]. Qed.

Lemma select_loop_incl obj so size : any_order so -> forall fuel rank cur dest s d s',
  select_loop obj so fuel rank size cur dest s = (Ok d, s') -> incl d (cur ++ dest).
Proof.
  intros Hso. induction fuel as [|fuel IH]; intros rank cur dest s d s' H; cbn [select_loop] in H;
    destruct (Nat.ltb_spec (length dest) size) as [Hlt|Hge]; [discriminate| | |].
  - mr H. apply incl_appr, incl_refl.
  - mb H as f s1 E1. mb H as f1 s2 E2. mb H as u s3 E3. mb H as f2 s4 E4. mb H as cur' s5 E5. apply IH in H.
    unfold find_front in E1. injection E1 as <- _. apply crowding_perm in E2.
    assert (F1 : incl f1 cur). { intros x Hx. apply (Permutation_in _ E2) in Hx. apply filter_In in Hx. tauto. }
    assert (F2 : incl f2 cur).
    { destruct (size <? length f1 + length dest)%nat.
      - unfold cut_front in E4. injection E4 as <- _. intros x Hx. apply in_firstn_all in Hx. apply F1. eapply Permutation_in; [apply sort_perm|exact Hx].
      - mr E4. exact F1. }
    assert (F3 : incl cur' cur).
    { unfold remove_front in E5. mb E5 as u2 s6 E6. mr E5. intros x Hx. apply (Permutation_in _ (Hso _ _)) in Hx. apply filter_In in Hx. destruct Hx as [Hx _]. apply nodup_In in Hx. exact Hx. }
    intros x Hx. specialize (H x Hx). rewrite !in_app_iff in *. destruct H as [H|[H|H]]; auto.
  - mr H. apply incl_appr, incl_refl.
Qed.

Lemma nsga2_select_incl so l n w d w' : any_order so -> nsga2_select so l n w = (Ok d, w') -> incl d l.
Proof.
  intros Hso. unfold nsga2_select. destruct (sort_select _ _ _ l n _) as [r s] eqn:E. intros H. injection H as -> _.
  unfold sort_select in E. mb E as u s1 E1. apply select_loop_incl in E; [|exact Hso]. rewrite app_nil_r in E. exact E.
Qed.

Lemma select_population_incl so n : any_order so -> forall pop w pop' w', select_for_population so pop n w = (Ok pop', w') -> incl (flat_map inds_of pop') (flat_map inds_of pop).
Proof.
  intros Hso. unfold select_for_population. induction pop as [|s pop IH]; intros w pop' w' H; cbn [mapM] in H; [mr H; apply incl_refl|].
  mb H as s1 w1 E. mb H as pop1 w2 E2. mr H. apply IH in E2. mb E as l w3 E3. mr E. apply nsga2_select_incl in E3; [|exact Hso].
  cbn [flat_map]. apply incl_app; [apply incl_appl; exact E3|apply incl_appr; exact E2].
Qed.

(** ** SimpleEvolution *)

Lemma last_snoc {X} (l : list X) x d : last (l ++ [x]) d = x.
Proof. apply last_last. Qed.

Definition bred (tr : list tev) : bool := existsb (fun e => match e with TBreed => true | _ => false end) tr.

Lemma alike_evals a a' : alike a a' -> a_pop a' = a_pop a /\ a_best_gen a' = a_best_gen a /\ a_max_gen a' = a_max_gen a /\ evals (a_trace a') = evals (a_trace a) /\ bred (a_trace a') = bred (a_trace a).
Proof.
  intros (H1 & H2 & H3 & t & H4 & F). do 3 (split; [assumption|]). rewrite H4.
  assert (K : evals t = [] /\ bred t = false).
  { clear H4. induction F as [|e t [N1 N2] F IH]; [auto|]. destruct IH as [I1 I2]. unfold evals, bred in *. cbn [flat_map existsb]. rewrite I1, I2. destruct e; cbn in *; auto; congruence. }
  destruct K as [K1 K2]. unfold bred in *. rewrite existsb_app, K2, orb_false_r. unfold evals in *. rewrite flat_map_app, K1, app_nil_r. auto.
Qed.

Definition Bs (a0 a : algo) : Prop := a_max_gen a = a_max_gen a0 /\ evals (a_trace a) <> [] /\ flat_map inds_of (a_pop a) = last (evals (a_trace a)) [] /\
  (length (evals (a_trace a)) = 1 -> a_best_gen a = a_best_gen a0) /\
  (2 <= length (evals (a_trace a)) -> exists x, a_best_gen a = Some x /\ In x (last (evals (a_trace a)) [])).

Lemma told_simple ev sched stats a w r a' w' out' : a_trace a = [] ->
  evolve_all ev sched listeners stats ((a, w), []) = (r, ((a', w'), out')) ->
  announced (simple_tells a) (a_trace a') (heard out').
Proof.
  intros T H. unfold evolve_all in H.
  assert (K : tri (simple_tells a) (fresh_at a) (evolve_all_with ev sched simple_data listeners stats (generation_iteration ev sched) finish) (fun _ => BB (Bs a))).
  { apply tri_evolve with (B := Bs a).
    - intros x y S (B1 & B2 & B3 & B4 & B5). apply alike_evals in S. destruct S as (S1 & S2 & S3 & S4 & _). unfold Bs. rewrite S1, S2, S3, S4. auto.
    - intros name x w0 i (B1 & B2 & B3 & B4 & B5) -> L. exists (a_pop x). split; [exact B2|]. split; [exact B3|]. left. split; [reflexivity|]. split; [exact L|].
      unfold simple_data, init_data, at_first. cbn. rewrite B1. reflexivity.
    - intros name x w0 i (B1 & B2 & B3 & B4 & B5) N. exists (a_pop x). split; [exact B2|]. split; [exact B3|]. right. split; [exact N|].
      exists (a_best_gen x). split; [|auto]. unfold simple_data. destruct (String.eqb_spec name "init"); [congruence|]. reflexivity.
    - apply mum_iteration.
    - apply mum_finish.
    - intros x w0 y w1 B0 E. apply finish_ok in E. destruct E as [-> _]. exact B0.
    - intros x w0 y w1 (B1 & B2 & B3 & B4 & B5) E. apply iteration_ok in E. destruct E as (pop & v1 & best & v2 & b & worst & _ & E & _ & _ & ->).
      apply eval_in in E. assert (V : evals (a_trace (after_breeding pop best b worst x)) = evals (a_trace x) ++ [flat_map inds_of pop]).
      { unfold after_breeding, evals. destruct b; cbn [a_trace set_worst_gen set_best_run set_best_gen add_trace set_pop]; rewrite !flat_map_app; cbn; rewrite app_nil_r; reflexivity. }
      unfold Bs. rewrite V, last_snoc, app_length. cbn [length].
      split; [destruct b; exact B1|]. split; [intros Hn; apply app_eq_nil in Hn; destruct Hn; discriminate|].
      split; [destruct b; reflexivity|]. split; [intros Hl; destruct (evals (a_trace x)); [congruence|cbn in Hl; lia]|].
      intros _. exists best. split; [destruct b; reflexivity|exact E].
    - intros pop x best M G V _ P. unfold Bs. cbn [set_best_run a_max_gen a_trace a_pop a_best_gen]. rewrite V, P. cbn.
      split; [exact M|]. split; [discriminate|]. split; [reflexivity|]. split; [auto|lia]. }
  specialize (K (a, w) [] (conj T (conj eq_refl eq_refl))). cbn [fst] in K. rewrite T in K. specialize (K (an_nil _)).
  match type of H with ?m = _ => change (match m with (r, (s', out')) => announced (simple_tells a) (a_trace (fst s')) (heard out') /\ (forall x : unit, r = Ok x -> BB (Bs a) s') end) in K; rewrite H in K end.
  apply K.
Qed.

(** ** NSGA2Evolution *)

Definition Bm (a0 a : algo) : Prop := a_max_gen a = a_max_gen a0 /\ evals (a_trace a) <> [] /\ incl (flat_map inds_of (a_pop a)) (last (evals (a_trace a)) []) /\
  (length (evals (a_trace a)) = 1 -> a_best_gen a = a_best_gen a0 /\ bred (a_trace a) = false) /\
  (2 <= length (evals (a_trace a)) -> bred (a_trace a) = true).

Lemma nsga2_iteration_ok ev sched so d a w u a' w' : nsga2_generation ev sched so d (a, w) = (Ok u, (a', w')) ->
  exists pop w1 b w2 pop' , evaluate_population ev sched (a_method a) (a_alive a) pop w1 = (Ok b, w2) /\
    select_for_population so pop 0 w2 = (Ok pop', w') /\ a' = set_pop pop' (add_trace (TEval (flat_map inds_of pop)) (add_trace TBreed (set_pop pop a))).
Proof.
  intros H. unfold nsga2_generation in H. mb H as a0 s E. unfold algo_get in E. injection E as <- <-. cbn [fst] in H.
  mb H as pop s E. destruct s as [a1 w1]. la E.
  mb H as x1 s E1. unfold algo_mod in E1. cbn [fst snd] in E1. injection E1 as _ <-.
  mb H as x2 s E1. unfold algo_mod in E1. cbn [fst snd] in E1. injection E1 as _ <-.
  mb H as best s E1. destruct s as [a2 w2]. apply eval_ok in E1. destruct E1 as [E1 ->]. cbn [a_pop set_pop add_trace a_method a_alive] in E1, H.
  mb H as pop' s E2. destruct s as [a4 w3]. la E2. unfold algo_mod in H. cbn [fst snd] in H. injection H as <- <- <-.
  exists pop, w1, best, w2, pop'. auto.
Qed.

Lemma pareto_incl h l : incl (pareto_front h l) l.
Proof. intros x Hx. apply filter_In in Hx. tauto. Qed.

Lemma nsga2_finish_ok a w u a' w' : nsga2_finish (a, w) = (Ok u, (a', w')) -> a' = a /\ w' = w.
Proof.
  intros H. unfold nsga2_finish in H. mb H as x s E. destruct s as [a1 w1]. apply show_best_ok in E. destruct E as (-> & -> & _).
  mb H as a0 s E. unfold algo_get in E. injection E as <- <-. cbn [fst] in H. destruct (a_best_run a) as [o|]; [|discriminate].
  mb H as v s E. destruct s as [a2 w2]. la E. mr H. split; [reflexivity|].
  unfold pure_fitness in E. mb E as i w3 E1. unfold load in E1. destruct (nth_error (w_heap w) o); [|discriminate]. injection E1 as _ <-. unfold lift in E. injection E as _ <-. reflexivity.
Qed.

Lemma run_moo ev sched so d stats a w r a' w' out' : any_order so -> a_trace a = [] ->
  nsga2_evolve_all ev sched so d listeners stats ((a, w), []) = (r, ((a', w'), out')) ->
  announced (moo_tells a) (a_trace a') (heard out') /\ (r = Ok tt -> Bm a a').
Proof.
  intros Hso T H. unfold nsga2_evolve_all in H.
  assert (K : tri (moo_tells a) (fresh_at a) (evolve_all_with ev sched nsga2_data listeners stats (nsga2_generation ev sched so d) nsga2_finish) (fun _ => BB (Bm a))).
  { apply tri_evolve with (B := Bm a).
    - intros x y S (B1 & B2 & B3 & B4 & B5). apply alike_evals in S. destruct S as (S1 & S2 & S3 & S4 & S5). unfold Bm. rewrite S1, S2, S3, S4, S5. auto.
    - intros name x w0 i (B1 & B2 & B3 & B4 & B5) -> L. exists (a_pop x). split; [exact B2|]. split; [exact B3|]. left. split; [reflexivity|]. split; [exact L|].
      unfold nsga2_data, init_data, at_first. cbn. rewrite B1. reflexivity.
    - intros name x w0 i (B1 & B2 & B3 & B4 & B5) N. exists (a_pop x). split; [exact B2|]. split; [exact B3|]. right. split; [exact N|].
      unfold nsga2_data. destruct (String.eqb_spec name "init"); [congruence|]. cbn [fst snd a_trace add_trace]. rewrite existsb_app. cbn [existsb]. rewrite !orb_false_r.
      change (existsb _ (a_trace x)) with (bred (a_trace x)). split.
      + intros L. destruct (B4 L) as [G1 G2]. rewrite G2. unfold later_data, afterwards. cbn. rewrite G1. reflexivity.
      + intros L. rewrite (B5 L). eexists. split; [reflexivity|]. cbn. clear. induction (a_pop x) as [|s p IH]; constructor; [apply pareto_incl|exact IH].
    - apply mum_nsga2.
    - apply mum_nsga2_finish.
    - intros x w0 y w1 B0 E. apply nsga2_finish_ok in E. destruct E as [-> _]. exact B0.
    - intros x w0 y w1 (B1 & B2 & B3 & B4 & B5) E. apply nsga2_iteration_ok in E. destruct E as (pop & v1 & best & v2 & pop' & _ & E & ->).
      apply select_population_incl in E; [|exact Hso].
      unfold Bm, bred. cbn [a_trace set_pop add_trace a_pop a_max_gen]. rewrite !evals_app, !existsb_app. change (evals [TBreed]) with (@nil (list oid)). change (evals [TEval (flat_map inds_of pop)]) with [flat_map inds_of pop]. rewrite app_nil_r, last_snoc, app_length. cbn.
      split; [exact B1|]. rewrite orb_true_r. split; [intros Hn; apply app_eq_nil in Hn; destruct Hn; discriminate|].
      split; [exact E|]. split; [intros Hl; destruct (evals (a_trace x)); [congruence|cbn in Hl; lia]|]. reflexivity.
    - intros pop x best M G V N P. unfold Bm, bred. cbn [set_best_run a_max_gen a_trace a_pop a_best_gen]. rewrite V, P, N. cbn.
      split; [exact M|]. split; [discriminate|]. split; [apply incl_refl|]. split; [auto|lia]. }
  specialize (K (a, w) [] (conj T (conj eq_refl eq_refl))). cbn [fst] in K. rewrite T in K. specialize (K (an_nil _)).
  match type of H with ?m = _ => change (match m with (r, (s', out')) => announced (moo_tells a) (a_trace (fst s')) (heard out') /\ (forall x : unit, r = Ok x -> BB (Bm a) s') end) in K; rewrite H in K end.
  destruct K as [K1 K2]. split; [exact K1|exact (K2 tt)].
Qed.

Lemma told_moo ev sched so d stats a w r a' w' out' : any_order so -> a_trace a = [] ->
  nsga2_evolve_all ev sched so d listeners stats ((a, w), []) = (r, ((a', w'), out')) ->
  announced (moo_tells a) (a_trace a') (heard out').
Proof. intros Hso T H. exact (proj1 (run_moo _ _ _ _ _ _ _ _ _ _ _ Hso T H)). Qed.

(** ** The last event *)

Lemma last_told ev sched data_of stats it fin s out s' out' : (forall x x', fin x = (Ok tt, x') -> x' = x \/ x' = (set_alive false (fst x), snd x)) ->
  evolve_all_with ev sched data_of listeners stats it fin (s, out) = (Ok tt, (s', out')) ->
  exists pre s1, heard out' = pre ++ [("evolution_finished", data_of "evolution_finished" s1)] /\ (s' = s1 \/ s' = (set_alive false (fst s1), snd s1)).
Proof.
  intros Hf H. unfold evolve_all_with in H. mb H as u1 t1 E1. mb H as st t2 E2. mb H as u2 t3 E3. mb H as u3 t4 E4. destruct t3 as [[a w] o3].
  unfold publish_all in E4. rewrite (bind_eq_ok _ _ _ _ _ (liftA_ok _ _ _ _ o3 (publish_eq "evolution_finished" a w))) in E4.
  erewrite bind_eq_ok in E4; [|reflexivity]. cbn [fst] in E4. unfold call_subscribers, listeners in E4. cbn [iterM] in E4.
  erewrite bind_eq_ok in E4; [|erewrite bind_eq_ok; [|reflexivity]; reflexivity]. cbn in E4. injection E4 as _ <-.
  unfold liftA in H. cbn [fst snd] in H. match type of H with (let (_, _) := ?m in _) = _ => destruct m as [r x'] eqn:E end. injection H as -> -> <-.
  apply Hf in E. eexists. eexists. split; [rewrite heard_app; cbn; reflexivity|]. exact E.
Qed.

Lemma last_simple ev sched stats a w a' w' out' :
  evolve_all ev sched listeners stats ((a, w), []) = (Ok tt, ((a', w'), out')) ->
  left_as_told a' (DIndividual (a_best_gen a')) (heard out').
Proof.
  intros H. unfold evolve_all in H. apply last_told in H.
  - destruct H as (pre & [a1 w1] & E & S). exists pre. rewrite E. destruct S as [S|S]; injection S as -> ->; reflexivity.
  - intros [x y] [x' y'] E. apply finish_ok in E. destruct E as [-> ->]. right. reflexivity.
Qed.

Lemma picked_front w l : picked (ranked_first w) (pareto_front (w_heap w) l) l.
Proof.
  induction l as [|o l IH]; [constructor|]. unfold pareto_front. cbn [filter].
  destruct (neq_num (heap_field ft_rank (w_heap w) o) (Fin 1)) eqn:E; [apply pk_in|apply pk_out]; try exact IH; unfold heap_field in E.
  - unfold ranked_first, at_. destruct (nth_error (w_heap w) o) as [i|]; [exists i; auto|discriminate].
  - intros (i & A & R). unfold at_ in A. rewrite A in E. congruence.
Qed.

Lemma last_moo ev sched so d stats a w a' w' out' : any_order so -> a_trace a = [] ->
  nsga2_evolve_all ev sched so d listeners stats ((a, w), []) = (Ok tt, ((a', w'), out')) -> 2 <= length (evals (a_trace a')) ->
  exists fs, left_as_told a' (DFronts fs) (heard out') /\ first_fronts w' fs (a_pop a').
Proof.
  intros Hso T H L. destruct (proj2 (run_moo _ _ _ _ _ _ _ _ _ _ _ Hso T H) eq_refl) as (_ & _ & _ & _ & Q). specialize (Q L). unfold nsga2_evolve_all in H. apply last_told in H.
  - destruct H as (pre & [a1 w1] & E & S).
    exists (map (fun p => pareto_front (w_heap w') (inds_of p)) (a_pop a')). split.
    + exists pre. rewrite E. unfold nsga2_data. cbn [fst snd].
      assert (Hs : a_trace a' = a_trace a1 /\ a_pop a' = a_pop a1 /\ a_best_run a' = a_best_run a1 /\ a_gen_num a' = a_gen_num a1 /\ w' = w1) by (destruct S as [S|S]; injection S as -> ->; auto).
      destruct Hs as (S1 & S2 & S3 & S4 & ->). rewrite S1 in Q. unfold bred in Q. rewrite Q, S2, S3, S4. reflexivity.
    + unfold first_fronts. clear. induction (a_pop a') as [|p pop IH]; constructor; [apply picked_front|exact IH].
  - intros [x y] [x' y'] E. apply nsga2_finish_ok in E. destruct E as [-> ->]. left. reflexivity.
Qed.
