(** * What the creators can make. *)
From Coq Require Import Lia Permutation.
From Verif.Model Require Import Num Rng Vector Tree World Creators.
From Verif.Spec Require Import WorldSpec VectorSpec TreeSpec SelSpec PressureSpec ReachSpec.
From Verif.Proofs Require Import Lib WorldP VectorP VecOpP VecCreateP TreeP TreeCreateP PressureP.
From Verif.Model Require Import Num Rng Vector Tree World Creators.
Open Scope nat_scope.
Open Scope list_scope.

(** ** Computations steered by the numbers ahead *)

Definition emits {A} (m : R A) (ds : list N) (x : A) : Prop :=
  forall g, ahead g ds -> m g = (Ok x, advance (length ds) g).

Lemma ahead_app g a b : ahead g (a ++ b) -> ahead g a /\ ahead (advance (length a) g) b.
Proof.
  intros U. split.
  - intros i d H. apply U. rewrite nth_error_app1; [exact H|]. apply nth_error_Some. congruence.
  - intros i d H. simpl. rewrite <- Nat.add_assoc. apply U. rewrite nth_error_app2 by lia. replace (length a + i - length a) with i by lia. exact H.
Qed.

Lemma emits_ret {A} (x : A) : emits (ret x) [] x.
Proof. intros g _. simpl. rewrite advance_0. reflexivity. Qed.

Lemma emits_bind {A B} (m : R A) (k : A -> R B) ds ds' x y : emits m ds x -> emits (k x) ds' y -> emits (z <- m ;; k z) (ds ++ ds') y.
Proof.
  intros Hm Hk g U. apply ahead_app in U. destruct U as [U1 U2]. rewrite (bind_eq_ok _ _ _ _ _ (Hm g U1)), (Hk _ U2).
  rewrite advance_advance, app_length. reflexivity.
Qed.

Lemma emits_bind1 {A B} (m : R A) (k : A -> R B) ds x y : emits m ds x -> emits (k x) [] y -> emits (z <- m ;; k z) ds y.
Proof. intros Hm Hk. rewrite <- (app_nil_r ds). eapply emits_bind; eauto. Qed.

Lemma emits_draw n q g : ahead g [n] -> next_draw g = (Ok (mkDraw n q), advance 1 g) \/ exists q', next_draw g = (Ok (mkDraw n q'), advance 1 g).
Proof.
  intros U. specialize (U 0 n eq_refl). rewrite Nat.add_0_r in U. right. unfold next_draw. exists (d_g (r_py g (r_pyseed g) (r_pypos g))).
  destruct (r_py g (r_pyseed g) (r_pypos g)) as [a b]. simpl in U. subst. unfold advance. rewrite Nat.add_1_r. reflexivity.
Qed.

Lemma emits_next {A} (k : draw -> R A) n x : (forall q, emits (k (mkDraw n q)) [] x) -> emits (d <- next_draw ;; k d) [n] x.
Proof.
  intros Hk g U. destruct (emits_draw n 0 g U) as [E|[q E]]; rewrite (bind_eq_ok _ _ _ _ _ E);
    (rewrite Hk; [rewrite advance_advance; reflexivity|intros [|i] d H; discriminate]).
Qed.

Lemma emits_randbelow n i : i < n -> emits (randbelow n) [N.of_nat i] i.
Proof.
  intros L. apply emits_next. intros q g _. simpl. rewrite N.mod_small by lia. rewrite Nnat.Nat2N.id, advance_0. reflexivity.
Qed.

Lemma emits_choice {A} (l : list A) x : In x l -> exists ds, emits (choice l) ds x.
Proof.
  intros H. apply In_nth_error in H. destruct H as (i & H). exists [N.of_nat i]. unfold choice. destruct l as [|y l]; [destruct i; discriminate|].
  eapply emits_bind1; [apply emits_randbelow; apply nth_error_Some; congruence|]. rewrite H. apply emits_ret.
Qed.

Lemma emits_unit k : (k < 2 ^ 53)%N -> emits random_unit [k] (Fin (Z.of_N k # two53)).
Proof.
  intros L. apply emits_next. intros q g _. cbn [d_n]. rewrite N.mod_small by exact L. rewrite advance_0. reflexivity.
Qed.

Lemma emits_uniform a b k : (k < 2 ^ 53)%N -> emits (uniform (Fin a) (Fin b)) [k] (Fin (a + (b - a) * (Z.of_N k # two53))).
Proof. intros L. unfold uniform. eapply emits_bind1; [apply emits_unit; exact L|]. apply emits_ret. Qed.

Lemma emits_randint a b z : (a <= z <= b)%Z -> emits (randint (nof_Z a) (nof_Z b)) [Z.to_N (z - a)] (nof_Z z).
Proof.
  intros H. unfold randint. rewrite !num_to_Z_of. destruct (Z.ltb_spec b a); [lia|]. apply emits_next. intros q g _. cbn [d_n].
  rewrite N.mod_small by lia. unfold ret. rewrite advance_0. do 3 f_equal. lia.
Qed.

Lemma emits_mapM {A B} (f : A -> R B) l ys : Forall2 (fun a y => exists ds, emits (f a) ds y) l ys -> exists ds, emits (mapM f l) ds ys.
Proof.
  induction 1 as [|a y l ys (ds & Ha) _ (ds' & IH)]; [exists []; apply emits_ret|]. exists (ds ++ ds'). simpl.
  eapply emits_bind; [exact Ha|]. eapply emits_bind1; [exact IH|]. apply emits_ret.
Qed.

Lemma emits_lift {A B} (r : res A) (k : A -> R B) x ds y : r = Ok x -> emits (k x) ds y -> emits (z <- lift r ;; k z) ds y.
Proof. intros -> Hk g U. unfold bind, lift. apply Hk. exact U. Qed.

(** ** Random nodes *)

Lemma function_reached t f : In f (t_fset t) -> hinted f -> exists ds, emits (random_function t (f_ret f)) ds (Some (FNode f)).
Proof.
  intros Hf Hh. unfold random_function. assert (Hi : In f (filter (fun f0 => oty_eqb (get_return_type f0) (f_ret f)) (t_fset t))).
  { apply filter_In. split; [exact Hf|]. apply oty_eqb_iff. reflexivity. }
  destruct (filter _ _) as [|c cs]; [destruct Hi|]. destruct (emits_choice _ _ Hi) as (ds & E). exists ds.
  eapply emits_bind1; [exact E|]. eapply emits_lift; [apply function_node_hinted; exact Hh|]. apply emits_ret.
Qed.

Lemma erc_reached e v : erc_gives e v -> exists ds, emits (draw_erc e) ds v.
Proof.
  destruct e as [lo hi|lo hi]; simpl; intros (x & tag & (a & b & z & -> & -> & Hz & ->) & ->); eexists.
  - eapply emits_bind; [apply (emits_uniform a b z Hz)|]. unfold new_number. apply (emits_next _ tag). intros q. apply emits_ret.
  - eapply emits_bind; [apply (emits_randint a b z Hz)|]. unfold new_number. apply (emits_next _ tag). intros q. apply emits_ret.
Qed.

Lemma erc_number_type e v : erc_gives e v -> is_num_tval v = true /\ tval_type v = erc_type e.
Proof. destruct e; simpl; intros (x & tag & _ & ->); split; reflexivity. Qed.

Lemma get_none v (l : list (tval * option ty)) : (forall k a, In (k, a) l -> a = None) -> tset_get v l None = None.
Proof.
  induction l as [|[k a] l IH]; intros H; [reflexivity|]. simpl. destruct (tval_eq v k); [apply (H k); left; reflexivity|].
  apply IH. intros k' a' H'. apply (H k'). right. exact H'.
Qed.

Lemma erc_some e : erc_proper e -> exists v, erc_gives e v.
Proof.
  destruct e as [lo hi|lo hi]; simpl.
  - intros [A B]. destruct lo as [a| | |]; try discriminate. destruct hi as [b| | |]; try discriminate.
    eexists. eexists. exists 0%N. split; [|reflexivity]. exists a, b, 0%N. repeat split. 
  - intros (a & b & -> & -> & H). eexists. eexists. exists 0%N. split; [|reflexivity]. exists a, b, a. split; [reflexivity|]. split; [reflexivity|].
    split; [lia|reflexivity].
Qed.

Lemma terminal_reached t root a n : clear_terminals t root -> requested t root a -> (forall e, t_erc t = Some e -> erc_proper e) ->
  terminal_for t a n -> exists ds, emits (random_terminal t a) ds (Some n).
Proof.
  intros Hc Hr Hp Hn. unfold random_terminal. set (rel := map fst (filter (fun e => oty_eqb (snd e) a) (t_tset t))).
  inversion Hn as [v Hv|e v He Hv Ha|e v b He Hv Ha Hb]; subst n.
  - assert (Hin : In v rel).
    { apply in_map_iff. exists (v, a). split; [reflexivity|]. apply filter_In. split; [exact Hv|]. apply oty_eqb_iff. reflexivity. }
    assert (Hg : tset_get v (t_tset t) (match a with None => None | Some _ => Some (tval_type v) end) = a).
    { destruct Hc as [[Hu Hk]|[Hd _]]; [|apply tset_get_in; assumption]. rewrite (Hu a Hr). apply get_none. exact Hk. }
    assert (Hrest : forall l, In v l -> exists ds, emits
      (match l with
       | [] => ret None
       | _ :: _ => v0 <- choice l ;; ret (Some (TNode v0 (tset_get v0 (t_tset t) (match a with None => None | Some _ => Some (tval_type v0) end))))
       end) ds (Some (TNode v a))).
    { intros l Hl. destruct l as [|c cs]; [destruct Hl|]. destruct (emits_choice _ _ Hl) as (ds & E). exists ds.
      eapply emits_bind1; [exact E|]. rewrite Hg. apply emits_ret. }
    destruct (erc_applies t a) as [e|] eqn:Ee.
    + assert (He : t_erc t = Some e).
      { unfold erc_applies in Ee. destruct (t_erc t); [|discriminate]. destruct a as [b|]; [destruct (is_number_type b); [|discriminate]|]; congruence. }
      destruct (erc_some e (Hp e He)) as (c & Gc). destruct (erc_reached e c Gc) as (d1 & E1).
      destruct (Hrest (rel ++ [c])) as (d2 & E2); [apply in_or_app; left; exact Hin|]. exists (d1 ++ d2).
      eapply emits_bind; [|exact E2]. eapply emits_bind1; [exact E1|]. apply emits_ret.
    + destruct (Hrest rel Hin) as (d2 & E2). exists ([] ++ d2). eapply emits_bind; [apply emits_ret|exact E2].
  - subst a. assert (Ee : erc_applies t None = Some e) by (unfold erc_applies; rewrite He; reflexivity). rewrite Ee.
    destruct (erc_reached e v Hv) as (d1 & E1).
    assert (Hin : In v (rel ++ [v])) by (apply in_or_app; right; left; reflexivity).
    assert (Hg : tset_get v (t_tset t) None = None).
    { destruct Hc as [[_ Hk]|[_ Hk]]; [apply get_none; exact Hk|]. apply tset_get_num; [apply (erc_number_type e v Hv)|]. apply Hk. congruence. }
    destruct (emits_choice _ _ Hin) as (d2 & E2). exists (d1 ++ d2). eapply emits_bind; [eapply emits_bind1; [exact E1|apply emits_ret]|].
    destruct (rel ++ [v]) as [|c cs] eqn:El; [destruct Hin|]. eapply emits_bind1; [exact E2|]. rewrite Hg. apply emits_ret.
  - subst a. assert (Ee : erc_applies t (Some b) = Some e) by (unfold erc_applies; rewrite He, Hb; reflexivity). rewrite Ee.
    destruct (erc_reached e v Hv) as (d1 & E1).
    assert (Hin : In v (rel ++ [v])) by (apply in_or_app; right; left; reflexivity).
    assert (Hg : tset_get v (t_tset t) (Some (tval_type v)) = Some (erc_type e)).
    { destruct Hc as [[Hu _]|[_ Hk]]; [specialize (Hu _ Hr); discriminate|].
      rewrite tset_get_num; [f_equal; apply (erc_number_type e v Hv)|apply (erc_number_type e v Hv)|]. apply Hk. congruence. }
    destruct (emits_choice _ _ Hin) as (d2 & E2). exists (d1 ++ d2). eapply emits_bind; [eapply emits_bind1; [exact E1|apply emits_ret]|].
    destruct (rel ++ [v]) as [|c cs] eqn:El; [destruct Hin|]. eapply emits_bind1; [exact E2|]. rewrite Hg. apply emits_ret.
Qed.

(** ** Trees *)

Lemma params_firstn f : hinted f -> firstn (arity f) (get_func_types f) = f_params f.
Proof. intros H. rewrite types_hinted by exact H. unfold arity. rewrite firstn_app, Nat.sub_diag, firstn_all. simpl. apply app_nil_r. Qed.

Lemma params_removelast f : hinted f -> removelast (get_func_types f) = f_params f.
Proof. intros H. rewrite types_hinted by exact H. apply removelast_last. Qed.

Section Steps.
  Variables (t : tree) (root : option ty) (p : num) (mn mx : nat).
  Hypothesis Hc : clear_terminals t root.
  Hypothesis He : forall e, t_erc t = Some e -> erc_proper e.

  Lemma flat_children (g : option ty -> R (list node)) d lo hi f ks :
    Forall2 (program t lo hi d) (f_params f) ks ->
    (forall a k, In k ks -> In a (f_params f) -> program t lo hi d a k -> exists ds, emits (g a) ds (flatten k)) ->
    exists ds, emits (children <- mapM g (f_params f) ;; ret (FNode f :: List.concat children)) ds (FNode f :: flat_map flatten ks).
  Proof.
    intros Hk Hg. assert (F : Forall2 (fun a y => exists ds, emits (g a) ds y) (f_params f) (map flatten ks)).
    { revert Hk Hg. generalize (f_params f). intros l. revert l. induction ks as [|k ks IH]; intros l Hk Hg; inversion Hk; subst; simpl; constructor.
      - apply Hg; simpl; auto.
      - apply IH; [assumption|]. intros ? ? ? ? ?. apply Hg; simpl; auto. }
    destruct (emits_mapM _ _ _ F) as (ds & E). exists ds. eapply emits_bind1; [exact E|]. rewrite <- flat_map_concat_map. apply emits_ret.
  Qed.

  Hypothesis Hp : undecided p.

  Lemma grow_reached fuel : forall d a r, program t mn (Nat.max mn mx) d a r -> requested t root a -> d <= Nat.max mn mx ->
    Nat.max mn mx - d < fuel -> exists ds, emits (grow_tree fuel t mn mx p d a) ds (flatten r).
  Proof.
    destruct Hp as (q & Hq & Hq0 & Hq1). induction fuel as [|fuel IH]; intros d a r Hr Ha Hd Hf; [lia|]. cbn [grow_tree].
    inversion Hr as [d' a' n Hn Hlo|d' a' f ks Hin Hh Ht Hd' Hks]; subst d' a' r.
    - destruct (terminal_reached t root a n Hc Ha He Hn) as (ds & E).
      assert (Hk : emits (match Some n with None => raise ValueError | Some (TNode v ty) => ret [TNode v ty] | Some (FNode f) =>
          children <- mapM (fun a => grow_tree fuel t mn mx p (S d) a) (firstn (arity f) (get_func_types f)) ;; ret (FNode f :: List.concat children) end) [] (flatten (Rose n []))).
      { inversion Hn; subst; apply emits_ret. }
      destruct (Nat.ltb_spec d mn); [lia|]. destruct (Nat.leb_spec mx d).
      + exists ds. eapply emits_bind1; [exact E|exact Hk].
      + exists (([0%N] ++ ds) ++ []). apply (emits_bind _ _ _ _ (Some n)); [|exact Hk]. eapply emits_bind; [apply emits_unit; reflexivity|].
        assert (nlt (Fin (Z.of_N 0 # two53)) p = true) as ->; [|exact E]. rewrite Hq. simpl. unfold Qlt_b. apply negb_true_iff.
        apply not_true_is_false. intros C. apply Qle_bool_iff in C. apply (Qlt_not_le _ _ Hq0). eapply Qle_trans; [exact C|]. discriminate.
    - destruct (function_reached t f Hin Hh) as (ds & E). rewrite Ht in E. cbn [flatten].
      destruct (flat_children (fun a => grow_tree fuel t mn mx p (S d) a) (S d) mn (Nat.max mn mx) f ks Hks) as (ds' & E').
      { intros b k Hk Hb Hpk. apply IH; auto; try lia. right. exists f. split; assumption. }
      assert (Hk : emits (match Some (FNode f) with None => raise ValueError | Some (TNode v ty) => ret [TNode v ty] | Some (FNode f) =>
          children <- mapM (fun a => grow_tree fuel t mn mx p (S d) a) (firstn (arity f) (get_func_types f)) ;; ret (FNode f :: List.concat children) end) ds' (FNode f :: flat_map flatten ks)).
      { rewrite params_firstn by exact Hh. exact E'. }
      destruct (Nat.ltb_spec d mn).
      + exists (ds ++ ds'). eapply emits_bind; [exact E|exact Hk].
      + destruct (Nat.leb_spec mx d); [lia|]. exists (([9007199254740991%N] ++ ds) ++ ds'). apply (emits_bind _ _ _ _ (Some (FNode f))); [|exact Hk].
        eapply emits_bind; [apply emits_unit; reflexivity|].
        assert (nlt (Fin (Z.of_N 9007199254740991 # two53)) p = false) as ->; [|exact E]. rewrite Hq. simpl. unfold Qlt_b. apply negb_false_iff.
        apply Qle_bool_iff. exact Hq1.
  Qed.

  Lemma full_reached fuel : forall d a r, program t mx mx d a r -> requested t root a -> d <= mx ->
    mx - d < fuel -> exists ds, emits (full_tree fuel t mx d a) ds (flatten r).
  Proof.
    induction fuel as [|fuel IH]; intros d a r Hr Ha Hd Hf; [lia|]. cbn [full_tree].
    inversion Hr as [d' a' n Hn Hlo|d' a' f ks Hin Hh Ht Hd' Hks]; subst d' a' r.
    - destruct (terminal_reached t root a n Hc Ha He Hn) as (ds & E). destruct (Nat.leb_spec mx d); [|lia].
      exists ds. eapply emits_bind1; [exact E|]. inversion Hn; subst; apply emits_ret.
    - destruct (function_reached t f Hin Hh) as (ds & E). rewrite Ht in E. cbn [flatten]. destruct (Nat.leb_spec mx d); [lia|].
      destruct (flat_children (fun a => full_tree fuel t mx (S d) a) (S d) mx mx f ks Hks) as (ds' & E').
      { intros b k Hk Hb Hpk. apply IH; auto; try lia. right. exists f. split; assumption. }
      exists (ds ++ ds'). apply (emits_bind _ _ _ _ (Some (FNode f))); [exact E|]. cbv beta iota. rewrite params_removelast by exact Hh. exact E'.
  Qed.
End Steps.

Lemma tree_reached m p t r : clear_terminals t (g_root p) -> (forall e, t_erc t = Some e -> erc_proper e) -> (m = Grow -> undecided (g_prune p)) ->
  program_of m p t r -> exists ds, emits (create_tree m p t) ds (flatten r).
Proof.
  intros Hc He Hp Hr. destruct m; cbn [create_tree program_of] in *.
  - apply (grow_reached t (g_root p)); auto; unfold grow_fuel; try lia. left; reflexivity.
  - apply (full_reached t (g_root p)); auto; try lia. left; reflexivity.
Qed.

(** ** From trees back to programs *)

Lemma erc_sound e g v g' : erc_proper e -> draw_erc e g = (Ok v, g') -> erc_gives e v.
Proof.
  intros Hp H. destruct e as [lo hi|lo hi]; cbn [draw_erc erc_gives erc_proper] in *; mb H as x s Hx; unfold new_number in H; mb H as d s' Hd; mr H.
  - destruct Hp as [A B]. destruct lo as [a| | |]; try discriminate. destruct hi as [b| | |]; try discriminate.
    exists x, (d_n d). split; [|reflexivity]. unfold uniform in Hx. mb Hx as u s2 Hu. mr Hx. unfold random_unit in Hu. mb Hu as d0 s3 H0. mr Hu.
    exists a, b, (d_n d0 mod N.pos two53)%N. split; [reflexivity|]. split; [reflexivity|]. split; [|reflexivity].
    apply N.mod_upper_bound. discriminate.
  - destruct Hp as (a & b & -> & -> & Hab). exists x, (d_n d). split; [|reflexivity].
    destruct (randint_spec a b g x s Hx) as (z & -> & Hz). exists a, b, z. auto.
Qed.

Lemma terminal_sound t root a g n g' : clear_terminals t root -> requested t root a -> (forall e, t_erc t = Some e -> erc_proper e) ->
  random_terminal t a g = (Ok (Some n), g') -> terminal_for t a n.
Proof.
  intros Hc Hr Hp H. unfold random_terminal in H. mb H as rel s Hrel. set (rel0 := map fst (filter (fun e => oty_eqb (snd e) a) (t_tset t))) in Hrel.
  assert (Hl : forall v, In v rel0 -> In (v, a) (t_tset t)).
  { intros v Hv. apply in_map_iff in Hv. destruct Hv as ([k b] & <- & Hv). apply filter_In in Hv. destruct Hv as [Hv Hb]. apply oty_eqb_iff in Hb.
    simpl in *. subst. exact Hv. }
  assert (Hsrc : forall v, In v rel -> In (v, a) (t_tset t) \/ exists e, erc_applies t a = Some e /\ t_erc t = Some e /\ erc_gives e v).
  { intros v Hv. destruct (erc_applies t a) as [e|] eqn:Ee.
    - assert (He : t_erc t = Some e).
      { unfold erc_applies in Ee. destruct (t_erc t); [|discriminate]. destruct a as [b|]; [destruct (is_number_type b); [|discriminate]|]; congruence. }
      mb Hrel as c s' Hd. mr Hrel. apply in_app_or in Hv. destruct Hv as [Hv|[<-|[]]]; [left; auto|]. right. exists e. split; [reflexivity|].
      split; [exact He|]. eapply erc_sound; eauto.
    - mr Hrel. left. auto. }
  destruct rel as [|c rel]; [discriminate|]. mb H as v s' Hv. mr H. apply choice_In in Hv. destruct (Hsrc v Hv) as [Hin|(e & Ea & He & Hg)].
  - assert (tset_get v (t_tset t) (match a with None => None | Some _ => Some (tval_type v) end) = a) as ->.
    { destruct Hc as [[Hu Hk]|[Hd _]]; [|apply tset_get_in; assumption]. rewrite (Hu a Hr). apply get_none. exact Hk. }
    constructor. exact Hin.
  - destruct a as [b|].
    + assert (tset_get v (t_tset t) (Some (tval_type v)) = Some (erc_type e)) as ->.
      { destruct Hc as [[Hu _]|[_ Hk]]; [specialize (Hu _ Hr); discriminate|].
        rewrite tset_get_num; [f_equal; apply (erc_number_type e v Hg)|apply (erc_number_type e v Hg)|]. apply Hk. congruence. }
      eapply Typed_number; eauto. unfold erc_applies in Ea. rewrite He in Ea. destruct (is_number_type b); [reflexivity|discriminate].
    + assert (tset_get v (t_tset t) None = None) as ->.
      { destruct Hc as [[_ Hk]|[_ Hk]]; [apply get_none; exact Hk|]. apply tset_get_num; [apply (erc_number_type e v Hg)|]. apply Hk. congruence. }
      eapply Untyped_number; eauto.
Qed.

Lemma mapM_each {A B} (f : A -> R B) (P : A -> B -> Prop) l : (forall a g y g', In a l -> f a g = (Ok y, g') -> P a y) ->
  forall g ys g', mapM f l g = (Ok ys, g') -> Forall2 P l ys.
Proof.
  induction l as [|a l IH]; intros Hf g ys g' H; simpl in H.
  - mr H. constructor.
  - mb H as y s Hy. mb H as ys' s' Hys. mr H. constructor; [eapply Hf; [left; reflexivity|eauto]|]. eapply IH; eauto. intros. eapply Hf; [right|]; eauto.
Qed.

Lemma children_sound (t : tree) (lo hi d : nat) (g : option ty -> R (list node)) ts s ch s' :
  (forall a s l s', In a ts -> g a s = (Ok l, s') -> exists r, program t lo hi d a r /\ flatten r = l) ->
  mapM g ts s = (Ok ch, s') -> exists ks, Forall2 (program t lo hi d) ts ks /\ flat_map flatten ks = concat ch.
Proof.
  intros Hg H. apply (mapM_each g (fun a l => exists r, program t lo hi d a r /\ flatten r = l)) in H; [|intros; eapply Hg; eauto].
  clear Hg. induction H as [|a l ts ch (r & Hr & <-) _ (ks & Hk & E)]; [exists []; split; [constructor|reflexivity]|].
  exists (r :: ks). split; [constructor; auto|]. simpl. rewrite E. reflexivity.
Qed.

Section Back.
  Variables (t : tree) (root : option ty) (p : num) (mn mx : nat).
  Hypothesis Hc : clear_terminals t root.
  Hypothesis He : forall e, t_erc t = Some e -> erc_proper e.

  Lemma grow_sound fuel : forall d a g l g', requested t root a -> d <= Nat.max mn mx -> grow_tree fuel t mn mx p d a g = (Ok l, g') ->
    exists r, program t mn (Nat.max mn mx) d a r /\ flatten r = l.
  Proof.
    induction fuel as [|fuel IH]; intros d a g l g' Ha Hd H; [discriminate|]. cbn [grow_tree] in H. mb H as n s Hn.
    assert (Hcase : (mn <= d /\ exists s0 s1, random_terminal t a s0 = (Ok n, s1)) \/ (d < Nat.max mn mx /\ exists s0 s1, random_function t a s0 = (Ok n, s1))).
    { destruct (Nat.ltb_spec d mn); [right; split; [lia|eauto]|]. destruct (Nat.leb_spec mx d); [left; eauto|].
      mb Hn as u s0 Hu. destruct (nlt u p); [left|right; split; [lia|]]; eauto. }
    destruct n as [n|]; [|discriminate]. destruct Hcase as [(Hlo & s0 & s1 & E)|(Hhi & s0 & s1 & E)].
    - apply (terminal_sound t root) in E; auto. exists (Rose n []). split; [constructor; assumption|].
      inversion E; subst; mr H; reflexivity.
    - apply random_function_ok in E. destruct E as (f & -> & Hf & Hh & Hr). rewrite (params_firstn f Hh) in H. mb H as ch s2 Hch. mr H.
      apply (children_sound t mn (Nat.max mn mx) (S d)) in Hch.
      + destruct Hch as (ks & Hk & Ek). exists (Rose (FNode f) ks). split; [apply Call; auto|]. simpl. rewrite Ek. reflexivity.
      + intros b s3 l3 s4 Hb Hg. apply (IH _ _ _ _ _) in Hg; [exact Hg|right; exists f; split; assumption|lia].
  Qed.

  Lemma full_sound fuel : forall d a g l g', requested t root a -> d <= mx -> full_tree fuel t mx d a g = (Ok l, g') ->
    exists r, program t mx mx d a r /\ flatten r = l.
  Proof.
    induction fuel as [|fuel IH]; intros d a g l g' Ha Hd H; [discriminate|]. cbn [full_tree] in H. destruct (Nat.leb_spec mx d).
    - mb H as n s E. destruct n as [n|]; [|discriminate]. mr H. apply (terminal_sound t root) in E; auto.
      exists (Rose n []). split; [constructor; assumption|reflexivity].
    - mb H as n s E. destruct n as [n|]; [|discriminate]. apply random_function_ok in E. destruct E as (f & -> & Hf & Hh & Hr).
      rewrite (params_removelast f Hh) in H. mb H as ch s2 Hch. mr H. apply (children_sound t mx mx (S d)) in Hch.
      + destruct Hch as (ks & Hk & Ek). exists (Rose (FNode f) ks). split; [apply Call; auto|]. simpl. rewrite Ek. reflexivity.
      + intros b s3 l3 s4 Hb Hg. apply (IH _ _ _ _ _) in Hg; [exact Hg|right; exists f; split; assumption|lia].
  Qed.
End Back.

Lemma tree_sound m p t g l g' : clear_terminals t (g_root p) -> (forall e, t_erc t = Some e -> erc_proper e) ->
  create_tree m p t g = (Ok l, g') -> exists r, program_of m p t r /\ flatten r = l.
Proof.
  intros Hc He H. destruct m; cbn [create_tree program_of] in *.
  - apply (grow_sound t (g_root p)) in H; auto; [left; reflexivity|lia].
  - apply (full_sound t (g_root p)) in H; auto; [left; reflexivity|lia].
Qed.

Lemma program_saturated t lo hi : forall r d a, program t lo hi d a r -> saturated r.
Proof.
  fix IH 4. intros r d a H. destruct H as [d a n Hn _|d a f ks _ _ _ _ Hks].
  - inversion Hn; subst; split; reflexivity || exact I.
  - simpl. split.
    + clear -Hks. unfold arity. induction Hks; simpl; congruence.
    + revert Hks. generalize (f_params f). intros l Hks. induction Hks as [|b k l ks Hk Hks IH2]; [exact I|]. split; [eapply IH; exact Hk|exact IH2].
Qed.

(** ** Filling the new individuals one after the other *)

Definition has_genome (w : world) (o : oid) (g : genome) : Prop := exists i, at_ w o = Some i /\ i_genome i = g.

Lemma fill {X} (F : oid -> M unit) (gen : R X) (g0 : genome) (G : X -> genome) :
  (forall o w i x g', at_ w o = Some i -> i_genome i = g0 -> gen (w_rng w) = (Ok x, g') ->
     F o w = (Ok tt, mkWorld (list_set (w_heap w) o (set_genome (G x) i)) (w_next_id w) g')) ->
  forall dss xs os w, Forall2 (emits gen) dss xs -> length os = length xs -> NoDup os -> (forall o, In o os -> has_genome w o g0) ->
  ahead (w_rng w) (concat dss) ->
  exists w', iterM F os w = (Ok tt, w') /\ w_rng w' = advance (length (concat dss)) (w_rng w) /\ length (w_heap w') = length (w_heap w) /\
    Forall2 (fun o x => has_genome w' o (G x)) os xs /\ forall o, ~ In o os -> at_ w' o = at_ w o.
Proof.
  intros HF dss xs os w Hd. revert os w. induction Hd as [|ds x dss xs Hx Hd IH]; intros os w L N Hw U.
  - destruct os; [|discriminate]. exists w. split; [reflexivity|]. split; [simpl; symmetry; apply advance_0|]. split; [reflexivity|].
    split; [constructor|reflexivity].
  - destruct os as [|o os]; [discriminate|]. simpl in U. apply ahead_app in U. destruct U as [U1 U2]. inversion_clear N as [|? ? Ho N'].
    destruct (Hw o (or_introl eq_refl)) as (i & Hi & Hg). pose proof (HF o w i x _ Hi Hg (Hx _ U1)) as E.
    set (w1 := mkWorld _ _ _) in E.
    assert (Hoth : forall o', o' <> o -> at_ w1 o' = at_ w o').
    { intros o' Hne. unfold at_, w1. simpl. apply nth_list_set_other. congruence. }
    destruct (IH os w1) as (w' & E' & R' & L' & F' & O'); auto.
    { intros o' Ho'. destruct (Hw o' (or_intror Ho')) as (i' & Hi' & Hg'). exists i'. split; [|exact Hg']. rewrite Hoth; [exact Hi'|congruence]. }
    exists w'. split; [simpl; rewrite (bind_eq_ok _ _ _ _ _ E); exact E'|]. split.
    { rewrite R'. unfold w1. simpl. rewrite advance_advance, app_length. reflexivity. }
    split; [rewrite L'; unfold w1; simpl; apply list_set_length|]. split.
    + constructor; [|exact F']. exists (set_genome (G x) i). split; [|reflexivity]. rewrite O' by exact Ho. unfold at_, w1. simpl.
      apply nth_list_set_same. apply at_lt in Hi. exact Hi.
    + intros o' Hn. rewrite O' by (intros C; apply Hn; right; exact C). apply Hoth. intros ->. apply Hn. left. reflexivity.
Qed.

Lemma fresh_has w fit upd g n : let w1 := mkWorld (w_heap w ++ map (fresh_ind w fit upd g) (seq 0 n)) (w_next_id w + Z.of_nat n)%Z (w_rng w) in
  forall o, In o (seq (length (w_heap w)) n) -> has_genome w1 o g.
Proof.
  intros w1 o Ho. apply in_seq in Ho. eexists. split.
  - unfold at_, w1. cbn [w_heap]. rewrite nth_error_app2 by lia. rewrite nth_error_map.
    rewrite nth_error_nth' with (d := 0) by (rewrite seq_length; lia). reflexivity.
  - reflexivity.
Qed.

Lemma chosen {A B} (P : A -> B -> Prop) l : Forall (fun b => exists a, P a b) l -> exists la, Forall2 P la l.
Proof. induction 1 as [|b l (a & Ha) _ (la & IH)]; [exists []; constructor|]. exists (a :: la). constructor; assumption. Qed.

Definition seeded_with (ds : list N) : rng := mkRng (fun _ i => mkDraw (nth i ds 0%N) 0) (fun _ _ => mkDraw 0 0) 0 0 0 0.

Lemma seeded_ahead ds : ahead (seeded_with ds) ds.
Proof. intros i d H. simpl. apply nth_error_nth. exact H. Qed.

Definition tree_step m p : oid -> M unit := fun o =>
  t <- load_tree o ;; l <- liftR (create_tree m p t) ;; put_genome o (GTree (with_nodes t l)).

Lemma trees_by_draws m p h tset xs dss w :
  handle_input_types (g_fset p) (g_terms p) (g_typed p) (g_erc p) (g_root p) = Ok tset ->
  Forall2 (emits (create_tree m p (blank_tree p tset))) dss xs -> ahead (w_rng w) (concat dss) ->
  exists os w', create_trees m p (length xs) h w = (Ok os, w') /\ w_rng w' = advance (length (concat dss)) (w_rng w) /\
    os = seq (length (w_heap w)) (length xs) /\ length (w_heap w') = length (w_heap w) + length xs /\
    Forall2 (has_nodes w') os xs /\ forall o, o < length (w_heap w) -> at_ w' o = at_ w o.
Proof.
  intros Eh Hd U. unfold create_trees. rewrite (bind_eq_ok _ _ _ _ _ (new_trees p h tset (length xs) w Eh)).
  set (w1 := mkWorld _ _ _). set (os := seq (length (w_heap w)) (length xs)).
  destruct (fill (tree_step m p) (create_tree m p (blank_tree p tset)) (GTree (blank_tree p tset)) (fun l => GTree (with_nodes (blank_tree p tset) l)))
    with (dss := dss) (xs := xs) (os := os) (w := w1) as (w' & E & R & L & F & O); auto.
  { intros o w2 i x g' Hi Hg Hx. unfold tree_step. rewrite (bind_eq_ok _ _ _ _ _ (load_tree_at _ _ _ _ Hi Hg)).
    rewrite (bind_eq_ok _ _ _ _ _ (liftR_eq _ _ _ _ Hx)). unfold put_genome. rewrite (modify_at _ _ _ i) by exact Hi. reflexivity. }
  { apply seq_length. }
  { apply seq_NoDup. }
  { apply fresh_has. }
  unfold tree_step in E. rewrite (bind_eq_ok _ _ _ _ _ E). exists os, w'. split; [reflexivity|]. split; [exact R|]. split; [reflexivity|].
  split; [rewrite L; unfold w1; simpl; rewrite app_length, map_length, seq_length; reflexivity|]. split.
  - clear -F. induction F as [|o x os xs (i & Hi & Hg) _ IH]; constructor; [|exact IH]. exists (with_nodes (blank_tree p tset) x). split; [exists i; auto|reflexivity].
  - intros o Ho. rewrite O; [unfold at_, w1; simpl; apply nth_error_app1; exact Ho|]. unfold os. intros C. apply in_seq in C. lia.
Qed.

Lemma populations m p h tset heap id rs :
  handle_input_types (g_fset p) (g_terms p) (g_typed p) (g_erc p) (g_root p) = Ok tset ->
  clear_terminals (blank_tree p tset) (g_root p) -> (forall e, g_erc p = Some e -> erc_proper e) -> (m = Grow -> undecided (g_prune p)) ->
  (forall r, In r rs -> saturated r) ->
  (Forall (program_of m p (blank_tree p tset)) rs <->
   exists g os w', create_individuals (CGP m p) (length rs) h (mkWorld heap id g) = (Ok os, w') /\ Forall2 (fun o r => has_nodes w' o (flatten r)) os rs).
Proof.
  intros Eh Hc He Hp Hsat. split.
  - intros Hr. destruct (chosen (emits (create_tree m p (blank_tree p tset))) (map flatten rs)) as (dss & Hd).
    { apply Forall_map. eapply Forall_impl; [|exact Hr]. intros r Hpr. apply tree_reached; auto. }
    exists (seeded_with (concat dss)).
    destruct (trees_by_draws m p h tset (map flatten rs) dss (mkWorld heap id (seeded_with (concat dss))) Eh Hd (seeded_ahead _)) as (os & w' & E & _ & _ & _ & F & _).
    rewrite map_length in E. exists os, w'. split; [exact E|]. clear -F. revert rs F. induction os as [|o os IH]; intros rs F; destruct rs; inversion F; subst; constructor; auto.
  - intros (g & os & w' & H & F). revert H. generalize (mkWorld heap id g). intros w0 H.
    cbn [create_individuals] in H. unfold create_trees in H. rewrite (bind_eq_ok _ _ _ _ _ (new_trees p h tset (length rs) w0 Eh)) in H.
    set (w1 := mkWorld _ _ _) in H. set (l := seq _ (length rs)) in H. mb H as u w2 Hi. mr H.
    destruct (iterM_each (fun o => t <- load_tree o ;; l <- liftR (create_tree m p t) ;; put_genome o (GTree (with_nodes t l)))
                (tree_ind p tset h (fun _ => True)) (tree_ind p tset h (fun l => exists r, program_of m p (blank_tree p tset) r /\ flatten r = l)))
      with (l := l) (w := w1) (u := u) (w' := w') as (_ & P & _); auto.
    { intros i (A & B & C & c & D & _). repeat split; auto. eauto. }
    { intros o w3 i u' w4 Hi3 (A & B & C & c & D & _) H3. rewrite (bind_eq_ok _ _ _ _ _ (load_tree_at _ _ _ _ Hi3 D)) in H3.
      mb H3 as l0 s0 Hl0. apply liftR_ok in Hl0. destruct Hl0 as (g' & Hcr & ->).
      unfold put_genome in H3. rewrite (modify_at _ _ _ i) in H3 by exact Hi3. injection H3 as <- <-.
      eexists. split; [|reflexivity]. destruct i; cbn in *. repeat split; auto. exists l0. split; [reflexivity|].
      apply tree_sound in Hcr; auto. destruct Hcr as (r & Hr & El). exists r. split; [|exact El]. clear -Hr.
      assert (X : forall lo hi d a r, program (with_nodes (blank_tree p tset) c) lo hi d a r -> program (blank_tree p tset) lo hi d a r).
      { clear. fix IH 6. intros lo hi d a r H. destruct H as [d a n Hn Hl|d a f ks Hin Hh Ht Hd Hks].
        - apply Terminal; [|exact Hl]. destruct Hn; [apply Listed; assumption|eapply Untyped_number; eauto|eapply Typed_number; eauto].
        - apply Call; auto. induction Hks as [|b k ts ks Hk _ IH2]; constructor; [apply IH; exact Hk|exact IH2]. }
      destruct m; cbn [program_of] in *; apply X; exact Hr. }
    { intros o Ho. destruct (fresh_has w0 (new_fitness (KGP (g_bloat p)) h) (g_upd p) (GTree (blank_tree p tset)) (length rs) o Ho) as (i & Hi' & Hg).
      exists i. split; [exact Hi'|]. unfold at_ in Hi'. cbn [w_heap] in Hi'. apply in_seq in Ho. cbn [w_heap] in Ho. rewrite nth_error_app2 in Hi' by lia. rewrite nth_error_map in Hi'.
      destruct (nth_error (seq 0 (length rs)) (o - length (w_heap w0))); [|discriminate]. injection Hi' as <-. repeat split. exists []. split; auto. }
    clear -P F Hsat. fold l in F. assert (G : forall os rs, (forall o, In o os -> In o l) -> (forall r, In r rs -> saturated r) -> Forall2 (fun o r => has_nodes w' o (flatten r)) os rs ->
       Forall (program_of m p (blank_tree p tset)) rs).
    { clear F Hsat. intros os' rs' Ho Hs F. induction F as [|o r os'' rs'' (t & (i & Hi & Hg) & Hn) F IH]; constructor.
      - destruct (P o (Ho o (or_introl eq_refl))) as (i' & Hi' & _ & _ & _ & c & Hg' & r' & Hr' & El). rewrite Hi in Hi'. injection Hi' as <-.
        rewrite Hg in Hg'. injection Hg' as ->. simpl in Hn. subst c.
        assert (r' = r) as <-; [|exact Hr']. apply flatten_inj; auto; [|apply Hs; left; reflexivity]. destruct m; cbn [program_of] in Hr'; eapply program_saturated; exact Hr'.
      - apply IH; intros; [apply Ho|apply Hs]; right; assumption. }
    eapply G; [|exact Hsat|exact F]. auto.
Qed.

(** ** Ramped half-and-half *)

Definition lays (m : M (list oid)) (xs : list (list node)) : Prop :=
  exists ds, forall w, ahead (w_rng w) ds -> exists w',
    m w = (Ok (seq (length (w_heap w)) (length xs)), w') /\ w_rng w' = advance (length ds) (w_rng w) /\
    length (w_heap w') = length (w_heap w) + length xs /\
    Forall2 (has_nodes w') (seq (length (w_heap w)) (length xs)) xs /\ forall o, o < length (w_heap w) -> at_ w' o = at_ w o.

Lemma lays_nil : lays (ret []) [].
Proof.
  exists []. intros w _. exists w. split; [reflexivity|]. split; [symmetry; apply advance_0|]. split; [simpl; lia|]. split; [constructor|reflexivity].
Qed.

Lemma has_nodes_kept w w' os xs : (forall o, In o os -> at_ w' o = at_ w o) -> Forall2 (has_nodes w) os xs -> Forall2 (has_nodes w') os xs.
Proof.
  intros H F. induction F as [|o x os xs (t & (i & Hi & Hg) & Hn) _ IH]; constructor.
  - exists t. split; [|exact Hn]. exists i. split; [|exact Hg]. rewrite H; [exact Hi|left; reflexivity].
  - apply IH. intros o' Ho. apply H. right. exact Ho.
Qed.

Lemma lays_seq (m m2 : M (list oid)) xs ys : lays m xs -> lays m2 ys -> lays (a <- m ;; b <- m2 ;; ret (a ++ b)) (xs ++ ys).
Proof.
  intros (d1 & H1) (d2 & H2). exists (d1 ++ d2). intros w U. apply ahead_app in U. destruct U as [U1 U2].
  destruct (H1 w U1) as (w1 & E1 & R1 & L1 & F1 & O1). rewrite <- R1 in U2. destruct (H2 w1 U2) as (w2 & E2 & R2 & L2 & F2 & O2).
  exists w2. rewrite (bind_eq_ok _ _ _ _ _ E1), (bind_eq_ok _ _ _ _ _ E2). unfold ret. rewrite app_length, seq_app.
  split; [rewrite L1; reflexivity|]. split; [rewrite R2, R1, advance_advance, app_length; reflexivity|]. split; [rewrite L2, L1; lia|]. split.
  - apply Forall2_app; [|rewrite <- L1; exact F2]. eapply has_nodes_kept; [|exact F1]. intros o Ho. apply in_seq in Ho. apply O2. lia.
  - intros o Ho. rewrite O2 by lia. apply O1. exact Ho.
Qed.

Lemma lays_ext (m m2 : M (list oid)) xs : (forall w, m w = m2 w) -> lays m xs -> lays m2 xs.
Proof. intros E (ds & H). exists ds. intros w U. rewrite <- E. apply H. exact U. Qed.

Lemma lays_concat {A} (f : A -> M (list oid)) l xss : Forall2 (fun a xs => lays (f a) xs) l xss ->
  lays (parts <- mapM f l ;; ret (concat parts)) (concat xss).
Proof.
  induction 1 as [|a xs l xss Ha _ IH]; [apply lays_nil|]. simpl. eapply lays_ext; [|apply lays_seq; [exact Ha|exact IH]].
  intros w. unfold bind, ret. destruct (f a w) as [[x|e] w1]; [|reflexivity]. destruct (mapM f l w1) as [[y|e] w2]; reflexivity.
Qed.

Section Group.
  Variables (h : hibv).
  Lemma trees_laid m p tset rs :
    handle_input_types (g_fset p) (g_terms p) (g_typed p) (g_erc p) (g_root p) = Ok tset ->
    clear_terminals (blank_tree p tset) (g_root p) -> (forall e, g_erc p = Some e -> erc_proper e) -> (m = Grow -> undecided (g_prune p)) ->
    Forall (program_of m p (blank_tree p tset)) rs -> lays (create_trees m p (length rs) h) (map flatten rs).
  Proof.
    intros Eh Hc He Hp Hr. destruct (chosen (emits (create_tree m p (blank_tree p tset))) (map flatten rs)) as (dss & Hd).
    { apply Forall_map. eapply Forall_impl; [|exact Hr]. intros r Hpr. apply tree_reached; auto. }
    exists (concat dss). intros w U. destruct (trees_by_draws m p h tset _ dss w Eh Hd U) as (os & w' & E & R & -> & L & F & O).
    rewrite map_length in E at 1. exists w'. auto.
  Qed.
End Group.

Lemma repeat_split {A B} (P : A -> B -> Prop) a n rest l : Forall2 P (repeat a n ++ rest) l ->
  exists l1 l2, l = l1 ++ l2 /\ length l1 = n /\ Forall (P a) l1 /\ Forall2 P rest l2.
Proof.
  intros F. apply Forall2_app_inv_l in F. destruct F as (l1 & l2 & F1 & F2 & ->). exists l1, l2. split; [reflexivity|].
  split; [apply Forall2_len in F1; rewrite repeat_length in F1; auto|]. split; [|exact F2]. clear -F1. revert l1 F1.
  induction n as [|n IH]; intros l1 F; inversion F; subst; constructor; auto.
Qed.

Lemma half_laid mn mx grow full n h tg tf rs : mn <= mx -> 2 * (mx + 1 - mn) <= n ->
  handle_input_types (g_fset grow) (g_terms grow) (g_typed grow) (g_erc grow) (g_root grow) = Ok tg ->
  handle_input_types (g_fset full) (g_terms full) (g_typed full) (g_erc full) (g_root full) = Ok tf ->
  clear_terminals (blank_tree grow tg) (g_root grow) -> clear_terminals (blank_tree full tf) (g_root full) ->
  (forall e, g_erc grow = Some e \/ g_erc full = Some e -> erc_proper e) -> undecided (g_prune grow) ->
  Forall2 (plan_program mn grow full tg tf) (half_plan mn mx n) rs ->
  lays (create_half mn mx grow full n h) (map flatten rs).
Proof.
  intros Hm Hn Eg Ef Cg Cf He Hp F.
  unfold create_half. destruct (Nat.eqb_spec (mx + 1) mn); [lia|]. destruct (Nat.ltb_spec (mx + 1) mn); [lia|].
    set (q := n / (2 * (mx + 1 - mn))). assert (Hq : 1 <= q) by (apply Nat.div_le_lower_bound; lia).
    destruct (Nat.eqb_spec q 0); [lia|]. unfold half_plan in F. fold q in F. apply Forall2_app_inv_l in F. destruct F as (r1 & r2 & F1 & F2 & ->).
    assert (Hmul : 2 * q * (mx + 1 - mn) <= n).
    { pose proof (Nat.mul_div_le n (2 * (mx + 1 - mn))). fold q in H0. nia. }
    assert (Hgroups : exists xss, Forall2 (fun d xs => lays (a <- create_trees Grow (with_depth grow mn d) q h ;; b <- create_trees Full (with_depth full mn d) q h ;; ret (a ++ b)) xs)
               (seq mn (mx + 1 - mn)) xss /\ concat xss = map flatten r1).
    { clear F2. revert r1 F1. generalize (seq mn (mx + 1 - mn)). intros ds. induction ds as [|d ds IH]; intros r1 F1.
      - inversion F1. exists []. split; [constructor|reflexivity].
      - cbn [flat_map] in F1. rewrite <- !app_assoc in F1. apply repeat_split in F1. destruct F1 as (a & rest & -> & La & Fa & F1).
        apply repeat_split in F1. destruct F1 as (b & rest' & -> & Lb & Fb & F1). destruct (IH rest' F1) as (xss & Fx & Ex).
        exists ((map flatten a ++ map flatten b) :: xss). split.
        + constructor; [|exact Fx]. apply lays_seq.
          * rewrite <- La. apply (trees_laid h Grow (with_depth grow mn d) tg a); auto.
          * rewrite <- Lb. apply (trees_laid h Full (with_depth full mn d) tf b); auto. discriminate.
        + simpl. rewrite Ex, !map_app, app_assoc. reflexivity. }
    destruct Hgroups as (xss & Fx & Ex). pose proof (lays_concat _ _ _ Fx) as G1. rewrite Ex in G1.
    assert (L1 : length r1 = 2 * q * (mx + 1 - mn)).
    { apply Forall2_len in F1. rewrite <- F1. rewrite <- (seq_length (mx + 1 - mn) mn) at 2. generalize (seq mn (mx + 1 - mn)). intros ds.
      induction ds as [|d ds IH]; [simpl; lia|]. cbn [flat_map]. rewrite !app_length, !repeat_length, IH. cbn [length]. lia. }
    rewrite <- (app_nil_r (repeat _ _)) in F2. apply repeat_split in F2.
    destruct F2 as (r2' & l2 & E2 & L2 & Fl & Fn). inversion Fn; subst l2. rewrite app_nil_r in E2. subst r2'.
    assert (G2 : lays (create_trees Full (with_depth full mn mx) (length r2) h) (map flatten r2)).
    { apply (trees_laid h Full (with_depth full mn mx) tf r2); auto. discriminate. }
    destruct (Nat.eq_dec (length r2) 0) as [Z0|Z0].
    - assert (r2 = []) as -> by (destruct r2; [reflexivity|discriminate]). rewrite app_nil_r. destruct G1 as (ds & G1). exists ds. intros w U.
      destruct (G1 w U) as (w' & E & R). exists w'. split; [|exact R].
      unfold bind in E. unfold bind. destruct (mapM _ _ w) as [[parts|e] w1]; [|discriminate]. injection E as E ->.
      rewrite E, seq_length, map_length, L1. simpl in L2. destruct (Nat.eqb_spec (n - 2 * q * (mx + 1 - mn)) 0); [reflexivity|lia].
    - rewrite map_app. pose proof (lays_seq _ _ _ _ G1 G2) as G3. destruct G3 as (ds & G3). exists ds. intros w U. destruct G1 as (ds1 & G1).
      destruct (G3 w U) as (w' & E & R). exists w'. split; [|exact R].
      unfold bind in E. unfold bind. destruct (mapM _ _ w) as [[parts|e] w1] eqn:Em; [|discriminate]. cbn [ret] in E. unfold ret in E.
      assert (Lc : length (concat parts) = length r1).
      { destruct (create_trees Full (with_depth full mn mx) (length r2) h w1) as [[y|e] w2] eqn:E2; [|discriminate].
        injection E as E _. assert (length (concat parts ++ y) = length r1 + length r2) by (rewrite E, seq_length, app_length, !map_length; reflexivity).
        rewrite app_length in H0. assert (length y = length r2); [|lia].
        unfold create_trees in E2. rewrite (bind_eq_ok _ _ _ _ _ (new_trees (with_depth full mn mx) h tf (length r2) w1 Ef)) in E2.
        mb E2 as u2 w3 Hi. mr E2. apply seq_length. }
      rewrite Lc, L1. destruct (Nat.eqb_spec (n - 2 * q * (mx + 1 - mn)) 0); [lia|]. rewrite <- L2. exact E.
Qed.

Lemma half_populations mn mx grow full n h tg tf heap id rs : mn <= mx -> 2 * (mx + 1 - mn) <= n ->
  handle_input_types (g_fset grow) (g_terms grow) (g_typed grow) (g_erc grow) (g_root grow) = Ok tg ->
  handle_input_types (g_fset full) (g_terms full) (g_typed full) (g_erc full) (g_root full) = Ok tf ->
  clear_terminals (blank_tree grow tg) (g_root grow) -> clear_terminals (blank_tree full tf) (g_root full) ->
  (forall e, g_erc grow = Some e \/ g_erc full = Some e -> erc_proper e) -> undecided (g_prune grow) ->
  Forall2 (plan_program mn grow full tg tf) (half_plan mn mx n) rs ->
  exists g os w', create_individuals (CHalf mn mx grow full) n h (mkWorld heap id g) = (Ok os, w') /\ Forall2 (fun o r => has_nodes w' o (flatten r)) os rs.
Proof.
  intros Hm Hn Eg Ef Cg Cf He Hp F. cbn [create_individuals].
  pose proof (half_laid mn mx grow full n h tg tf rs Hm Hn Eg Ef Cg Cf He Hp F) as X.
  destruct X as (ds & X). destruct (X (mkWorld heap id (seeded_with ds)) (seeded_ahead ds)) as (w' & E & _ & _ & Fw & _).
  exists (seeded_with ds), (seq (length heap) (length (map flatten rs))), w'. split; [exact E|]. cbn [w_heap] in Fw.
  clear -Fw. revert Fw. generalize (seq (length heap) (length (map flatten rs))). revert rs. intros rs l. revert rs.
  induction l as [|o l IH]; intros rs Fw; destruct rs; inversion Fw; subst; constructor; auto.
Qed.
