(** * Creation of trees by Grow and Full. *)
From Coq Require Import Lia Permutation.
From Verif.Model Require Import Tree World.
From Verif.Spec Require Import TreeSpec WorldSpec.
From Verif.Proofs Require Import Lib WorldP VectorP VecOpP VecCreateP TreeP.
From Verif.Model Require Import Tree World Creators.
Open Scope nat_scope.
Open Scope list_scope.

(** ** Random nodes *)

Lemma random_function_ok t nt g n g' : random_function t nt g = (Ok (Some n), g') ->
  exists f, n = FNode f /\ In f (t_fset t) /\ hinted f /\ f_ret f = nt.
Proof.
  unfold random_function. destruct (filter _ _) as [|c cs] eqn:E; [discriminate|]. intros H.
  mb H as f s Hc. mb H as m s' Hf. mr H. 
  unfold lift in Hf. injection Hf as Hf <-. apply function_node_ok in Hf as [-> Hh].
  apply choice_In in Hc. rewrite <- E in Hc. apply filter_In in Hc as [Hin Hr].
  apply oty_eqb_iff in Hr. unfold get_return_type in Hr. eauto.
Qed.

Lemma draw_erc_ok e g v g' : draw_erc e g = (Ok v, g') -> erc_number e v.
Proof.
  destruct e as [lo hi|lo hi]; cbn [draw_erc]; intros H; mb H as x s Hx; unfold new_number in H;
    mb H as d s' Hd; mr H; exists x, (d_n d); split; auto; intros a b -> ->.
  - intros Hab. destruct (uniform_spec a b g Hab) as (q & g2 & Hq & Hr). rewrite Hq in Hx.
    injection Hx as <- <-. eauto.
  - eapply randint_spec; eauto.
Qed.

Lemma tset_get_in v l d : dictionary l -> forall a, In (v, a) l -> tset_get v l d = a.
Proof.
  intros Hd a Hin. destruct (Hd _ _ Hin) as [Hself _].
  assert (forall k b, In (k, b) l -> tval_eq v k = true -> a = b) as Hu by (intros; eapply Hd; eauto).
  clear Hd. induction l as [|[k b] l IH]; [easy|]. cbn.
  destruct (tval_eq v k) eqn:E.
  - symmetry. eapply Hu; eauto. now left.
  - destruct Hin as [Hin|Hin]; [injection Hin as -> ->; congruence|].
    apply IH; auto. intros; eapply Hu; eauto. now right.
Qed.

Lemma tset_get_num v l d : is_num_tval v = true ->
  (forall k a, In (k, a) l -> is_num_tval k = false) -> tset_get v l d = d.
Proof.
  intros Hv. induction l as [|[k b] l IH]; intros H; cbn; auto.
  assert (tval_eq v k = false) as ->.
  { destruct v, k; cbn in *; auto; try discriminate. specialize (H _ _ (or_introl eq_refl)). discriminate. }
  apply IH. intros; eapply H; right; eauto.
Qed.

Lemma random_terminal_ok t nt g n g' : random_terminal t nt g = (Ok (Some n), g') ->
  exists v a, n = TNode v a /\ primitive t n /\
    (forall root, typed_terminals t root -> requested t root nt -> a = nt).
Proof.
  unfold random_terminal. intros H. mb H as rel s Hrel.
  assert (forall v, In v rel -> (exists a, In (v, a) (t_tset t) /\ a = nt) \/
            (exists e, erc_applies t nt = Some e /\ erc_number e v)) as Hsrc.
  { intros v Hv.
    assert (In v (map fst (filter (fun e => oty_eqb (snd e) nt) (t_tset t))) -> exists a, In (v, a) (t_tset t) /\ a = nt) as Ht.
    { intros Hi. apply in_map_iff in Hi as ([k a] & Hk & Hi). cbn in Hk. subst k.
      apply filter_In in Hi as [Hi Ho]. apply oty_eqb_iff in Ho. eauto. }
    destruct (erc_applies t nt) as [e|] eqn:Ee.
    - mb Hrel as c s' Hc. mr Hrel. apply in_app_iff in Hv as [Hv|[<-|[]]]; auto.
      right. exists e. split; auto. eapply draw_erc_ok; eauto.
    - mr Hrel. auto. }
  destruct rel as [|r rel]; [discriminate|]. mb H as v s' Hv. mr H.
  apply choice_In in Hv. specialize (Hsrc v Hv).
  eexists v, _. split; [reflexivity|]. split.
  - cbn. destruct Hsrc as [(a & Ha & _)|(e & He & Hn)]; [eauto|right; exists e; split; auto].
    unfold erc_applies in He. destruct (t_erc t); [|discriminate].
    destruct nt as [b|]; [destruct (is_number_type b)|]; congruence.
  - intros root [[Hu Hn]|[Hd Herc]] Hreq.
    { rewrite (Hu nt Hreq). clear - Hn. induction (t_tset t) as [|[k a] l IH]; cbn; [reflexivity|].
      destruct (tval_eq v k); [apply (Hn k a); left; reflexivity|]. apply IH. intros; eapply Hn; right; eauto. }
    destruct Hsrc as [(a & Ha & <-)|(e & He & Hn)].
    + now apply tset_get_in.
    + unfold erc_applies in He. destruct (t_erc t) as [e'|] eqn:Et; [|discriminate].
      destruct (Herc _ eq_refl) as [Hk Hr].
      assert (is_num_tval v = true /\ tval_type v = erc_type e) as [Hv1 Hv2].
      { destruct e; cbn in Hn; destruct Hn as (x & tag & -> & _); auto. }
      rewrite tset_get_num; auto. destruct nt as [b|]; auto.
      destruct (is_number_type b) eqn:Eb; [|discriminate]. injection He as <-.
      rewrite Hv2, <- (Hr b); auto.
Qed.

(** ** Children *)
Lemma mapM_trees {A} (f : A -> R (list node)) (P : A -> rtree -> Prop) l : forall g parts g',
  (forall a g m g', In a l -> f a g = (Ok m, g') -> exists k, P a k /\ flatten k = m) ->
  mapM f l g = (Ok parts, g') ->
  exists ks, Forall2 P l ks /\ List.concat parts = flat_map flatten ks.
Proof.
  induction l as [|a l IH]; intros g parts g' H Hm; cbn in Hm.
  - mr Hm. exists []. split; [constructor|auto].
  - mb Hm as m s Ha. mb Hm as ms s' Hl. mr Hm.
    destruct (H _ _ _ _ (or_introl eq_refl) Ha) as (k & Pk & <-).
    destruct (IH _ _ _ (fun b g m g' Hb => H b g m g' (or_intror Hb)) Hl) as (ks & Hks & E).
    exists (k :: ks). split; [constructor; auto|]. cbn. now rewrite E.
Qed.

Lemma Forall2_In_r {A B} (P : A -> B -> Prop) l m y : Forall2 P l m -> In y m -> exists x, In x l /\ P x y.
Proof.
  induction 1 as [|a b l m H HF IH]; intros Hy; [easy|]. destruct Hy as [->|Hy].
  - exists a. split; auto. now left.
  - destruct (IH Hy) as (x & Hx & Px). exists x. split; auto. now right.
Qed.

(** What is known about a created (sub)tree: leaves between [lo] and [hi], the nodes are primitives,
    and types are right if terminals are. *)
Definition created (t : tree) (lo hi d : nat) (nt : option ty) (rt : rtree) : Prop :=
  saturated rt /\ (forall n, In n (flatten rt) -> primitive t n) /\
  (forall f, In (FNode f) (flatten rt) -> hinted f) /\
  (positive_arities (t_fset t) -> forall x, In x (leaf_depths d rt) -> lo <= x <= hi) /\
  (forall x, In x (leaf_depths d rt) -> x <= hi) /\
  (forall root, typed_terminals t root -> requested t root nt ->
     well_typed rt /\ delivers (label rt) = nt).

Lemma leaf_ge d t x : In x (leaf_depths d t) -> d <= x.
Proof.
  revert d; induction t as [n ks IH] using rose_ind; intros d H. destruct ks as [|k ks]; cbn [leaf_depths] in H.
  - destruct H as [<-|[]]; auto.
  - apply in_flat_map in H as (k' & Hk & Hx). rewrite All_In in IH. apply IH in Hx; auto. lia.
Qed.

Lemma created_leaf t lo hi d nt v a : lo <= d <= hi -> primitive t (TNode v a) ->
  (forall root, typed_terminals t root -> requested t root nt -> a = nt) ->
  created t lo hi d nt (Rose (TNode v a) []).
Proof.
  intros Hd Hp Ht. repeat split; cbn in *; auto.
  - intros n [<-|[]]; auto.
  - intros f [H|[]]. discriminate.
  - destruct H0 as [<-|[]]; lia.
  - destruct H0 as [<-|[]]; lia.
  - intros x [<-|[]]; lia.
  - eauto.
Qed.

Lemma created_node t lo hi d f ks : d <= hi -> In f (t_fset t) -> hinted f ->
  Forall2 (created t lo hi (S d)) (f_params f) ks ->
  created t lo hi d (f_ret f) (Rose (FNode f) ks).
Proof.
  intros Hd Hf Hh HF.
  assert (length ks = arity f) as L by (apply Forall2_len in HF; unfold arity; congruence).
  assert (forall k, In k ks -> exists a, In a (f_params f) /\ created t lo hi (S d) a k) as HK.
  { intros k Hk. eapply Forall2_In_r; eauto. }
  split; [|split; [|split; [|split; [|split]]]].
  - split; auto. rewrite All_In. intros k Hk. destruct (HK k Hk) as (a & _ & Hc). apply Hc.
  - intros n [<-|Hn]; [exact Hf|]. apply in_flat_map in Hn as (k & Hk & Hn).
    destruct (HK k Hk) as (a & _ & Hc). now apply Hc.
  - intros g [Hg|Hg]; [injection Hg as <-; auto|]. apply in_flat_map in Hg as (k & Hk & Hg).
    destruct (HK k Hk) as (a & _ & Hc). now apply Hc.
  - intros Hpos x Hx. destruct ks as [|k ks].
    + apply Hpos in Hf. cbn in L. lia.
    + cbn [leaf_depths] in Hx. apply in_flat_map in Hx as (k' & Hk & Hx).
      destruct (HK k' Hk) as (a & _ & Hc). now apply Hc.
  - intros x Hx. destruct ks as [|k ks].
    + cbn in Hx. destruct Hx as [<-|[]]. auto.
    + cbn [leaf_depths] in Hx. apply in_flat_map in Hx as (k' & Hk & Hx).
      destruct (HK k' Hk) as (a & _ & Hc). now apply Hc.
  - intros root Ht Hreq. split; [|reflexivity].
    assert (forall a k, In a (f_params f) -> created t lo hi (S d) a k -> well_typed k /\ delivers (label k) = a) as HW.
    { intros a k Ha Hc. destruct Hc as (_ & _ & _ & _ & _ & Hw). apply (Hw root); auto. right. eauto. }
    split; [split; auto|].
    + clear -HF HW. induction HF as [|a k l ks Hk HF IH]; cbn; auto.
      f_equal; [apply HW; auto; now left|]. apply IH. intros; apply HW; auto. now right.
    + rewrite All_In. intros k Hk. destruct (HK k Hk) as (a & Ha & Hc). eapply HW; eauto.
Qed.

Lemma grow_created fuel t mn mx p : forall d nt g l g', d <= Nat.max mn mx ->
  grow_tree fuel t mn mx p d nt g = (Ok l, g') ->
  exists rt, created t mn (Nat.max mn mx) d nt rt /\ flatten rt = l.
Proof.
  induction fuel as [|fuel IH]; intros d nt g l g' Hd H; [discriminate|].
  cbn [grow_tree] in H. mb H as n s Hn.
  assert (exists g1, (random_terminal t nt g1 = (Ok n, s) /\ mn <= d) \/
                     (random_function t nt g1 = (Ok n, s) /\ d < Nat.max mn mx)) as (g1 & Hsrc).
  { destruct (Nat.ltb_spec d mn); [exists g; right; split; auto; lia|].
    destruct (Nat.leb_spec mx d); [exists g; left; auto|].
    mb Hn as u s1 Hu. exists s1. destruct (nlt u p); [left; auto|right; split; auto; lia]. }
  destruct n as [n|]; [|discriminate]. destruct Hsrc as [[Ht Hlo]|[Hf Hhi]].
  - apply random_terminal_ok in Ht as (v & a & -> & Hp & Hty). mr H.
    exists (Rose (TNode v a) []). split; auto. apply created_leaf; auto.
  - apply random_function_ok in Hf as (f & -> & Hin & Hh & Hr). mb H as parts s1 Hm. mr H.
    rewrite types_hinted in Hm by auto. unfold arity in Hm.
    rewrite firstn_app, Nat.sub_diag, firstn_all, firstn_O, app_nil_r in Hm.
    destruct (mapM_trees _ (created t mn (Nat.max mn mx) (S d)) _ _ _ _
                (fun a g m g' _ Ha => IH (S d) a g m g' ltac:(lia) Ha) Hm) as (ks & HF & E).
    exists (Rose (FNode f) ks). split; [|cbn; now rewrite E].
    apply created_node; auto.
Qed.

Lemma full_created fuel t mx : forall d nt g l g', d <= mx ->
  full_tree fuel t mx d nt g = (Ok l, g') ->
  exists rt, created t mx mx d nt rt /\ flatten rt = l.
Proof.
  induction fuel as [|fuel IH]; intros d nt g l g' Hd H; [discriminate|].
  cbn [full_tree] in H. destruct (Nat.leb_spec mx d).
  - mb H as n s Hn. destruct n as [n|]; [|discriminate]. mr H.
    apply random_terminal_ok in Hn as (v & a & -> & Hp & Hty).
    exists (Rose (TNode v a) []). split; auto. apply created_leaf; auto.
  - mb H as n s Hn. destruct n as [n|]; [|discriminate].
    apply random_function_ok in Hn as (f & -> & Hin & Hh & Hr). mb H as parts s1 Hm. mr H.
    rewrite types_hinted in Hm by auto. rewrite removelast_last in Hm.
    destruct (mapM_trees _ (created t mx mx (S d)) _ _ _ _
                (fun a g m g' _ Ha => IH (S d) a g m g' ltac:(lia) Ha) Hm) as (ks & HF & E).
    exists (Rose (FNode f) ks). split; [|cbn; now rewrite E].
    apply created_node; auto.
Qed.

(** ** Creation succeeds when every requested type has functions and terminals. *)

Lemma draw_erc_total e g : erc_valid e -> exists v g', draw_erc e g = (Ok v, g').
Proof.
  destruct e as [lo hi|lo hi]; cbn; intros H.
  - unfold uniform, random_unit, new_number, bind, next_draw, ret. eauto.
  - destruct H as (a & b & -> & -> & Hab). destruct (randint_ok a b g Hab) as (x & g' & E).
    rewrite (bind_eq_ok _ _ _ _ _ E). unfold new_number, bind, next_draw, ret. eauto.
Qed.

Lemma random_terminal_total t root nt g : supplied t root -> requested t root nt ->
  exists n g', random_terminal t nt g = (Ok (Some n), g').
Proof.
  intros (_ & He & Hs) Hr. destruct (Hs _ Hr) as [_ Ht]. unfold random_terminal.
  set (rel := map fst (filter (fun e => oty_eqb (snd e) nt) (t_tset t))).
  assert ((exists v, In (v, nt) (t_tset t)) -> rel <> []) as Hrel.
  { intros (v & Hv) E. assert (In v rel) as Hi; [|rewrite E in Hi; easy].
    apply in_map_iff. exists (v, nt). split; auto. apply filter_In. split; auto. now apply oty_eqb_iff. }
  assert (exists rel' g', match erc_applies t nt with
               | None => ret rel
               | Some e => c <- draw_erc e ;; ret (rel ++ [c])
               end g = (Ok rel', g') /\ rel' <> []) as (rel' & g' & E & Hne).
  { unfold erc_applies. destruct (t_erc t) as [e|] eqn:Ee.
    - destruct (match nt with None => Some e | Some ty => if is_number_type ty then Some e else None end) as [e'|] eqn:E'.
      + assert (e' = e) as -> by (destruct nt as [b|]; [destruct (is_number_type b)|]; congruence).
        destruct (draw_erc_total e g (He _ eq_refl)) as (v & g' & E). rewrite (bind_eq_ok _ _ _ _ _ E).
        unfold ret. do 2 eexists. split; [reflexivity|]. destruct rel; discriminate.
      + exists rel, g. split; auto. apply Hrel. destruct Ht as [Ht|[_ Ht]]; auto.
        destruct nt as [b|]; [rewrite Ht in E'|]; discriminate.
    - exists rel, g. split; auto. apply Hrel. destruct Ht as [Ht|[Ht _]]; auto. congruence. }
  rewrite (bind_eq_ok _ _ _ _ _ E). destruct rel' as [|r rel']; [congruence|].
  destruct (choice_ok (r :: rel') g') as (x & g2 & Hx); [discriminate|].
  rewrite (bind_eq_ok _ _ _ _ _ Hx). unfold ret. eauto.
Qed.

Lemma random_function_total t root nt g : supplied t root -> requested t root nt ->
  exists f g', random_function t nt g = (Ok (Some (FNode f)), g').
Proof.
  intros (Hh & _ & Hs) Hr. destruct (Hs _ Hr) as [(f & Hf & Ef) _]. unfold random_function.
  destruct (filter _ (t_fset t)) as [|c cs] eqn:E.
  - assert (In f []) as []. rewrite <- E. apply filter_In. split; auto. now apply oty_eqb_iff.
  - destruct (choice_ok (c :: cs) g) as (x & g2 & Hx); [discriminate|].
    rewrite (bind_eq_ok _ _ _ _ _ Hx). apply choice_In in Hx. rewrite <- E in Hx. apply filter_In in Hx as [Hx _].
    unfold bind, lift. rewrite function_node_hinted by auto. unfold ret. eauto.
Qed.

Lemma mapM_total {S A B} (f : A -> SE S B) l : (forall a s, In a l -> exists b s', f a s = (Ok b, s')) ->
  forall s, exists bs s', mapM f l s = (Ok bs, s').
Proof.
  induction l as [|a l IH]; intros H s; cbn; [unfold ret; eauto|].
  destruct (H a s (or_introl eq_refl)) as (b & s1 & E). rewrite (bind_eq_ok _ _ _ _ _ E).
  destruct (IH (fun x s' Hx => H x s' (or_intror Hx)) s1) as (bs & s2 & E2).
  rewrite (bind_eq_ok _ _ _ _ _ E2). unfold ret. eauto.
Qed.

Lemma requested_param t root f a : In f (t_fset t) -> In a (f_params f) -> requested t root a.
Proof. right; eauto. Qed.

Lemma grow_total fuel t root mn mx p : supplied t root ->
  forall d nt g, d <= Nat.max mn mx < fuel + d -> requested t root nt ->
  exists l g', grow_tree fuel t mn mx p d nt g = (Ok l, g').
Proof.
  intros Hs. induction fuel as [|fuel IH]; intros d nt g Hf Hr; [lia|]. cbn [grow_tree].
  assert (exists n g1, (if d <? mn then random_function t nt
            else if mx <=? d then random_terminal t nt
            else u <- random_unit ;; if nlt u p then random_terminal t nt else random_function t nt) g = (Ok (Some n), g1) /\
            ((exists v a, n = TNode v a) \/ (exists f, n = FNode f /\ In f (t_fset t) /\ hinted f /\ d < Nat.max mn mx)))
    as (n & g1 & E & Hn).
  { assert (forall g, exists n g1, random_terminal t nt g = (Ok (Some n), g1) /\ (exists v a, n = TNode v a)) as HT.
    { intros g0. destruct (random_terminal_total t root nt g0 Hs Hr) as (n & g1 & E).
      exists n, g1. split; auto. apply random_terminal_ok in E as (v & a & -> & _). eauto. }
    assert (forall g, exists n g1, random_function t nt g = (Ok (Some n), g1) /\ (exists f, n = FNode f /\ In f (t_fset t) /\ hinted f)) as HF.
    { intros g0. destruct (random_function_total t root nt g0 Hs Hr) as (f & g1 & E).
      exists (FNode f), g1. split; auto. apply random_function_ok in E as (f' & E' & Hin & Hh & _).
      injection E' as <-. eauto. }
    destruct (Nat.ltb_spec d mn).
    - destruct (HF g) as (n & g1 & E & f & -> & Hin & Hh). do 2 eexists. split; [eauto|]. right. exists f. repeat split; auto. lia.
    - destruct (Nat.leb_spec mx d).
      + destruct (HT g) as (n & g1 & E & Hn). eauto.
      + destruct (random_unit_spec g) as (u & g2 & Eu & _). rewrite (bind_eq_ok _ _ _ _ _ Eu).
        destruct (nlt (Fin u) p).
        * destruct (HT g2) as (n & g1 & E & Hn). eauto.
        * destruct (HF g2) as (n & g1 & E & f & -> & Hin & Hh). do 2 eexists. split; [eauto|]. right. exists f. repeat split; auto. lia. }
  rewrite (bind_eq_ok _ _ _ _ _ E). destruct Hn as [(v & a & ->)|(f & -> & Hin & Hh & Hlt)]; [unfold ret; eauto|].
  destruct (mapM_total (fun a => grow_tree fuel t mn mx p (S d) a) (firstn (arity f) (get_func_types f))) with (s := g1)
    as (ms & g2 & Em).
  { intros a s Ha. apply IH; [lia|]. rewrite types_hinted in Ha by auto. unfold arity in Ha.
    rewrite firstn_app, Nat.sub_diag, firstn_all, firstn_O, app_nil_r in Ha. eapply requested_param; eauto. }
  rewrite (bind_eq_ok _ _ _ _ _ Em). unfold ret. eauto.
Qed.

Lemma full_total fuel t root mx : supplied t root ->
  forall d nt g, d <= mx < fuel + d -> requested t root nt ->
  exists l g', full_tree fuel t mx d nt g = (Ok l, g').
Proof.
  intros Hs. induction fuel as [|fuel IH]; intros d nt g Hf Hr; [lia|]. cbn [full_tree].
  destruct (Nat.leb_spec mx d).
  - destruct (random_terminal_total t root nt g Hs Hr) as (n & g1 & E).
    rewrite (bind_eq_ok _ _ _ _ _ E). unfold ret. eauto.
  - destruct (random_function_total t root nt g Hs Hr) as (f & g1 & E).
    rewrite (bind_eq_ok _ _ _ _ _ E). apply random_function_ok in E as (f' & E' & Hin & Hh & _).
    injection E' as <-.
    destruct (mapM_total (fun a => full_tree fuel t mx (S d) a) (removelast (get_func_types f))) with (s := g1)
      as (ms & g2 & Em).
    { intros a s Ha. apply IH; [lia|]. rewrite types_hinted in Ha by auto. rewrite removelast_last in Ha.
      eapply requested_param; eauto. }
    rewrite (bind_eq_ok _ _ _ _ _ Em). unfold ret. eauto.
Qed.

(** ** The creators *)

Lemma created_nodes_intro m p t lo hi rt : created t lo hi 0 (g_root p) rt ->
  (lo, hi) = match m with Grow => (g_min p, Nat.max (g_min p) (g_max p)) | Full => (g_max p, g_max p) end ->
  created_nodes m p t (flatten rt).
Proof.
  intros (Hs & Hp & Hh & Hl & _ & Hw) E. exists rt. repeat split; auto.
  - intros u Hu Eu. symmetry. apply flatten_inj; auto.
  - intros Hpos. destruct m; injection E as -> ->; intros x Hx; now apply Hl.
  - apply (Hw (g_root p)); auto. now left.
  - apply (Hw (g_root p)); auto. now left.
Qed.

Lemma create_tree_ok m p t g l g' : create_tree m p t g = (Ok l, g') -> created_nodes m p t l.
Proof.
  destruct m; cbn [create_tree]; intros H.
  - apply grow_created in H as (rt & Hc & <-); [|lia]. eapply created_nodes_intro; eauto.
  - apply full_created in H as (rt & Hc & <-); [|lia]. eapply created_nodes_intro; eauto.
Qed.

Lemma create_tree_total m p t g : supplied t (g_root p) -> exists l g', create_tree m p t g = (Ok l, g').
Proof.
  intros H. destruct m; cbn [create_tree].
  - apply (grow_total _ t (g_root p)); auto; [unfold grow_fuel; lia|now left].
  - apply (full_total _ t (g_root p)); auto; [lia|now left].
Qed.

Lemma handle_ok p tset : handle_input_types (g_fset p) (g_terms p) (g_typed p) (g_erc p) (g_root p) = Ok tset ->
  tset = if g_typed p then g_terms p else map (fun x => (fst x, None)) (g_terms p).
Proof.
  unfold handle_input_types. destruct (g_typed p).
  - destruct (existsb _ _); [discriminate|]. destruct (negb _); [discriminate|].
    destruct (match g_erc p with Some r => _ | None => _ end); [discriminate|].
    destruct (_ && _); [|discriminate]. congruence.
  - destruct (existsb _ _); [discriminate|]. congruence.
Qed.

Lemma repeatM_ext {S A} (a b : SE S A) n : (forall s, a s = b s) -> forall s, repeatM n a s = repeatM n b s.
Proof.
  intros H. induction n as [|n IH]; intros s; cbn; [auto|]. unfold bind at 1 3. rewrite H.
  destruct (b s) as [[x|e] s1]; auto. unfold bind. now rewrite IH.
Qed.

Lemma new_trees p h tset n w :
  handle_input_types (g_fset p) (g_terms p) (g_typed p) (g_erc p) (g_root p) = Ok tset ->
  repeatM n (new_tree_individual p h) w =
  (Ok (seq (length (w_heap w)) n),
   mkWorld (w_heap w ++ map (fresh_ind w (new_fitness (KGP (g_bloat p)) h) (g_upd p) (GTree (blank_tree p tset))) (seq 0 n))
           (w_next_id w + Z.of_nat n)%Z (w_rng w)).
Proof.
  intros H. rewrite (repeatM_ext _ (new_individual (new_fitness (KGP (g_bloat p)) h) (g_upd p) (GTree (blank_tree p tset)))).
  - apply new_many.
  - intros s. unfold new_tree_individual, new_individual. rewrite H. reflexivity.
Qed.

(** An individual under construction: [Q] says what is known of its nodes. *)
Definition tree_ind (p : gp_params) (tset : list (tval * option ty)) (h : hibv) (Q : list node -> Prop) (i : ind) : Prop :=
  i_fit i = new_fitness (KGP (g_bloat p)) h /\ i_update_parents i = g_upd p /\ i_gen i = 0 /\
  exists l, i_genome i = GTree (with_nodes (blank_tree p tset) l) /\ Q l.

Lemma created_nodes_ext m p t t' l : t_fset t = t_fset t' -> t_tset t = t_tset t' -> t_erc t = t_erc t' ->
  created_nodes m p t l -> created_nodes m p t' l.
Proof.
  destruct t, t'; cbn; intros -> -> -> (rt & H). exists rt. exact H.
Qed.

Lemma create_trees_ok m p n h w os w' : create_trees m p n h w = (Ok os, w') ->
  os = seq (length (w_heap w)) n /\ length (w_heap w') = length (w_heap w) + n /\
  frame (fun _ => False) w w' /\ forall o, In o os -> created_by m p h w' o.
Proof.
  unfold create_trees. intros H.
  destruct (handle_input_types (g_fset p) (g_terms p) (g_typed p) (g_erc p) (g_root p)) as [tset|e] eqn:Eh.
  - rewrite (bind_eq_ok _ _ _ _ _ (new_trees p h tset n w Eh)) in H.
    set (w1 := mkWorld _ _ _) in H. set (l := seq (length (w_heap w)) n) in H.
    mb H as u w2 Hi. mr H. split; auto.
    assert (H1 : forall o, In o l -> exists i, at_ w1 o = Some i /\ tree_ind p tset h (fun _ => True) i).
    { intros o Ho. apply in_seq in Ho. unfold at_, w1. cbn [w_heap].
      rewrite nth_error_app2 by lia. rewrite nth_error_map.
      rewrite nth_error_nth' with (d := 0) by (rewrite seq_length; lia). cbn [option_map].
      eexists. split; [reflexivity|]. repeat split. exists []. split; auto. }
    destruct (iterM_each (fun o => t <- load_tree o ;; l <- liftR (create_tree m p t) ;; put_genome o (GTree (with_nodes t l)))
                (tree_ind p tset h (fun _ => True)) (tree_ind p tset h (created_nodes m p (blank_tree p tset))))
      with (l := l) (w := w1) (u := u) (w' := w') as (L & P & Q); auto.
    { intros i (A & B & C & c & D & _). repeat split; auto. eauto. }
    { intros o w3 i u' w4 Hi3 (A & B & C & c & D & _) H3.
      rewrite (bind_eq_ok _ _ _ _ _ (load_tree_at _ _ _ _ Hi3 D)) in H3.
      mb H3 as l0 s0 Hl0. apply liftR_ok in Hl0 as (g' & Hc & ->).
      unfold put_genome in H3. rewrite (modify_at _ _ _ i) in H3 by exact Hi3. injection H3 as <- <-.
      eexists. split; [|reflexivity]. destruct i; cbn in *. repeat split; auto. exists l0. split; auto.
      apply create_tree_ok in Hc. eapply created_nodes_ext; eauto. }
    split; [rewrite L; unfold w1; cbn; rewrite app_length, map_length, seq_length; auto|].
    split.
    + split; [rewrite L; unfold w1; cbn; rewrite app_length; lia|].
      intros o Ho _. rewrite Q.
      * unfold at_, w1. cbn. apply nth_error_app1. assumption.
      * intros Hin. apply in_seq in Hin. lia.
    + intros o Ho. destruct (P o Ho) as (i & Hi2 & A & B & C & c & D & E).
      exists i, (with_nodes (blank_tree p tset) c). repeat split; auto.
      * cbn. now apply handle_ok.
  - destruct n as [|n].
    + cbn in H. injection H as <- <-. cbn. split; auto. split; [lia|]. split; [|easy].
      split; auto.
    + cbn [repeatM] in H. unfold new_tree_individual at 1 in H. rewrite Eh in H.
      unfold bind, fresh_id, lift in H. discriminate.
Qed.

Lemma create_trees_total m p n h w tset :
  handle_input_types (g_fset p) (g_terms p) (g_typed p) (g_erc p) (g_root p) = Ok tset ->
  supplied (blank_tree p tset) (g_root p) -> exists os w', create_trees m p n h w = (Ok os, w').
Proof.
  intros Eh Hs. unfold create_trees. rewrite (bind_eq_ok _ _ _ _ _ (new_trees p h tset n w Eh)).
  set (w1 := mkWorld _ _ _). set (l := seq (length (w_heap w)) n).
  set (f := fun o => t <- load_tree o ;; l <- liftR (create_tree m p t) ;; put_genome o (GTree (with_nodes t l))).
  destruct (iterM_ok f l (fun w => forall o, In o l -> exists i c, at_ w o = Some i /\ i_genome i = GTree (with_nodes (blank_tree p tset) c)))
    with (s := w1) as (w2 & E2 & _).
  - intros o w2 Ho H2. destruct (H2 o Ho) as (i & c & Hi & Hg). unfold f.
    rewrite (bind_eq_ok _ _ _ _ _ (load_tree_at _ _ _ _ Hi Hg)).
    destruct (create_tree_total m p (with_nodes (blank_tree p tset) c) (w_rng w2)) as (l0 & g' & Ec); [exact Hs|].
    rewrite (bind_eq_ok _ _ _ _ _ (liftR_eq _ _ _ _ Ec)).
    unfold put_genome. rewrite (modify_at _ _ _ i) by exact Hi.
    eexists. split; [reflexivity|]. intros o' Ho'. destruct (Nat.eq_dec o o') as [<-|Hne].
    + do 2 eexists. split; [eapply at_put_same; exact Hi|]. reflexivity.
    + rewrite at_put_other by auto. apply (H2 o' Ho').
  - intros o Ho. apply in_seq in Ho. unfold at_, w1. cbn [w_heap].
    rewrite nth_error_app2 by lia. rewrite nth_error_map.
    rewrite nth_error_nth' with (d := 0) by (rewrite seq_length; lia). cbn [option_map].
    exists (fresh_ind w (new_fitness (KGP (g_bloat p)) h) (g_upd p) (GTree (blank_tree p tset)) (o - length (w_heap w))), [].
    split; [|reflexivity]. rewrite seq_nth by lia. reflexivity.
  - rewrite (bind_eq_ok _ _ _ _ _ E2). unfold ret. eauto.
Qed.

(** ** Ramped half-and-half *)

Lemma created_by_frame m p h w w' o : created_by m p h w o -> frame (fun _ => False) w w' -> created_by m p h w' o.
Proof.
  intros (i & t & Hi & H) [_ F]. exists i, t. split; auto. rewrite F; auto. eapply at_lt; eauto.
Qed.

Lemma frame_trans0 w1 w2 w3 : frame (fun _ => False) w1 w2 -> frame (fun _ => False) w2 w3 -> frame (fun _ => False) w1 w3.
Proof.
  intros [L1 F1] [L2 F2]. split; [lia|]. intros o Ho Hn. rewrite F2; auto. lia.
Qed.

Lemma Forall2_repeat {A B} (P : A -> B -> Prop) a l : (forall x, In x l -> P a x) -> Forall2 P (repeat a (length l)) l.
Proof. induction l as [|x l IH]; cbn; intros H; constructor; auto. Qed.

Lemma Forall2_imp_in {A B} (P Q : A -> B -> Prop) l m : (forall a b, P a b -> Q a b) -> Forall2 P l m -> Forall2 Q l m.
Proof. induction 2; constructor; auto. Qed.

Lemma flat_map_len_const {A B} (f : A -> list B) k l : (forall a, length (f a) = k) -> length (flat_map f l) = k * length l.
Proof. intros H. induction l as [|a l IH]; cbn; [lia|]. rewrite app_length, H, IH. lia. Qed.

Section Half.
  Variables (mn : nat) (grow full : gp_params) (h : hibv) (q : nat).

  Let planned := planned mn grow full h.

  Definition one_depth (d : nat) : M (list oid) :=
    a <- create_trees Grow (with_depth grow mn d) q h ;;
    b <- create_trees Full (with_depth full mn d) q h ;;
    ret (a ++ b).

  Definition plan_of (d : nat) : list (gp_method * nat) := repeat (Grow, d) q ++ repeat (Full, d) q.

  Lemma planned_frame w w' ks os : Forall2 (planned w) ks os -> frame (fun _ => False) w w' -> Forall2 (planned w') ks os.
  Proof. intros H F. eapply Forall2_imp_in; [|exact H]. intros k o Hk. eapply created_by_frame; eauto. Qed.

  Lemma one_depth_ok d w os w' : one_depth d w = (Ok os, w') ->
    os = seq (length (w_heap w)) (2 * q) /\ length (w_heap w') = length (w_heap w) + 2 * q /\
    frame (fun _ => False) w w' /\ Forall2 (planned w') (plan_of d) os.
  Proof.
    unfold one_depth. intros H. mb H as a w1 Ha. mb H as b w2 Hb. mr H.
    apply create_trees_ok in Ha as (Ea & La & Fa & Ca). apply create_trees_ok in Hb as (Eb & Lb & Fb & Cb).
    split; [|split; [|split]].
    - rewrite Ea, Eb, La. replace (2 * q) with (q + q) by lia. now rewrite <- seq_app.
    - lia.
    - eapply frame_trans0; eauto.
    - apply Forall2_app.
      + assert (length a = q) as <- by (rewrite Ea; apply seq_length).
        apply Forall2_repeat. intros o Ho. eapply created_by_frame; [|exact Fb]. apply Ca; auto.
      + assert (length b = q) as <- by (rewrite Eb; apply seq_length).
        apply Forall2_repeat. intros o Ho. apply Cb; auto.
  Qed.

  Lemma depths_ok ds : forall w parts w', mapM one_depth ds w = (Ok parts, w') ->
    List.concat parts = seq (length (w_heap w)) (2 * q * length ds) /\
    length (w_heap w') = length (w_heap w) + 2 * q * length ds /\
    frame (fun _ => False) w w' /\ Forall2 (planned w') (flat_map plan_of ds) (List.concat parts).
  Proof.
    induction ds as [|d ds IH]; intros w parts w' H; cbn [mapM] in H.
    - mr H. cbn [List.concat length flat_map]. rewrite Nat.mul_0_r. repeat split; auto; try lia.
    - mb H as a w1 Ha. mb H as b w2 Hb. mr H.
      apply one_depth_ok in Ha as (Ea & La & Fa & Ca). apply IH in Hb as (Eb & Lb & Fb & Cb).
      cbn [List.concat length flat_map]. split; [|split; [|split]].
      + rewrite Ea, Eb, La. rewrite <- seq_app. f_equal. lia.
      + lia.
      + eapply frame_trans0; eauto.
      + apply Forall2_app; auto. eapply planned_frame; eauto.
  Qed.
End Half.

Lemma half_count mn mx n : mn <= mx -> 2 * (n / (2 * (mx + 1 - mn))) * (mx + 1 - mn) <= n.
Proof.
  intros H. pose proof (Nat.mul_div_le n (2 * (mx + 1 - mn))). lia.
Qed.

Lemma create_half_ok mn mx grow full n h w os w' : mn <= mx ->
  create_half mn mx grow full n h w = (Ok os, w') ->
  os = seq (length (w_heap w)) n /\ frame (fun _ => False) w w' /\
  Forall2 (planned mn grow full h w') (half_plan mn mx n) os.
Proof.
  intros Hm H. unfold create_half in H.
  destruct (Nat.eqb_spec (mx + 1) mn); [lia|]. destruct (Nat.ltb_spec (mx + 1) mn); [lia|].
  pose proof (half_count mn mx n Hm) as Hc.
  set (q := n / (2 * (mx + 1 - mn))) in *. destruct (Nat.eqb_spec q 0); [discriminate|].
  mb H as parts w1 Hp.
  change (mapM (one_depth mn grow full h q) (seq mn (mx + 1 - mn)) w = (Ok parts, w1)) in Hp. apply depths_ok in Hp as (E & L & F & C). rewrite seq_length in *.
  unfold half_plan. fold q. fold (plan_of q). rewrite E in H. rewrite seq_length in H.
  change (fun d => repeat (Grow, d) q ++ repeat (Full, d) q) with (plan_of q).
  rewrite E in C.
  destruct (Nat.eqb_spec (n - 2 * q * (mx + 1 - mn)) 0).
  - mr H. rewrite e, app_nil_r. split; [f_equal; lia|]. auto.
  - mb H as rest w2 Hr. mr H. apply create_trees_ok in Hr as (Er & Lr & Fr & Cr).
    split; [|split].
    + rewrite Er, L, <- seq_app. f_equal. lia.
    + eapply frame_trans0; eauto.
    + apply Forall2_app; [eapply planned_frame; eauto|].
      assert (length rest = n - 2 * q * (mx + 1 - mn)) as <- by (rewrite Er; apply seq_length).
      apply Forall2_repeat. intros o Ho. apply Cr; auto.
Qed.

Lemma create_half_small mn mx grow full n h w : mn <= mx -> n < 2 * (mx + 1 - mn) ->
  create_half mn mx grow full n h w = (Raise ValueError, w).
Proof.
  intros Hm Hn. unfold create_half.
  destruct (Nat.eqb_spec (mx + 1) mn); [lia|]. destruct (Nat.ltb_spec (mx + 1) mn); [lia|].
  rewrite Nat.div_small by auto. reflexivity.
Qed.

Lemma create_half_total mn mx grow full n h w tg tf : mn <= mx -> 2 * (mx + 1 - mn) <= n ->
  handle_input_types (g_fset grow) (g_terms grow) (g_typed grow) (g_erc grow) (g_root grow) = Ok tg ->
  handle_input_types (g_fset full) (g_terms full) (g_typed full) (g_erc full) (g_root full) = Ok tf ->
  supplied (blank_tree grow tg) (g_root grow) -> supplied (blank_tree full tf) (g_root full) ->
  exists os w', create_half mn mx grow full n h w = (Ok os, w').
Proof.
  intros Hm Hn Hg Hf Sg Sf. unfold create_half.
  destruct (Nat.eqb_spec (mx + 1) mn); [lia|]. destruct (Nat.ltb_spec (mx + 1) mn); [lia|].
  destruct (Nat.eqb_spec (n / (2 * (mx + 1 - mn))) 0) as [E|_].
  { apply Nat.div_small_iff in E; lia. }
  set (q := n / _). set (f := one_depth mn grow full h q).
  destruct (mapM_total f (seq mn (mx + 1 - mn))) with (s := w) as (parts & w1 & E1).
  { intros d s _. unfold f, one_depth.
    destruct (create_trees_total Grow (with_depth grow mn d) q h s tg) as (a & s1 & Ea); auto.
    rewrite (bind_eq_ok _ _ _ _ _ Ea).
    destruct (create_trees_total Full (with_depth full mn d) q h s1 tf) as (b & s2 & Eb); auto.
    rewrite (bind_eq_ok _ _ _ _ _ Eb). unfold ret. eauto. }
  unfold f, one_depth in E1. rewrite (bind_eq_ok _ _ _ _ _ E1). destruct (Nat.eqb _ 0); [unfold ret; eauto|].
  destruct (create_trees_total Full (with_depth full mn mx) (n - length (List.concat parts)) h w1 tf) as (b & s2 & Eb); auto.
  rewrite (bind_eq_ok _ _ _ _ _ Eb). unfold ret. eauto.
Qed.
