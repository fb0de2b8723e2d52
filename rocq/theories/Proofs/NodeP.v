(** Proofs about tree nodes as objects. *)
From Coq Require Import Permutation Lia.
From Verif.Proofs Require Import Lib TreeP TreeOpP.
From Verif.Spec Require Import NodeSpec TreeSpec.
From Verif.Model Require Import NodeStore.
Open Scope nat_scope.
Open Scope list_scope.

(** ** Generic *)
Definition rmapr {A B} (f : A -> B) (r : res A) : res B :=
  match r with Ok a => Ok (f a) | Raise e => Raise e end.

Lemma find_index_map {A B} (f : A -> B) p l :
  find_index p (map f l) = find_index (fun x => p (f x)) l.
Proof. induction l as [|x l IH]; cbn; auto. destruct (p (f x)); auto. now rewrite IH. Qed.

Lemma find_index_ext {A} (p q : A -> bool) l : (forall x, In x l -> p x = q x) -> find_index p l = find_index q l.
Proof.
  induction l as [|x l IH]; cbn; auto; intros E. rewrite E by auto. destruct (q x); auto.
  rewrite IH; auto.
Qed.

Lemma filter_map_comm {A B} (f : A -> B) p l : filter p (map f l) = map f (filter (fun x => p (f x)) l).
Proof. induction l as [|x l IH]; cbn; auto. destruct (p (f x)); cbn; now rewrite IH. Qed.

Lemma choice_map {A B} (f : A -> B) l g :
  choice (map f l) g = (rmapr f (fst (choice l g)), snd (choice l g)).
Proof.
  destruct l as [|x l]; [reflexivity|].
  unfold choice at 1. cbn [map]. change (f x :: map f l) with (map f (x :: l)). rewrite map_length.
  unfold choice. unfold bind.
  destruct (randbelow (length (x :: l)) g) as [[i|e] g'] eqn:E; auto.
  rewrite nth_error_map. destruct (nth_error (x :: l) i); reflexivity.
Qed.

Lemma choice_nth {A} (l : list A) g :
  match choice l g with
  | (Ok x, g') => exists k, nth_error l k = Some x /\ forall B (l' : list B), length l' = length l ->
                    exists y, nth_error l' k = Some y /\ choice l' g = (Ok y, g')
  | (Raise e, g') => forall B (l' : list B), length l' = length l -> choice l' g = (Raise e, g')
  end.
Proof.
  destruct l as [|x l].
  - cbn. intros B [|? ?]; cbn; auto; discriminate.
  - unfold choice at 1. unfold bind.
    destruct (randbelow (length (x :: l)) g) as [[i|e] g'] eqn:E.
    + destruct (nth_error (x :: l) i) as [y|] eqn:En.
      * cbv beta iota delta [ret raise]. exists i. split; auto. intros B l' El.
        assert (i < length l') by (pose proof (nth_error_lt _ _ _ En) as Hlt; rewrite El; exact Hlt).
        destruct (nth_error l' i) as [z|] eqn:Ez; [|apply nth_error_None in Ez; lia].
        exists z. split; auto. destruct l' as [|z' l']; [discriminate|].
        unfold choice, bind. rewrite El, E. rewrite Ez. reflexivity.
      * cbv beta iota delta [ret raise]. intros B l' El. destruct l' as [|z' l']; [discriminate|].
        unfold choice, bind. rewrite El, E.
        assert (nth_error (z' :: l') i = None) as ->.
        { apply nth_error_None. rewrite El. now apply nth_error_None. }
        reflexivity.
    + cbv beta iota delta [ret raise]. intros B l' El. destruct l' as [|z' l']; [discriminate|].
      unfold choice, bind. rewrite El, E. reflexivity.
Qed.

Lemma py_slice_map {A B} (f : A -> B) l i j : py_slice (map f l) i j = map f (py_slice l i j).
Proof. unfold py_slice. rewrite map_length, skipn_map, firstn_map. reflexivity. Qed.

Lemma same_node_eqb objs a b : same_node objs a b = node_eqb (node_at objs a) (node_at objs b).
Proof.
  unfold same_node. destruct (Nat.eqb_spec a b) as [->|]; auto. cbn. symmetry. now apply node_eqb_iff.
Qed.

Lemma all_somes_map {A B} (f : A -> B) l :
  all_somes (map (option_map f) l) = option_map (map f) (all_somes l).
Proof. induction l as [|[x|] l IH]; cbn; auto. rewrite IH. destruct (all_somes l); auto. Qed.

Lemma py_get_map {A B} (f : A -> B) l i : py_get (map f l) i = rmapr f (py_get l i).
Proof.
  unfold py_get. rewrite !map_length.
  destruct (py_norm (length l) i); cbn; auto.
  rewrite nth_error_map. destruct (nth_error l n); auto.
Qed.

(** ** Values of trees *)
Definition rd (s : nstore) : nat -> node := node_at (s_objs s).

Lemma replace_value objs p old new :
  replace_subtree (tree_value objs p) (map (node_at objs) old) (map (node_at objs) new) =
  rmapr (fun l => tree_value objs (with_addrs p l)) (replace_addrs objs p old new).
Proof.
  destruct old as [|o old]; [reflexivity|]. cbn [replace_subtree map replace_addrs].
  cbn [tree_value t_nodes]. rewrite find_index_map.
  rewrite (find_index_ext _ (fun x => same_node objs x o)) by (intros; now rewrite same_node_eqb).
  destruct (find_index _ (p_nodes p)) as [i|]; [|reflexivity].
  cbn. f_equal. unfold tree_value, with_nodes. cbn. f_equal.
  rewrite !map_app, firstn_map, skipn_map, map_length. reflexivity.
Qed.

Lemma subtree_value objs p a :
  get_subtree_by_root (tree_value objs p) (node_at objs a) = rmapr (map (node_at objs)) (subtree_at objs p a).
Proof.
  unfold get_subtree_by_root, subtree_at. cbn [tree_value t_nodes t_fset]. rewrite find_index_map.
  rewrite (find_index_ext _ (fun x => same_node objs x a)) by (intros; now rewrite same_node_eqb).
  destruct (find_index _ (p_nodes p)) as [[|i]|]; try reflexivity.
  unfold tsize. cbn [tree_value t_nodes]. rewrite map_length.
  destruct (find_subtree_end _ _ _ _) as [[u e]|]; [|reflexivity]. cbn [rbind snd rmapr].
  now rewrite py_slice_map.
Qed.

(** ** Only the random generator changes *)
Definition srng (s : nstore) (g : rng) : nstore := mkStore (s_objs s) (s_trees s) g.
Definition wrng (w : world) (g : rng) : world := mkWorld (w_heap w) (w_next_id w) g.

Lemma same_view_rng s w g : same_view s w -> same_view (srng s g) (wrng w g).
Proof. intros (A & B & C). repeat split; auto. Qed.

Lemma srng_srng s g g' : srng (srng s g) g' = srng s g'. Proof. reflexivity. Qed.
Lemma wrng_wrng w g g' : wrng (wrng w g) g' = wrng w g'. Proof. reflexivity. Qed.
Lemma srng_id s : srng s (s_rng s) = s. Proof. now destruct s. Qed.
Lemma wrng_id w : wrng w (w_rng w) = w. Proof. now destruct w. Qed.

Lemma liftN_run {A} (m : R A) s : liftN m s = (fst (m (s_rng s)), srng s (snd (m (s_rng s)))).
Proof. unfold liftN. destruct (m (s_rng s)); reflexivity. Qed.
Lemma liftR_run {A} (m : R A) w : liftR m w = (fst (m (w_rng w)), wrng w (snd (m (w_rng w)))).
Proof. unfold liftR. destruct (m (w_rng w)); reflexivity. Qed.

Lemma load_view s w o : same_view s w ->
  (exists p, nth_error (s_trees s) o = Some p /\ load_ptree o s = (Ok p, s) /\
             load_tree o w = (Ok (tree_value (s_objs s) p), w)) \/
  (length (s_trees s) <= o /\ load_ptree o s = (Raise AttributeError, s) /\
   load_tree o w = (Raise AttributeError, w)).
Proof.
  intros (A & B & C). destruct (nth_error (s_trees s) o) as [p|] eqn:E.
  - left. exists p. split; auto. unfold load_ptree. rewrite E. split; auto.
    destruct (C o p E) as (i & Ei & Eg). unfold load_tree, load, bind. rewrite Ei, Eg. reflexivity.
  - right. apply nth_error_None in E as El. split; auto. unfold load_ptree. rewrite E. split; auto.
    unfold load_tree, load, bind. replace (nth_error (w_heap w) o) with (@None ind); auto.
    symmetry. apply nth_error_None. lia.
Qed.

(** The list [l] is a segment of tree [o], and its first node equals no earlier one. *)
Definition seg (s : nstore) (o : nat) (l : list nat) : Prop :=
  exists p pre n l' post, nth_error (s_trees s) o = Some p /\ l = n :: l' /\
    p_nodes p = pre ++ l ++ post /\ forall x, In x pre -> node_at (s_objs s) x <> node_at (s_objs s) n.

Lemma find_index_spec {A} (p : A -> bool) l i : find_index p l = Some i ->
  exists pre x post, l = pre ++ x :: post /\ length pre = i /\ p x = true /\ forall y, In y pre -> p y = false.
Proof.
  revert i; induction l as [|x l IH]; cbn; intros i Hi; [discriminate|].
  destruct (p x) eqn:E.
  - inv Hi. exists [], x, l. cbn. auto 6 using in_nil. repeat split; auto. intros ? [].
  - destruct (find_index p l) as [j|] eqn:Ej; inv Hi. destruct (IH j eq_refl) as (pre & y & post & -> & <- & Hp & Hn).
    exists (x :: pre), y, post. cbn. repeat split; auto. intros z [->|Hz]; auto.
Qed.

Lemma find_index_first {A} (p : A -> bool) pre x post :
  p x = true -> (forall y, In y pre -> p y = false) -> find_index p (pre ++ x :: post) = Some (length pre).
Proof.
  intros Hx. induction pre as [|y pre IH]; cbn; intros Hp.
  - now rewrite Hx.
  - rewrite Hp by auto. rewrite IH; auto.
Qed.

Lemma iter_pos_ge {A} (f : nat -> res (A * nat)) N n pos r :
  (forall p r, f p = Ok r -> p <= snd r < N) -> pos < N ->
  iter_pos f n pos = Ok r -> pos <= snd r < N.
Proof.
  intros Hf. revert pos r; induction n as [|n IH]; cbn; intros pos r Hp E.
  - inv E. cbn. lia.
  - destruct (f (S pos)) as [q|] eqn:E1; cbn in E; [|discriminate].
    destruct (iter_pos f n (snd q)) as [qs|] eqn:E2; cbn in E; [|discriminate]. inv E. cbn.
    apply Hf in E1. apply IH in E2; lia.
Qed.

Lemma find_subtree_end_range fuel fset l pos r :
  find_subtree_end fuel fset l pos = Ok r -> pos <= snd r < length l.
Proof.
  revert pos r; induction fuel as [|fuel IH]; cbn; intros pos r E; [discriminate|].
  destruct (nth_error l pos) as [[f|v t]|] eqn:En; [| |discriminate]; apply nth_error_lt in En as Hl.
  - destruct (existsb _ _); [|inv E; cbn; lia].
    destruct (iter_pos _ _ _) as [q|] eqn:Ei; cbn in E; [|discriminate]. inv E. cbn.
    eapply iter_pos_ge in Ei; eauto.
  - inv E; cbn; lia.
Qed.

Lemma subtree_at_seg s o p a l : nth_error (s_trees s) o = Some p -> subtree_at (s_objs s) p a = Ok l ->
  seg s o l.
Proof.
  intros Ep E. unfold subtree_at in E.
  destruct (find_index _ (p_nodes p)) as [i|] eqn:Ei; [|discriminate].
  apply find_index_spec in Ei as (pre & x & post & El & Hi & Hx & Hpre).
  rewrite same_node_eqb in Hx. apply node_eqb_iff in Hx.
  assert (Hne : forall y, In y pre -> node_at (s_objs s) y <> node_at (s_objs s) x).
  { intros y Hy Heq. specialize (Hpre y Hy). rewrite same_node_eqb in Hpre.
    assert (node_eqb (node_at (s_objs s) y) (node_at (s_objs s) a) = true).
    { apply node_eqb_iff. congruence. } congruence. }
  destruct i as [|i].
  - inv E. destruct pre; [|discriminate]. exists p, [], x, post, []. rewrite app_nil_r. cbn in *. auto 8.
  - destruct (find_subtree_end _ _ _ _) as [r|] eqn:Ef; cbn [rbind] in E; [|discriminate].
    injection E as <-.
    apply find_subtree_end_range in Ef. rewrite map_length in Ef.
    set (e := snd r) in *.
    assert (Es : py_slice (p_nodes p) (Z.of_nat (S i)) (Z.of_nat e + 1) =
                 firstn (e - i) (x :: post)).
    { unfold py_slice. replace (py_clip (length (p_nodes p)) (Z.of_nat (S i))) with (S i).
      2:{ unfold py_clip. destruct (Z.ltb_spec (Z.of_nat (S i)) 0); lia. }
      replace (py_clip (length (p_nodes p)) (Z.of_nat e + 1)) with (S e).
      2:{ unfold py_clip. destruct (Z.ltb_spec (Z.of_nat e + 1) 0); lia. }
      rewrite El, <- Hi, skipn_app, skipn_all, Nat.sub_diag. cbn [app skipn].
      f_equal. lia. }
    change (Z.pos (Pos.of_succ_nat i)) with (Z.of_nat (S i)). rewrite Es.
    replace (e - i) with (S (e - S i)) by lia. cbn [firstn].
    exists p, pre, x, (firstn (e - S i) post), (skipn (e - S i) post).
    repeat split; auto. rewrite El. cbn [app]. now rewrite firstn_skipn.
Qed.

Lemma seg_replace s o l : seg s o l -> exists p pre post, nth_error (s_trees s) o = Some p /\
  p_nodes p = pre ++ l ++ post /\ forall new, replace_addrs (s_objs s) p l new = Ok (pre ++ new ++ post).
Proof.
  intros (p & pre & n & l' & post & Ep & -> & El & Hne). exists p, pre, post. repeat split; auto.
  intros new. unfold replace_addrs. rewrite El.
  cbn [app]. rewrite find_index_first.
  - rewrite firstn_app, Nat.sub_diag, firstn_all. cbn [firstn]. rewrite app_nil_r.
    replace (pre ++ n :: l' ++ post) with ((pre ++ n :: l') ++ post) by (now rewrite <- app_assoc).
    rewrite skipn_app. replace (length pre + length (n :: l')) with (length (pre ++ n :: l')) by now rewrite app_length.
    rewrite skipn_all, Nat.sub_diag. reflexivity.
  - rewrite same_node_eqb. now apply node_eqb_iff.
  - intros y Hy. rewrite same_node_eqb. destruct (node_eqb _ _) eqn:E; auto.
    apply node_eqb_iff in E. exfalso. eapply Hne; eauto.
Qed.

Lemma seg_rng s g o l : seg s o l -> seg (srng s g) o l.
Proof. auto. Qed.

(** ** Choosing subtrees *)
Definition vres (s : nstore) := rmapr (option_map (map (rd s))).

Lemma pick_sim nt o s w : same_view s w -> exists r g,
  pick_addrs nt o s = (r, srng s g) /\ pick_subtree nt o w = (vres s r, wrng w g) /\
  forall l, r = Ok (Some l) -> seg s o l.
Proof.
  intros V. unfold pick_addrs, pick_subtree, bind.
  destruct (load_view s w o V) as [(p & Ep & -> & ->)|(Hl & -> & ->)].
  2:{ exists (Raise AttributeError), (s_rng s). rewrite srng_id. destruct V as (Eg & _).
      rewrite <- Eg, wrng_id. repeat split; auto. discriminate. }
  cbn [objects]. destruct V as (Eg & V).
  rewrite liftR_run. rewrite Eg. unfold random_subtree. cbn [tree_value t_nodes].
  destruct (p_nodes p) as [|root rest] eqn:El.
  { exists (Ok None), (s_rng s). rewrite srng_id. cbn. repeat split; auto. discriminate. }
  cbn [map]. rewrite <- El. change (node_at (s_objs s) root :: map (node_at (s_objs s)) rest) with
    (map (node_at (s_objs s)) (root :: rest)). rewrite <- El.
  rewrite filter_map_comm.
  remember (filter (fun a => subtree_candidate (node_at (s_objs s) root) nt (node_at (s_objs s) a)) (p_nodes p)) as cands.
  destruct cands as [|c cands].
  { exists (Ok None), (s_rng s). rewrite srng_id. cbn. repeat split; auto. discriminate. }
  cbn [map]. change (node_at (s_objs s) c :: map (node_at (s_objs s)) cands) with
    (map (node_at (s_objs s)) (c :: cands)).
  unfold bind. rewrite choice_map, liftN_run.
  destruct (choice (c :: cands) (s_rng s)) as [[a|e] g]; cbn [fst snd rmapr].
  2:{ exists (Raise e), g. repeat split; auto. discriminate. }
  replace (mkTree _ _ _ _ _) with (tree_value (s_objs s) p) by (unfold tree_value; reflexivity).
  rewrite subtree_value. unfold lift.
  destruct (subtree_at (s_objs s) p a) as [l|e] eqn:Es; cbn.
  - exists (Ok (Some l)), g. repeat split; auto. intros l0 E0. inv E0. eapply subtree_at_seg; eauto.
  - exists (Raise e), g. repeat split; auto. discriminate.
Qed.

Lemma picks_sim nt inds s w : same_view s w -> exists r g,
  mapM (pick_addrs nt) inds s = (r, srng s g) /\
  mapM (pick_subtree nt) inds w = (rmapr (map (option_map (map (rd s)))) r, wrng w g) /\
  forall rs, r = Ok rs -> Forall2 (fun o x => forall l, x = Some l -> seg s o l) inds rs.
Proof.
  revert s w; induction inds as [|o inds IH]; intros s w V.
  - exists (Ok []), (s_rng s). rewrite srng_id. destruct V as (Eg & _). rewrite <- Eg, wrng_id.
    repeat split; auto. intros rs E; inv E. constructor.
  - cbn [mapM]. unfold bind. destruct (pick_sim nt o s w V) as (r & g & E1 & E2 & Hs).
    rewrite E1, E2. destruct r as [x|e]; cbn [vres rmapr].
    2:{ exists (Raise e), g. repeat split; auto. discriminate. }
    destruct (IH (srng s g) (wrng w g)) as (r' & g' & F1 & F2 & Hs'). { now apply same_view_rng. }
    rewrite F1, F2. destruct r' as [xs|e]; cbn [rmapr].
    + exists (Ok (x :: xs)), g'. repeat split; auto. intros rs E; inv E. constructor; auto.
      intros l ->. auto.
    + exists (Raise e), g'. repeat split; auto. discriminate.
Qed.

Lemma pick_all_sim inds s w : same_view s w -> exists r g,
  pick_all_addrs inds s = (r, srng s g) /\
  pick_subtrees inds w = (rmapr (option_map (map (map (rd s)))) r, wrng w g) /\
  forall ss, r = Ok (Some ss) -> Forall2 (seg s) inds ss.
Proof.
  intros V. destruct inds as [|o inds].
  { exists (Raise IndexError), (s_rng s). rewrite srng_id. destruct V as (Eg & _). rewrite <- Eg, wrng_id.
    repeat split; auto. discriminate. }
  cbn [pick_all_addrs pick_subtrees]. unfold bind.
  destruct (pick_sim None o s w V) as (r & g & E1 & E2 & Hs). rewrite E1, E2.
  destruct r as [[l|]|e]; cbn [vres rmapr option_map].
  2:{ exists (Ok None), g. repeat split; auto. discriminate. }
  2:{ exists (Raise e), g. repeat split; auto. discriminate. }
  pose proof (Hs l eq_refl) as Hl. destruct Hl as (p & pre & n & l' & post & Ep & -> & El & Hne).
  cbn [map objects].
  destruct (picks_sim (node_type (node_at (s_objs (srng s g)) n)) inds (srng s g) (wrng w g)) as (r' & g' & F1 & F2 & Hs').
  { now apply same_view_rng. }
  rewrite F1. unfold rd in *. cbn [srng s_objs] in *. rewrite F2.
  destruct r' as [rs|e]; cbn [rmapr].
  2:{ exists (Raise e), g'. repeat split; auto. discriminate. }
  rewrite all_somes_map. destruct (all_somes rs) as [ss|] eqn:Ea; cbn [option_map].
  - exists (Ok (Some ((n :: l') :: ss))), g'. repeat split; auto. intros ss0 E0; inv E0.
    constructor; [apply Hs; auto|]. specialize (Hs' rs eq_refl).
    clear -Hs' Ea. revert ss Ea; induction Hs' as [|o x inds rs Hx Hf IH]; cbn; intros ss Ea.
    + inv Ea. constructor.
    + destruct x as [l|]; [|discriminate]. destruct (all_somes rs); [|discriminate]. inv Ea.
      constructor; auto. now apply Hx.
  - exists (Ok None), g'. repeat split; auto. discriminate.
Qed.

(** ** Counting places *)
Definition cnt (l : list nat) (a : nat) : nat := count_occ Nat.eq_dec l a.
Definition all_addrs (ts : list ptree) : list nat := List.concat (map p_nodes ts).
Definition total (s : nstore) (a : nat) : nat := cnt (all_addrs (s_trees s)) a.
Definition inv_s (s : nstore) : Prop :=
  forall a, total s a <= 1 /\ (0 < total s a -> a < length (s_objs s)).

Lemma cnt_app l l' a : cnt (l ++ l') a = cnt l a + cnt l' a.
Proof. apply count_occ_app. Qed.

Lemma cnt_pos l a : 0 < cnt l a <-> In a l.
Proof. unfold cnt. symmetry. apply (count_occ_In Nat.eq_dec). Qed.

Lemma all_addrs_set ts o p l a : nth_error ts o = Some p ->
  cnt (all_addrs (list_set ts o (with_addrs p l))) a + cnt (p_nodes p) a = cnt (all_addrs ts) a + cnt l a.
Proof.
  unfold all_addrs. revert o; induction ts as [|t ts IH]; intros [|o] E; try discriminate; cbn [list_set map List.concat].
  - inv E. cbn. rewrite !cnt_app. lia.
  - cbn in E. rewrite !cnt_app. specialize (IH o E). lia.
Qed.

Lemma cnt_tree ts o p a : nth_error ts o = Some p -> cnt (p_nodes p) a <= cnt (all_addrs ts) a.
Proof.
  unfold all_addrs. revert o; induction ts as [|t ts IH]; intros [|o] E; try discriminate; cbn [map List.concat];
    rewrite cnt_app; cbn in E.
  - inv E. lia.
  - specialize (IH o E). lia.
Qed.

Lemma cnt_two ts o o' p p' a : nth_error ts o = Some p -> nth_error ts o' = Some p' -> o <> o' ->
  cnt (p_nodes p) a + cnt (p_nodes p') a <= cnt (all_addrs ts) a.
Proof.
  unfold all_addrs. revert o o'; induction ts as [|t ts IH]; intros [|o] [|o'] E E' Hne; try discriminate; cbn [map List.concat];
    rewrite cnt_app; cbn in E, E'; try lia.
  - inv E. pose proof (cnt_tree ts o' p' a E') as Hc. unfold all_addrs in Hc. lia.
  - inv E'. pose proof (cnt_tree ts o p a E) as Hc. unfold all_addrs in Hc. lia.
  - assert (H0 : o <> o') by lia. specialize (IH o o' E E' H0). lia.
Qed.

Lemma cnt_nth2 l i j a : nth_error l i = Some a -> nth_error l j = Some a -> i <> j -> 2 <= cnt l a.
Proof.
  revert i j; induction l as [|x l IH]; intros [|i] [|j] E E' Hne; try discriminate; try lia; cbn in *.
  - inv E. destruct (Nat.eq_dec a a); [|congruence]. apply nth_error_In, cnt_pos in E'. unfold cnt in *. lia.
  - inv E'. destruct (Nat.eq_dec a a); [|congruence]. apply nth_error_In, cnt_pos in E. unfold cnt in *. lia.
  - assert (H0 : i <> j) by lia. specialize (IH i j E E' H0). unfold cnt in *. destruct (Nat.eq_dec x a); lia.
Qed.

Lemma total_ex s a : 0 < total s a -> exists o i, occurs s o i a.
Proof.
  unfold total, all_addrs. rewrite cnt_pos, in_concat. intros (l & Hl & Ha).
  apply in_map_iff in Hl as (p & <- & Hp).
  apply In_nth_error in Hp as (o & Eo). apply In_nth_error in Ha as (i & Ei).
  exists o, i, p. auto.
Qed.

Lemma nodup_two l a : 2 <= cnt l a -> exists i j, i <> j /\ nth_error l i = Some a /\ nth_error l j = Some a.
Proof.
  induction l as [|x l IH]; cbn; [lia|]. destruct (Nat.eq_dec x a) as [->|Hne]; intros Hc.
  - assert (Hp : 0 < cnt l a) by (unfold cnt; lia). apply cnt_pos, In_nth_error in Hp as (j & Ej).
    exists 0, (S j). auto.
  - destruct (IH Hc) as (i & j & Hij & Ei & Ej). exists (S i), (S j). auto.
Qed.

Lemma two_places ts a : 2 <= cnt (all_addrs ts) a ->
  exists o i o' i' p p', (o, i) <> (o', i') /\ nth_error ts o = Some p /\ nth_error (p_nodes p) i = Some a /\
    nth_error ts o' = Some p' /\ nth_error (p_nodes p') i' = Some a.
Proof.
  unfold all_addrs. induction ts as [|t ts IH]; cbn [map List.concat]; [cbn; lia|].
  rewrite cnt_app. intros Hc.
  destruct (le_lt_dec 2 (cnt (p_nodes t) a)) as [H2|H2].
  - apply nodup_two in H2 as (i & j & Hij & Ei & Ej). exists 0, i, 0, j, t, t. cbn. repeat split; auto. congruence.
  - destruct (le_lt_dec 2 (cnt (List.concat (map p_nodes ts)) a)) as [H3|H3].
    + destruct (IH H3) as (o & i & o' & i' & p & p' & Hne & A & B & C & D).
      exists (S o), i, (S o'), i', p, p'. cbn. repeat split; auto. congruence.
    + assert (H4 : 0 < cnt (p_nodes t) a) by lia. assert (H5 : 0 < cnt (List.concat (map p_nodes ts)) a) by lia.
      apply cnt_pos, In_nth_error in H4 as (i & Ei).
      apply cnt_pos in H5. apply in_concat in H5 as (l & Hl & Ha). apply in_map_iff in Hl as (p & <- & Hp).
      apply In_nth_error in Hp as (o & Eo). apply In_nth_error in Ha as (j & Ej).
      exists 0, i, (S o), j, t, p. cbn. repeat split; auto. congruence.
Qed.

Lemma inv_iff s : inv_s s <-> unshared s /\ allocated s.
Proof.
  split.
  - intros I. split.
    + intros a o i o' i' (p & Ep & Ei) (p' & Ep' & Ei'). destruct (I a) as [I1 _].
      destruct (Nat.eq_dec o o') as [<-|Hne].
      * rewrite Ep in Ep'. inv Ep'. split; auto. destruct (Nat.eq_dec i i'); auto.
        pose proof (cnt_nth2 _ _ _ _ Ei Ei' n). pose proof (cnt_tree _ _ _ a Ep). unfold total in I1. lia.
      * pose proof (cnt_two _ _ _ _ _ a Ep Ep' Hne).
        apply nth_error_In, cnt_pos in Ei. apply nth_error_In, cnt_pos in Ei'. unfold total in I1. lia.
    + intros o i a (p & Ep & Ei). apply (I a). unfold total. pose proof (cnt_tree _ _ _ a Ep).
      apply nth_error_In, cnt_pos in Ei. lia.
  - intros [U A] a. split.
    + destruct (le_lt_dec (total s a) 1); auto. exfalso.
      destruct (two_places (s_trees s) a l) as (o & i & o' & i' & p & p' & Hne & E1 & E2 & E3 & E4).
      apply Hne. destruct (U a o i o' i') as [-> ->]; auto; eexists; eauto.
    + intros Hp. apply total_ex in Hp as (o & i & Ho). eapply A; eauto.
Qed.

(** ** Changing one tree *)
Lemma put_addrs_run o p l s : nth_error (s_trees s) o = Some p ->
  put_addrs o l s = (Ok tt, mkStore (s_objs s) (list_set (s_trees s) o (with_addrs p l)) (s_rng s)).
Proof. intros E. unfold put_addrs, load_ptree, bind. rewrite E. reflexivity. Qed.

Lemma put_genome_run o w i g : nth_error (w_heap w) o = Some i ->
  put_genome o g w = (Ok tt, mkWorld (list_set (w_heap w) o (set_genome g i)) (w_next_id w) (w_rng w)).
Proof.
  intros E. unfold put_genome, modify, load, store, bind. rewrite E.
  apply nth_error_lt in E. destruct (Nat.ltb_spec o (length (w_heap w))); [reflexivity|lia].
Qed.

Lemma put_sim s w o p l : same_view s w -> nth_error (s_trees s) o = Some p ->
  exists w', put_genome o (GTree (tree_value (s_objs s) (with_addrs p l))) w = (Ok tt, w') /\
    same_view (mkStore (s_objs s) (list_set (s_trees s) o (with_addrs p l)) (s_rng s)) w'.
Proof.
  intros (Eg & Hl & Hv) Ep. destruct (Hv o p Ep) as (i & Ei & Hg).
  eexists. split; [eapply put_genome_run; eauto|]. split; [exact Eg|]. cbn [w_heap s_trees].
  rewrite !list_set_length. split; auto. intros o' p' E'.
  destruct (Nat.eq_dec o o') as [<-|Hne].
  - cbn [s_trees] in E'. rewrite nth_list_set_same in E' by (eapply nth_error_lt; eauto). injection E' as <-.
    eexists. split; [apply nth_list_set_same; eapply nth_error_lt; eauto|reflexivity].
  - cbn [s_trees] in E'. rewrite nth_list_set_other in E' by auto.
    destruct (Hv o' p' E') as (i' & Ei' & Hg'). exists i'. split; auto. now rewrite nth_list_set_other.
Qed.

(** ** One operation *)

(** The trees [ch] may change; the others keep their nodes and their contents. *)
Definition kept (ch : list nat) (s s' : nstore) : Prop :=
  length (s_trees s) <= length (s_trees s') /\
  forall o p, nth_error (s_trees s) o = Some p -> ~ In o ch ->
    nth_error (s_trees s') o = Some p /\ tree_value (s_objs s') p = tree_value (s_objs s) p.

Lemma kept_refl ch s : kept ch s s. Proof. split; auto. Qed.
Lemma kept_rng ch s g : kept ch s (srng s g). Proof. split; auto. Qed.
Lemma kept_trans ch a b c : kept ch a b -> kept ch b c -> kept ch a c.
Proof.
  intros [L1 K1] [L2 K2]. split; [lia|]. intros o p Ep Ho. destruct (K1 o p Ep Ho) as [E1 V1].
  destruct (K2 o p E1 Ho) as [E2 V2]. split; auto. congruence.
Qed.

Definition sumf (f : nat -> nat) (l : list nat) : nat := fold_right (fun i n => f i + n) 0 l.

Lemma sumf_app f l l' : sumf f (l ++ l') = sumf f l + sumf f l'.
Proof. induction l; cbn; auto. unfold sumf in *. lia. Qed.

Lemma sumf_rev f l : sumf f (rev l) = sumf f l.
Proof. induction l as [|x l IH]; [reflexivity|]. cbn [rev]. rewrite sumf_app, IH. cbn. unfold sumf. lia. Qed.

Lemma sumf_concat (ls : list (list nat)) a : forall pre,
  sumf (fun i => cnt (nth i (pre ++ ls) []) a) (seq (length pre) (length ls)) = cnt (List.concat ls) a.
Proof.
  induction ls as [|l ls IH]; intros pre; [reflexivity|].
  cbn [length seq sumf fold_right List.concat]. rewrite cnt_app.
  rewrite app_nth2, Nat.sub_diag by lia. cbn [nth]. f_equal.
  specialize (IH (pre ++ [l])). rewrite <- app_assoc in IH. cbn [app] in IH.
  rewrite app_length in IH. cbn [length] in IH. rewrite Nat.add_1_r in IH. exact IH.
Qed.

Lemma cnt_concat_perm (l l' : list (list nat)) a : Permutation l l' -> cnt (List.concat l) a = cnt (List.concat l') a.
Proof. induction 1; cbn; rewrite ?cnt_app; try lia. Qed.

Lemma seg_other s o o' p l x : o <> o' -> nth_error (s_trees s) o' = Some p ->
  seg s o l -> seg (mkStore (s_objs s) (list_set (s_trees s) o' (with_addrs p x)) (s_rng s)) o l.
Proof.
  intros Hne Ep (q & pre & n & l' & post & Eq & R). exists q, pre, n, l', post. split; auto.
  cbn. rewrite nth_list_set_other; auto.
Qed.

Lemma swap_phase subs L : forall s w, same_view s w -> NoDup (map snd L) ->
  (forall i o, In (i, o) L -> exists old new, nth_error subs i = Some old /\
     nth_error (rotate subs) i = Some new /\ seg s o old) ->
  exists s' w', iterM (swap_one_addrs subs) L s = (Ok tt, s') /\
    iterM (swap_one (map (map (rd s)) subs)) L w = (Ok tt, w') /\
    same_view s' w' /\ s_objs s' = s_objs s /\ length (s_trees s') = length (s_trees s) /\
    (forall o, ~ In o (map snd L) -> nth_error (s_trees s') o = nth_error (s_trees s) o) /\
    (forall a, total s' a + sumf (fun i => cnt (nth i subs []) a) (map fst L) =
               total s a + sumf (fun i => cnt (nth i (rotate subs) []) a) (map fst L)).
Proof.
  induction L as [|[i o] L IH]; intros s w V Hnd HL.
  { exists s, w. cbn. repeat split; auto; apply V. }
  cbn [map snd fst] in *. apply NoDup_cons_iff in Hnd as [Hni Hnd].
  destruct (HL i o (or_introl eq_refl)) as (old & new & Eold & Enew & Hseg).
  destruct (seg_replace _ _ _ Hseg) as (p & pre & post & Ep & El & Hrep).
  set (s1 := mkStore (s_objs s) (list_set (s_trees s) o (with_addrs p (pre ++ new ++ post))) (s_rng s)).
  destruct (put_sim s w o p (pre ++ new ++ post) V Ep) as (w1 & Ew1 & V1). fold s1 in V1.
  assert (E1 : swap_one_addrs subs (i, o) s = (Ok tt, s1)).
  { unfold swap_one_addrs, bind, lift. rewrite (py_get_nth _ _ _ Eold), (py_get_pred _ _ _ Enew).
    unfold load_ptree at 1. rewrite Ep. cbn [objects]. rewrite Hrep. now apply put_addrs_run. }
  assert (E2 : swap_one (map (map (rd s)) subs) (i, o) w = (Ok tt, w1)).
  { unfold swap_one, bind, lift. rewrite !py_get_map, (py_get_nth _ _ _ Eold), (py_get_pred _ _ _ Enew). cbn [rmapr].
    destruct (load_view s w o V) as [(q & Eq & _ & ->)|(Hl & _)].
    2:{ apply nth_error_lt in Ep. lia. }
    rewrite Ep in Eq. inv Eq. unfold rd. rewrite replace_value, Hrep. cbn [rmapr]. exact Ew1. }
  destruct (IH s1 w1) as (s' & w' & F1 & F2 & V' & Eo & Elen & Hoth & Htot); auto.
  { intros j o' Hj. destruct (HL j o' (or_intror Hj)) as (old' & new' & A & B & C).
    exists old', new'. repeat split; auto. apply seg_other; auto. intros ->.
    apply Hni. exact (in_map snd _ _ Hj). }
  exists s', w'. cbn [iterM]. unfold bind. rewrite E1, E2, F1.
  change (rd s) with (rd s1). rewrite F2. repeat split; auto; try apply V'.
  - rewrite Elen. cbn. apply list_set_length.
  - intros o' Ho. rewrite Hoth by (intro; apply Ho; cbn; auto). apply nth_list_set_other. intros ->. apply Ho. cbn. auto.
  - intros a. specialize (Htot a). cbn [map fst sumf fold_right].
    assert (Ht : total s1 a + cnt old a = total s a + cnt new a).
    { unfold total. cbn [s1 s_trees]. pose proof (all_addrs_set _ _ _ (pre ++ new ++ post) a Ep) as Hs.
      rewrite El in Hs. rewrite !cnt_app in Hs. lia. }
    rewrite (nth_error_nth _ _ _ Eold), (nth_error_nth _ _ _ Enew). unfold sumf in *. lia.
Qed.

Lemma combine_in_nth {A} (l : list A) k i o : In (i, o) (combine (seq k (length l)) l) ->
  exists j, i = k + j /\ nth_error l j = Some o.
Proof.
  revert k; induction l as [|x l IH]; intros k; cbn; [tauto|]. intros [E|E].
  - inv E. exists 0. auto.
  - destruct (IH (S k) E) as (j & -> & Ej). exists (S j). split; [lia|auto].
Qed.

Lemma map_fst_combine {A} (l : list A) k : map fst (combine (seq k (length l)) l) = seq k (length l).
Proof. revert k; induction l; intros k; cbn; auto. now rewrite IHl. Qed.
Lemma map_snd_combine {A} (l : list A) k : map snd (combine (seq k (length l)) l) = l.
Proof. revert k; induction l; intros k; cbn; auto. now rewrite IHl. Qed.

Definition attempt_ok (ch : list nat) (m : H bool) (n : M bool) : Prop :=
  forall s w, inv_s s -> same_view s w -> exists r s' w',
    m s = (r, s') /\ n w = (r, w') /\ same_view s' w' /\ inv_s s' /\ kept ch s s'.

Ltac five := refine (conj _ (conj _ (conj _ (conj _ _)))).

Lemma raise_ok ch e : attempt_ok ch (raise e) (raise e).
Proof. intros s w I V. exists (Raise e), s, w. five; auto using kept_refl. Qed.

Lemma swap_total subs (inds : list nat) s g s' a : length inds = length subs ->
  (total s' a + sumf (fun i => cnt (nth i subs []) a) (map fst (rev (combine (seq 0 (length inds)) inds))) =
   total (srng s g) a + sumf (fun i => cnt (nth i (rotate subs) []) a) (map fst (rev (combine (seq 0 (length inds)) inds)))) ->
  total s' a = total s a.
Proof.
  intros Hlen Htot. rewrite map_rev, map_fst_combine, !sumf_rev, Hlen in Htot.
  pose proof (sumf_concat subs a []) as C1. pose proof (sumf_concat (rotate subs) a []) as C2.
  cbn [app length] in C1, C2. rewrite rotate_length in C2. rewrite C1, C2 in Htot.
  rewrite (cnt_concat_perm _ _ a (rotate_perm subs)) in Htot. change (total (srng s g) a) with (total s a) in Htot. lia.
Qed.

Lemma xo_sim k inds : NoDup inds -> attempt_ok inds (xo_objects k inds) (xo_attempt k inds).
Proof.
  intros Hnd. unfold xo_objects, xo_attempt. destruct (negb _); [apply raise_ok|].
  intros s w I V. destruct (pick_all_sim inds s w V) as (r & g & E1 & E2 & Hs).
  unfold bind. rewrite E1, E2. destruct r as [[subs|]|e]; cbn [rmapr option_map].
  2:{ exists (Ok false), (srng s g), (wrng w g). five; auto using same_view_rng, kept_rng. }
  2:{ exists (Raise e), (srng s g), (wrng w g). five; auto using same_view_rng, kept_rng. }
  specialize (Hs subs eq_refl).
  assert (Hlen : length inds = length subs) by (eapply Forall2_len; eauto).
  unfold swap_subtrees.
  destruct (swap_phase subs (rev (combine (seq 0 (length inds)) inds)) (srng s g) (wrng w g)) as
    (s' & w' & F1 & F2 & V' & Eo & El & Hoth & Htot).
  - now apply same_view_rng.
  - rewrite map_rev, map_snd_combine. now apply NoDup_rev.
  - intros i o Hi. rewrite <- in_rev in Hi. apply combine_in_nth in Hi as (j & -> & Ej). cbn [Nat.add].
    assert (j < length subs) by (rewrite <- Hlen; eapply nth_error_lt; eauto).
    destruct (nth_error subs j) as [old|] eqn:Eold; [|apply nth_error_None in Eold; lia].
    destruct (nth_error (rotate subs) j) as [new|] eqn:Enew.
    2:{ apply nth_error_None in Enew. rewrite rotate_length in Enew. lia. }
    exists old, new. repeat split; auto. apply seg_rng.
    clear -Hs Ej Eold. revert j Ej Eold; induction Hs as [|? ? ? ? Hh Ht IH]; intros [|j] Ej Eold; try discriminate; cbn in *.
    + inv Ej. inv Eold. auto.
    + eauto.
  - change (rd (srng s g)) with (rd s) in F2. unfold oid in *. rewrite F1, F2. exists (Ok true), s', w'. five; auto.
    + intros a. rewrite (swap_total subs inds s g s' a Hlen (Htot a)), Eo. apply I.
    + split; [rewrite El; cbn; lia|]. intros o p Ep Ho. rewrite Eo. split; auto.
      rewrite Hoth; auto. rewrite map_rev, map_snd_combine, <- in_rev. auto.
Qed.

(** *** Subtree mutation *)
Lemma node_at_app objs new a : a < length objs -> node_at (objs ++ new) a = node_at objs a.
Proof. intros. unfold node_at. now rewrite app_nth1. Qed.

Lemma new_nodes l s : mapM new_node l s =
  (Ok (seq (length (s_objs s)) (length l)), mkStore (s_objs s ++ l) (s_trees s) (s_rng s)).
Proof.
  revert s; induction l as [|n l IH]; intros s.
  - cbn. rewrite app_nil_r. now destruct s.
  - cbn [mapM length seq]. unfold bind, new_node at 1. rewrite IH. cbn. rewrite app_length. cbn.
    rewrite Nat.add_1_r, <- app_assoc. reflexivity.
Qed.

Lemma inv_addr s o p a : inv_s s -> nth_error (s_trees s) o = Some p -> In a (p_nodes p) -> a < length (s_objs s).
Proof.
  intros I Ep Ha. apply (I a). pose proof (cnt_tree _ _ _ a Ep). apply cnt_pos in Ha. unfold total. lia.
Qed.

Definition more (s : nstore) (l : list node) : nstore := mkStore (s_objs s ++ l) (s_trees s) (s_rng s).

Lemma value_more s l o p : inv_s s -> nth_error (s_trees s) o = Some p ->
  tree_value (s_objs s ++ l) p = tree_value (s_objs s) p.
Proof.
  intros I Ep. unfold tree_value. f_equal. apply map_ext_in. intros a Ha. apply node_at_app. eapply inv_addr; eauto.
Qed.

Lemma view_more s w l : inv_s s -> same_view s w -> same_view (more s l) w.
Proof.
  intros I (A & B & C). split; [|split]; auto. intros o p Ep. destruct (C o p Ep) as (i & Ei & Hg).
  exists i. split; auto. rewrite Hg. f_equal. symmetry. eapply value_more; eauto.
Qed.

Lemma seg_more s l o x : inv_s s -> seg s o x -> seg (more s l) o x.
Proof.
  intros I (q & pre & n & l' & post & Eq & -> & El & Hne). exists q, pre, n, l', post. repeat split; auto.
  intros y Hy. cbn [more s_objs]. rewrite !node_at_app; auto.
  - eapply inv_addr; eauto. rewrite El. rewrite !in_app_iff. cbn. auto.
  - eapply inv_addr; eauto. rewrite El. rewrite !in_app_iff. auto.
Qed.

Lemma map_new objs l : map (node_at (objs ++ l)) (seq (length objs) (length l)) = l.
Proof.
  revert objs; induction l as [|n l IH]; intros objs; [reflexivity|].
  cbn [length seq map]. f_equal.
  - unfold node_at. rewrite app_nth2, Nat.sub_diag; auto.
  - specialize (IH (objs ++ [n])). rewrite app_length, <- app_assoc in IH. cbn [app length] in IH.
    rewrite Nat.add_1_r in IH. exact IH.
Qed.

Lemma cnt_seq a k n : cnt (seq k n) a <= 1 /\ (0 < cnt (seq k n) a -> k <= a < k + n).
Proof.
  split.
  - apply NoDup_count_occ, seq_NoDup.
  - rewrite cnt_pos, in_seq. auto.
Qed.

Lemma mut_one_sim mn mx o old s w : inv_s s -> same_view s w -> seg s o old ->
  exists r s' w', mut_one_objects mn mx (o, old) s = (r, s') /\ mut_one mn mx (o, map (rd s) old) w = (r, w') /\
    same_view s' w' /\ inv_s s' /\ kept [o] s s' /\
    (forall o' l, o' <> o -> seg s o' l -> seg s' o' l) /\
    (forall o' l, o' <> o -> seg s o' l -> map (rd s') l = map (rd s) l).
Proof.
  intros I V Hseg. destruct (seg_replace _ _ _ Hseg) as (p & pre & post & Ep & El & _).
  pose proof Hseg as (p0 & pre0 & n & l' & post0 & Ep0 & Eold & El0 & _).
  rewrite Ep in Ep0. injection Ep0 as <-.
  unfold mut_one_objects, mut_one, bind.
  destruct (load_view s w o V) as [(q & Eq & -> & ->)|(Hl & _)].
  2:{ apply nth_error_lt in Ep. lia. }
  rewrite Ep in Eq. injection Eq as <-. rewrite Eold. cbn [map objects]. change (rd s n) with (node_at (s_objs s) n).
  rewrite liftN_run, liftR_run. destruct V as (Eg & V0). rewrite Eg.
  destruct (grow_tree _ _ _ _ _ _ _ (s_rng s)) as [[new|e] g]; cbn [fst snd].
  2:{ exists (Raise e), (srng s g), (wrng w g). split; auto. split; auto. split. { now apply same_view_rng. }
      split; auto. split; [apply kept_rng|]. split; auto. }
  rewrite new_nodes. change (mkStore (s_objs (srng s g) ++ new) (s_trees (srng s g)) (s_rng (srng s g))) with (more (srng s g) new).
  set (s1 := more (srng s g) new). cbn [objects].
  assert (I1 : inv_s (srng s g)) by exact I.
  assert (V1 : same_view s1 (wrng w g)). { apply view_more; auto. now apply same_view_rng. }
  assert (Hseg1 : seg s1 o old) by (apply seg_more; auto).
  destruct (seg_replace _ _ _ Hseg1) as (p1 & pre1 & post1 & Ep1 & El1 & Hrep).
  change (s_trees s1) with (s_trees s) in Ep1. rewrite Ep in Ep1. injection Ep1 as <-.
  unfold lift. rewrite <- Eold. rewrite Hrep.
  change (nth_error (s_trees s) o) with (nth_error (s_trees s1) o) in Ep.
  rewrite (put_addrs_run _ _ _ _ Ep).
  set (addrs := seq (length (s_objs (srng s g))) (length new)).
  set (s2 := mkStore (s_objs s1) (list_set (s_trees s1) o (with_addrs p (pre1 ++ addrs ++ post1))) (s_rng s1)).
  assert (Hval : tree_value (s_objs s) p = tree_value (s_objs s1) p).
  { symmetry. exact (value_more s new o p I Ep). }
  assert (Hold : node_at (s_objs s) n :: map (rd s) l' = map (node_at (s_objs s1)) old).
  { rewrite Eold. cbn [map]. f_equal.
    - symmetry. apply node_at_app. eapply inv_addr; eauto. rewrite El0, Eold, !in_app_iff. cbn. auto.
    - apply map_ext_in. intros a Ha. symmetry. apply node_at_app. eapply inv_addr; eauto.
      rewrite El0, Eold, !in_app_iff. cbn. auto. }
  rewrite Hold, Hval.
  pose proof (replace_value (s_objs s1) p old addrs) as Hr.
  assert (En : map (node_at (s_objs s1)) addrs = new) by apply map_new.
  rewrite En in Hr. rewrite Hr, Hrep. cbn [rmapr].
  destruct (put_sim s1 (wrng w g) o p (pre1 ++ addrs ++ post1) V1 Ep) as (w2 & Ew2 & V2). fold s2 in V2.
  rewrite Ew2. exists (Ok tt), s2, w2. split; auto. split; auto. split; auto.
  assert (I2 : inv_s s2).
  { intros a. destruct (I a) as [Ia Ib].
    pose proof (all_addrs_set _ _ _ (pre1 ++ addrs ++ post1) a Ep) as Hs.
    change (all_addrs (list_set (s_trees s1) o (with_addrs p (pre1 ++ addrs ++ post1)))) with (all_addrs (s_trees s2)) in Hs.
    fold (total s2 a) in Hs. change (cnt (all_addrs (s_trees s1)) a) with (total s a) in Hs.
    rewrite El1, !cnt_app in Hs. destruct (cnt_seq a (length (s_objs (srng s g))) (length new)) as [C1 C2].
    fold addrs in C1, C2. change (s_objs (srng s g)) with (s_objs s) in C2.
    assert (Hlen : length (s_objs s2) = length (s_objs s) + length new) by (cbn; apply app_length).
    split.
    - destruct (le_lt_dec (cnt addrs a) 0); [lia|]. destruct (le_lt_dec (total s a) 0); [lia|].
      specialize (C2 l). specialize (Ib l0). lia.
    - intros Hp. destruct (le_lt_dec (cnt addrs a) 0); [|specialize (C2 l); lia].
      assert (H0 : 0 < total s a) by lia. specialize (Ib H0). lia. }
  split; auto. split; [|split].
  - split. { cbn. rewrite list_set_length. lia. }
    intros o' p' Ep' Ho. split. { cbn. rewrite nth_list_set_other; auto. intros ->. apply Ho. cbn. auto. }
    exact (value_more s new o' p' I Ep').
  - intros o' l Ho Hl. apply seg_other; auto. apply seg_more; auto.
  - intros o' l Ho (q & pre2 & n2 & l2 & post2 & Eq & -> & El2 & _). apply map_ext_in. intros a Ha.
    apply node_at_app. eapply inv_addr; eauto. rewrite El2, !in_app_iff. auto.
Qed.

Lemma kept_weaken ch ch' s s' : (forall o, In o ch -> In o ch') -> kept ch s s' -> kept ch' s s'.
Proof. intros Hi [L K]. split; auto. Qed.

Lemma muts_sim mn mx : forall inds olds s w, NoDup inds -> Forall2 (seg s) inds olds -> inv_s s -> same_view s w ->
  exists r s' w', iterM (mut_one_objects mn mx) (combine inds olds) s = (r, s') /\
    iterM (mut_one mn mx) (combine inds (map (map (rd s)) olds)) w = (r, w') /\
    same_view s' w' /\ inv_s s' /\ kept inds s s'.
Proof.
  induction inds as [|o inds IH]; intros olds s w Hnd Hf I V; inv Hf.
  - exists (Ok tt), s, w. cbn. five; auto using kept_refl.
  - rename y into old, l' into olds. apply NoDup_cons_iff in Hnd as [Hni Hnd].
    destruct (mut_one_sim mn mx o old s w I V) as (r & s1 & w1 & E1 & E2 & V1 & I1 & K1 & S1 & M1); auto.
    cbn [combine map iterM]. unfold bind. rewrite E1, E2. destruct r as [u|e].
    2:{ exists (Raise e), s1, w1. five; auto. eapply (kept_weaken [o]); [|exact K1]. cbn. tauto. }
    destruct (IH olds s1 w1) as (r' & s' & w' & F1 & F2 & V' & I' & K'); auto.
    { clear -H3 Hni S1. induction H3; constructor.
      - apply S1; auto. intros ->. apply Hni. cbn; auto.
      - apply IHForall2. intros Hi. apply Hni. cbn; auto. }
    assert (Em : map (map (rd s1)) olds = map (map (rd s)) olds).
    { clear -H3 Hni M1. induction H3 as [|x y xs ys Hx]; cbn; auto. f_equal.
      - apply (M1 x y); auto. intros ->. apply Hni. cbn; auto.
      - apply IHForall2. intros Hi. apply Hni. cbn; auto. }
    rewrite Em in F2. rewrite F1, F2. exists r', s', w'. five; auto.
    eapply kept_trans; [eapply (kept_weaken [o]); [|exact K1]|eapply (kept_weaken inds); [|exact K']]; cbn; tauto.
Qed.

Lemma somes_segs s inds rs ss :
  Forall2 (fun o x => forall l, x = Some l -> seg s o l) inds rs -> all_somes rs = Some ss -> Forall2 (seg s) inds ss.
Proof.
  intros Hf. revert ss; induction Hf as [|o x inds rs Hx Hf IH]; cbn; intros ss Ea.
  - inv Ea. constructor.
  - destruct x as [l|]; [|discriminate]. destruct (all_somes rs); [|discriminate]. inv Ea. constructor; auto.
Qed.

Lemma mut_sim mn mx inds : NoDup inds -> attempt_ok inds (mut_objects mn mx inds) (mut_attempt mn mx inds).
Proof.
  intros Hnd s w I V. unfold mut_objects, mut_attempt, bind.
  destruct (picks_sim None inds s w V) as (r & g & E1 & E2 & Hs). rewrite E1, E2.
  destruct r as [rs|e]; cbn [rmapr].
  2:{ exists (Raise e), (srng s g), (wrng w g). five; auto using same_view_rng, kept_rng. }
  rewrite all_somes_map. destruct (all_somes rs) as [ss|] eqn:Ea; cbn [option_map].
  2:{ exists (Ok false), (srng s g), (wrng w g). five; auto using same_view_rng, kept_rng. }
  pose proof (somes_segs _ _ _ _ (Hs rs eq_refl) Ea) as Hf.
  destruct (muts_sim mn mx inds ss (srng s g) (wrng w g)) as (r & s' & w' & F1 & F2 & V' & I' & K'); auto using same_view_rng.
  change (rd (srng s g)) with (rd s) in F2. unfold oid in *. rewrite F1, F2.
  assert (K : kept inds s s') by (eapply kept_trans; [apply kept_rng|exact K']).
  destruct r as [u|e].
  - exists (Ok true), s', w'. five; auto.
  - exists (Raise e), s', w'. five; auto.
Qed.

(** *** ERC mutation *)
Lemma positions_from_filter (p : node -> bool) (f : nat -> node) l : forall k,
  length (positions_from p k (map f l)) = length (filter (fun a => p (f a)) l) /\
  forall j x, nth_error (filter (fun a => p (f a)) l) j = Some x ->
    exists i, nth_error (positions_from p k (map f l)) j = Some (k + i) /\ nth_error l i = Some x.
Proof.
  induction l as [|a l IH]; intros k; cbn [map positions_from filter].
  - split; auto. intros [|j]; discriminate.
  - destruct (IH (S k)) as [IHl IHn]. destruct (p (f a)).
    + cbn [length]. split; [lia|]. intros [|j] x E; cbn in E |- *.
      * inv E. exists 0. rewrite Nat.add_0_r. auto.
      * destruct (IHn j x E) as (i & A & B). exists (S i). rewrite A. split; auto. f_equal. lia.
    + split; auto. intros j x E. destruct (IHn j x E) as (i & A & B). exists (S i). rewrite A. split; auto.
      f_equal. lia.
Qed.

(** Node number [i] of tree [o] is the object [a]. *)
Definition leaf_rel (s : nstore) (o : nat) (x y : option nat) : Prop :=
  match x, y with
  | None, None => True
  | Some a, Some i => occurs s o i a
  | _, _ => False
  end.

Lemma numeric_sim o s w : same_view s w -> exists r r' g,
  numeric_object o s = (r, srng s g) /\
  (t <- load_tree o ;; liftR (get_random_numeric_node t)) w = (r', wrng w g) /\
  match r, r' with
  | Ok x, Ok y => leaf_rel s o x y
  | Raise e, Raise e' => e = e'
  | _, _ => False
  end.
Proof.
  intros V. unfold numeric_object, bind.
  destruct (load_view s w o V) as [(p & Ep & -> & ->)|(Hl & -> & ->)].
  2:{ exists (Raise AttributeError), (Raise AttributeError), (s_rng s). rewrite srng_id.
      destruct V as (Eg & _). rewrite <- Eg, wrng_id. auto. }
  cbn [objects]. rewrite liftR_run. destruct V as (Eg & _). rewrite Eg.
  unfold get_random_numeric_node. cbn [tree_value t_nodes].
  destruct (positions_from_filter is_numeric_node (node_at (s_objs s)) (p_nodes p) 0) as [Hlen Hn].
  remember (filter (fun a => is_numeric_node (node_at (s_objs s) a)) (p_nodes p)) as cands.
  remember (positions_from is_numeric_node 0 (map (node_at (s_objs s)) (p_nodes p))) as ps.
  destruct cands as [|c cands], ps as [|i ps]; try discriminate.
  { exists (Ok None), (Ok None), (s_rng s). rewrite srng_id. repeat split; auto. }
  unfold bind. rewrite liftN_run. pose proof (choice_nth (c :: cands) (s_rng s)) as Hc.
  destruct (choice (c :: cands) (s_rng s)) as [[a|e] g]; cbn [fst snd].
  - destruct Hc as (k & Ek & Hk). destruct (Hk _ (i :: ps) Hlen) as (y & Ey & ->).
    destruct (Hn k a Ek) as (j & Ej & Ea). rewrite Ey in Ej. injection Ej as ->.
    exists (Ok (Some a)), (Ok (Some j)), g. repeat split; auto. exists p. auto.
  - rewrite (Hc _ (i :: ps) Hlen). exists (Raise e), (Raise e), g. auto.
Qed.

Lemma leaf_rng s g o x y : leaf_rel (srng s g) o x y -> leaf_rel s o x y.
Proof. auto. Qed.

Fixpoint leaves_rel (s : nstore) (inds : list nat) (xs ys : list (option nat)) : Prop :=
  match inds, xs, ys with
  | [], [], [] => True
  | o :: inds, x :: xs, y :: ys => leaf_rel s o x y /\ leaves_rel s inds xs ys
  | _, _, _ => False
  end.

Lemma leaves_rng s g inds xs ys : leaves_rel (srng s g) inds xs ys -> leaves_rel s inds xs ys.
Proof. revert xs ys; induction inds; intros [|] [|]; cbn; try tauto. intros []; split; auto. Qed.

Lemma numerics_sim inds s w : same_view s w -> exists r r' g,
  mapM numeric_object inds s = (r, srng s g) /\
  mapM (fun o => t <- load_tree o ;; liftR (get_random_numeric_node t)) inds w = (r', wrng w g) /\
  match r, r' with
  | Ok xs, Ok ys => leaves_rel s inds xs ys
  | Raise e, Raise e' => e = e'
  | _, _ => False
  end.
Proof.
  revert s w; induction inds as [|o inds IH]; intros s w V.
  - exists (Ok []), (Ok []), (s_rng s). rewrite srng_id. destruct V as (Eg & _). rewrite <- Eg, wrng_id. cbn. auto.
  - destruct (numeric_sim o s w V) as (r & r' & g & E1 & E2 & Hr).
    cbn [mapM]. unfold bind at 1 3. unfold oid in *. rewrite E1, E2.
    destruct r as [x|e], r' as [y|e']; try contradiction.
    2:{ subst. exists (Raise e'), (Raise e'), g. auto. }
    destruct (IH (srng s g) (wrng w g)) as (r2 & r2' & g2 & F1 & F2 & H2). { now apply same_view_rng. }
    unfold bind at 1 2. rewrite F1. unfold oid in *. rewrite F2.
    destruct r2 as [xs|e], r2' as [ys|e']; try contradiction.
    + exists (Ok (x :: xs)), (Ok (y :: ys)), g2. repeat split; auto. eapply leaves_rng; eauto.
    + subst. exists (Raise e'), (Raise e'), g2. auto.
Qed.

Lemma node_at_set objs a n b : a < length objs ->
  node_at (list_set objs a n) b = if a =? b then n else node_at objs b.
Proof.
  intros Ha. unfold node_at. destruct (Nat.eqb_spec a b) as [<-|Hne].
  - apply nth_error_nth. now apply nth_list_set_same.
  - destruct (nth_error objs b) as [x|] eqn:E.
    + rewrite (nth_error_nth _ _ _ E). apply nth_error_nth. now rewrite nth_list_set_other.
    + apply nth_error_None in E. rewrite !nth_overflow; auto. now rewrite list_set_length.
Qed.

Lemma map_set objs a n l i : a < length objs -> nth_error l i = Some a ->
  (forall j, nth_error l j = Some a -> j = i) ->
  map (node_at (list_set objs a n)) l = list_set (map (node_at objs) l) i n.
Proof.
  intros Ha. revert i; induction l as [|b l IH]; intros i Ei Hu; [destruct i; discriminate|].
  destruct i as [|i]; cbn [map list_set]; cbn in Ei.
  - inv Ei. f_equal.
    + rewrite node_at_set by auto. now rewrite Nat.eqb_refl.
    + apply map_ext_in. intros b Hb. rewrite node_at_set by auto. destruct (Nat.eqb_spec a b) as [<-|]; auto.
      apply In_nth_error in Hb as (j & Ej). specialize (Hu (S j) Ej). discriminate.
  - f_equal.
    + rewrite node_at_set by auto. destruct (Nat.eqb_spec a b) as [<-|]; auto. specialize (Hu 0 eq_refl). discriminate.
    + apply IH; auto. intros j Ej. specialize (Hu (S j) Ej). lia.
Qed.

Lemma erc_one_sim mu sigma o i a s w : inv_s s -> same_view s w -> occurs s o i a ->
  exists r s' w', erc_one_object mu sigma a s = (r, s') /\ erc_one mu sigma (o, i) w = (r, w') /\
    same_view s' w' /\ inv_s s' /\ kept [o] s s' /\ s_trees s' = s_trees s.
Proof.
  intros I V Ho. pose proof I as IU. apply inv_iff in IU as [U A].
  pose proof (A o i a Ho) as Ha. pose proof Ho as (p & Ep & Ei).
  unfold erc_one_object, erc_one, bind.
  destruct (load_view s w o V) as [(q & Eq & _ & ->)|(Hl & _)].
  2:{ apply nth_error_lt in Ep. lia. }
  rewrite Ep in Eq. injection Eq as <-. pose proof V as (Eg & Hl & Hv).
  rewrite liftN_run, liftR_run, Eg.
  destruct (gauss mu sigma (s_rng s)) as [[g|e] g1]; cbn [fst snd].
  2:{ exists (Raise e), (srng s g1), (wrng w g1). repeat (split; auto using same_view_rng, kept_rng). }
  rewrite liftN_run, liftR_run. cbn [srng wrng s_rng w_rng].
  destruct (next_draw g1) as [[d|e] g2]; cbn [fst snd].
  2:{ exists (Raise e), (srng s g2), (wrng w g2). repeat (split; auto using same_view_rng, kept_rng). }
  cbn [objects]. cbn [tree_value t_nodes]. rewrite nth_error_map, Ei. cbn [option_map].
  set (n := add_noise g (d_n d) (node_at (s_objs s) a)).
  set (s' := mkStore (list_set (s_objs s) a n) (s_trees s) g2).
  destruct (Hv o p Ep) as (x & Ex & Hgx).
  rewrite (put_genome_run o (wrng (wrng w g1) g2) x) by exact Ex.
  assert (Hother : forall o' p', nth_error (s_trees s) o' = Some p' -> o' <> o ->
            tree_value (s_objs s') p' = tree_value (s_objs s) p').
  { intros o' p' Ep' Hne. unfold tree_value. f_equal. apply map_ext_in. intros b Hb. cbn [s_objs s'].
    rewrite node_at_set by auto. destruct (Nat.eqb_spec a b) as [<-|]; auto.
    apply In_nth_error in Hb as (j & Ej). destruct (U a o i o' j) as [-> _]; auto. { exists p'. auto. }
    congruence. }
  exists (Ok tt), s'. eexists. split; [reflexivity|]. split; [reflexivity|]. split.
  { split; [reflexivity|]. cbn [w_heap s_trees s' wrng]. rewrite list_set_length. split; auto.
    intros o' p' Ep'. destruct (Nat.eq_dec o o') as [<-|Hne].
    - change (s_trees s') with (s_trees s) in Ep'. rewrite Ep in Ep'. injection Ep' as <-.
      eexists. split; [apply nth_list_set_same; eapply nth_error_lt; eauto|].
      cbn [i_genome set_genome]. f_equal. unfold tree_value, with_nodes. cbn [t_fset t_tset t_erc t_root_type t_nodes].
      f_equal. symmetry. apply map_set; auto. intros j Ej. symmetry.
      apply (U a o i o j); auto. exists p. auto.
    - rewrite nth_list_set_other by auto. destruct (Hv o' p' Ep') as (y & Ey & Hgy). exists y. split; auto.
      rewrite Hgy. f_equal. symmetry. apply (Hother o'); auto. }
  split. { intros b. destruct (I b) as [I1 I2]. split; auto. cbn. rewrite list_set_length. exact I2. }
  split; auto. split; auto. intros o' p' Ep' Hno. split; auto. apply (Hother o'); auto. intros ->. apply Hno. cbn; auto.
Qed.

Fixpoint all_occur (s : nstore) (inds xs ys : list nat) : Prop :=
  match inds, xs, ys with
  | [], [], [] => True
  | o :: inds, a :: xs, i :: ys => occurs s o i a /\ all_occur s inds xs ys
  | _, _, _ => False
  end.

Lemma leaves_somes s inds xs ys : leaves_rel s inds xs ys ->
  match all_somes xs, all_somes ys with
  | Some l, Some l' => all_occur s inds l l'
  | None, None => True
  | _, _ => False
  end.
Proof.
  revert xs ys; induction inds as [|o inds IH]; intros [|x xs] [|y ys]; cbn; try tauto.
  intros [Hx Hr]. specialize (IH xs ys Hr). destruct x as [a|], y as [i|]; try contradiction; auto.
  destruct (all_somes xs), (all_somes ys); try contradiction; auto.
Qed.

Lemma all_occur_trees s s' inds xs ys : s_trees s' = s_trees s -> all_occur s inds xs ys -> all_occur s' inds xs ys.
Proof.
  intros E. revert xs ys; induction inds; intros [|] [|]; cbn; try tauto. intros [Ho Hr]. split; auto.
  destruct Ho as (p & Ep & Ei). exists p. now rewrite E.
Qed.

Lemma ercs_sim mu sigma : forall inds xs ys s w, all_occur s inds xs ys -> inv_s s -> same_view s w ->
  exists r s' w', iterM (erc_one_object mu sigma) xs s = (r, s') /\
    iterM (erc_one mu sigma) (combine inds ys) w = (r, w') /\
    same_view s' w' /\ inv_s s' /\ kept inds s s'.
Proof.
  induction inds as [|o inds IH]; intros [|a xs] [|i ys] s w Hf I V; cbn in Hf; try contradiction.
  - exists (Ok tt), s, w. cbn. five; auto using kept_refl.
  - destruct Hf as [Ho Hf].
    destruct (erc_one_sim mu sigma o i a s w I V Ho) as (r & s1 & w1 & E1 & E2 & V1 & I1 & K1 & T1).
    cbn [combine iterM]. unfold bind. rewrite E1. unfold oid in *. rewrite E2. destruct r as [u|e].
    2:{ exists (Raise e), s1, w1. five; auto. eapply (kept_weaken [o]); [|exact K1]. cbn. tauto. }
    destruct (IH xs ys s1 w1) as (r' & s' & w' & F1 & F2 & V' & I' & K'); auto.
    { eapply all_occur_trees; eauto. }
    unfold oid in *. rewrite F1, F2. exists r', s', w'. five; auto.
    eapply kept_trans; [eapply (kept_weaken [o]); [|exact K1]|eapply (kept_weaken inds); [|exact K']]; cbn; tauto.
Qed.

Lemma erc_sim mu sigma inds : attempt_ok inds (erc_objects mu sigma inds) (erc_attempt mu sigma inds).
Proof.
  intros s w I V. unfold erc_objects, erc_attempt.
  destruct (numerics_sim inds s w V) as (r & r' & g & E1 & E2 & Hr).
  unfold bind at 1 3. rewrite E1. unfold oid in *. rewrite E2.
  destruct r as [xs|e], r' as [ys|e']; try contradiction.
  2:{ subst. exists (Raise e'), (srng s g), (wrng w g). five; auto using same_view_rng, kept_rng. }
  pose proof (leaves_somes _ _ _ _ Hr) as Hs.
  destruct (all_somes xs) as [l|], (all_somes ys) as [l'|]; try contradiction.
  2:{ exists (Ok false), (srng s g), (wrng w g). five; auto using same_view_rng, kept_rng. }
  destruct (ercs_sim mu sigma inds l l' (srng s g) (wrng w g)) as (r & s' & w' & F1 & F2 & V' & I' & K'); auto using same_view_rng.
  { eapply all_occur_trees; [|exact Hs]. reflexivity. }
  unfold bind. rewrite F1. unfold oid in *. rewrite F2.
  assert (K : kept inds s s') by (eapply kept_trans; [apply kept_rng|exact K']).
  destruct r as [u|e].
  - exists (Ok true), s', w'. five; auto.
  - exists (Raise e), s', w'. five; auto.
Qed.

(** *** Cloning *)
Lemma memo_none a memo : (forall b, ~ In (a, b) memo) -> memo_get a memo = None.
Proof.
  induction memo as [|[k b] memo IH]; cbn; auto. intros Hn. destruct (Nat.eqb_spec a k) as [->|].
  - exfalso. apply (Hn b). auto.
  - apply IH. intros c Hc. apply (Hn c). auto.
Qed.

Lemma copy_addrs_run l : forall memo s, NoDup l -> (forall a b, In a l -> ~ In (a, b) memo) ->
  (forall a, In a l -> a < length (s_objs s)) ->
  copy_addrs memo l s = (Ok (seq (length (s_objs s)) (length l)), more s (map (node_at (s_objs s)) l)).
Proof.
  induction l as [|a l IH]; intros memo s Hnd Hm Ha.
  - cbn. unfold more. rewrite app_nil_r. now destruct s.
  - cbn [copy_addrs length seq map]. rewrite memo_none by (intros b; apply Hm; cbn; auto).
    apply NoDup_cons_iff in Hnd as [Hni Hnd]. unfold bind. cbn [objects new_node].
    set (s1 := mkStore (s_objs s ++ [node_at (s_objs s) a]) (s_trees s) (s_rng s)).
    rewrite (IH _ s1); auto.
    + unfold ret. f_equal.
      * cbn [s1 s_objs]. rewrite app_length. cbn [length]. now rewrite Nat.add_1_r.
      * unfold more. cbn [s1 s_objs s_trees s_rng]. rewrite <- app_assoc. cbn [app]. f_equal. f_equal. f_equal.
        apply map_ext_in. intros b Hb. apply node_at_app. apply Ha. cbn; auto.
    + intros b c Hb [E|Hc].
      * inv E. auto.
      * apply (Hm b c); cbn; auto.
    + intros b Hb. cbn. rewrite app_length. specialize (Ha b (or_intror Hb)). lia.
Qed.

Lemma inv_nodup s o p : inv_s s -> nth_error (s_trees s) o = Some p -> NoDup (p_nodes p).
Proof.
  intros I Ep. apply (NoDup_count_occ Nat.eq_dec). intros a. destruct (I a) as [I1 _].
  pose proof (cnt_tree _ _ _ a Ep). unfold total, cnt in *. lia.
Qed.

Lemma clone_sim o s w : inv_s s -> same_view s w -> exists r s' w',
  clone_objects o s = (r, s') /\ clone o w = (r, w') /\ same_view s' w' /\ inv_s s' /\ kept [] s s'.
Proof.
  intros I V. unfold clone_objects, clone, bind. pose proof V as (Eg & Hl & Hv).
  destruct (nth_error (s_trees s) o) as [p|] eqn:Ep.
  2:{ unfold load_ptree, load. rewrite Ep. replace (nth_error (w_heap w) o) with (@None ind).
      - exists (Raise AttributeError), s, w. five; auto using kept_refl.
      - symmetry. apply nth_error_None. rewrite Hl. now apply nth_error_None. }
  destruct (Hv o p Ep) as (x & Ex & Hx). unfold load_ptree, load. rewrite Ep, Ex.
  rewrite copy_addrs_run; [|eapply inv_nodup; eauto|auto|intros; eapply inv_addr; eauto].
  set (new := map (node_at (s_objs s)) (p_nodes p)).
  assert (Hln : length (p_nodes p) = length new) by (unfold new; now rewrite map_length).
  rewrite Hln. unfold fresh_id, alloc. cbn [w_heap w_next_id w_rng]. rewrite Hl.
  eexists _, _, _. split; [reflexivity|]. split; [reflexivity|]. cbn [more s_trees s_objs s_rng].
  split; [|split].
  - split; [exact Eg|]. cbn [w_heap s_trees s_objs]. rewrite !app_length. cbn [length]. split; [lia|].
    intros o' p' Ep'. cbn [s_trees] in Ep'.
    destruct (lt_dec o' (length (s_trees s))) as [Hlt|Hge].
    + rewrite nth_error_app1 in Ep' by auto. destruct (Hv o' p' Ep') as (y & Ey & Hy).
      exists y. split. { rewrite nth_error_app1; auto. lia. } rewrite Hy. f_equal. symmetry. eapply value_more; eauto.
    + assert (o' = length (s_trees s)) as ->.
      { apply nth_error_lt in Ep'. rewrite app_length in Ep'. cbn in Ep'. lia. }
      rewrite nth_error_app2, Nat.sub_diag in Ep' by lia. cbn in Ep'. injection Ep' as <-.
      eexists. split. { rewrite <- Hl, nth_error_app2, Nat.sub_diag by lia. reflexivity. }
      cbn [i_genome]. rewrite Hx. f_equal. unfold tree_value, with_addrs. cbn [p_fset p_tset p_erc p_root_type p_nodes].
      f_equal. symmetry. apply map_new.
  - intros a. destruct (I a) as [Ia Ib]. unfold total, all_addrs. cbn [s_trees s_objs].
    rewrite map_app, concat_app, cnt_app. fold (all_addrs (s_trees s)). fold (total s a). cbn [map List.concat with_addrs p_nodes].
    rewrite app_nil_r, app_length. destruct (cnt_seq a (length (s_objs s)) (length new)) as [C1 C2]. split.
    + destruct (le_lt_dec (cnt (seq (length (s_objs s)) (length new)) a) 0); [lia|].
      destruct (le_lt_dec (total s a) 0); [lia|]. specialize (C2 l). specialize (Ib l0). lia.
    + intros Hp. destruct (le_lt_dec (cnt (seq (length (s_objs s)) (length new)) a) 0); [|specialize (C2 l); lia].
      assert (H0 : 0 < total s a) by lia. specialize (Ib H0). lia.
  - split. { cbn. rewrite app_length. lia. } intros o' p' Ep' _. cbn [s_trees s_objs]. split.
    + rewrite nth_error_app1; auto. eapply nth_error_lt; eauto.
    + eapply value_more; eauto.
Qed.

(** *** Retrying *)
Lemma failable_sim ch m n (inds : list nat) : attempt_ok ch m n -> forall k i s w, inv_s s -> same_view s w ->
  exists r s' w',
    failable_from (fun _ => ok <- m ;; ret (ok, inds)) (ret inds) i k s = (r, s') /\
    failable_from (fun _ => ok <- n ;; ret (ok, inds)) (ret inds) i k w = (r, w') /\
    same_view s' w' /\ inv_s s' /\ kept ch s s'.
Proof.
  intros Hm. induction k as [|k IH]; intros i s w I V; cbn [failable_from].
  - exists (Ok inds), s, w. five; auto using kept_refl.
  - destruct (Hm s w I V) as (r & s1 & w1 & E1 & E2 & V1 & I1 & K1). unfold bind. rewrite E1, E2.
    destruct r as [[|]|e]; cbn [ret fst snd].
    + exists (Ok inds), s1, w1. five; auto.
    + destruct (IH (S i) s1 w1 I1 V1) as (r & s' & w' & F1 & F2 & V' & I' & K').
      exists r, s', w'. five; auto. eapply kept_trans; eauto.
    + exists (Raise e), s1, w1. five; auto.
Qed.

Lemma step_sim op s w : proper_op op -> inv_s s -> same_view s w -> exists r s' w',
  on_objects op s = (r, s') /\ on_values op w = (r, w') /\ same_view s' w' /\ inv_s s' /\ kept (op_changes op) s s'.
Proof.
  intros Hp I V. destruct op as [o|k n inds|mn mx n inds|mu sigma n inds]; cbn [on_objects on_values op_changes op_inds].
  - unfold bind. destruct (clone_sim o s w I V) as (r & s' & w' & E1 & E2 & V' & I' & K').
    rewrite E1. unfold oid in *. rewrite E2. destruct r as [c|e].
    + exists (Ok [c]), s', w'. five; auto.
    + exists (Raise e), s', w'. five; auto.
  - apply (failable_sim inds _ _ inds (xo_sim k inds Hp)); auto.
  - apply (failable_sim inds _ _ inds (mut_sim mn mx inds Hp)); auto.
  - apply (failable_sim inds _ _ inds (erc_sim mu sigma inds)); auto.
Qed.

(** ** Sequences *)
Lemma runs_sim ops : forall s w, Forall proper_op ops -> inv_s s -> same_view s w ->
  fst (run_ops on_objects ops s) = fst (run_ops on_values ops w) /\
  same_view (snd (run_ops on_objects ops s)) (snd (run_ops on_values ops w)) /\
  inv_s (snd (run_ops on_objects ops s)) /\
  kept (flat_map op_changes ops) s (snd (run_ops on_objects ops s)).
Proof.
  induction ops as [|op ops IH]; intros s w Hp I V; cbn [run_ops].
  - cbn. auto using kept_refl.
  - inv Hp. destruct (step_sim op s w) as (r & s1 & w1 & E1 & E2 & V1 & I1 & K1); auto.
    rewrite E1, E2. destruct (IH s1 w1) as (F & V' & I' & K'); auto.
    destruct (run_ops on_objects ops s1) as [rs s2], (run_ops on_values ops w1) as [rs' w2]. cbn in *.
    split; [congruence|]. split; auto. split; auto.
    eapply kept_trans; eapply kept_weaken; try eassumption; intros o Ho; apply in_or_app; auto.
Qed.

(** Every store has a counterpart by value. *)
Definition plain_ind (objs : list node) (p : ptree) : ind :=
  mkInd 0 0 (mkFit KSimple VNone false (HB true) false false (Fin 0) PInf) 0 [] [] false [] (GTree (tree_value objs p)).

Lemma view_exists s : exists w, same_view s w.
Proof.
  exists (mkWorld (map (plain_ind (s_objs s)) (s_trees s)) 0 (s_rng s)).
  split; [reflexivity|]. cbn. rewrite map_length. split; auto. intros o p Ep.
  exists (plain_ind (s_objs s) p). split; auto. now rewrite nth_error_map, Ep.
Qed.

Lemma C28_never_shared ops s : Forall proper_op ops -> unshared s -> allocated s ->
  unshared (snd (run_ops on_objects ops s)) /\ allocated (snd (run_ops on_objects ops s)).
Proof.
  intros Hp U A. destruct (view_exists s) as (w & V). apply inv_iff.
  eapply runs_sim; eauto. now apply inv_iff.
Qed.

Lemma C28_like_values ops s w : Forall proper_op ops -> unshared s -> allocated s -> same_view s w ->
  fst (run_ops on_objects ops s) = fst (run_ops on_values ops w) /\
  same_view (snd (run_ops on_objects ops s)) (snd (run_ops on_values ops w)).
Proof.
  intros Hp U A V. destruct (runs_sim ops s w) as (F & V' & _); auto. now apply inv_iff.
Qed.

Lemma C28_others_untouched ops s o p : Forall proper_op ops -> unshared s -> allocated s ->
  nth_error (s_trees s) o = Some p -> (forall op, In op ops -> ~ In o (op_changes op)) ->
  nth_error (s_trees (snd (run_ops on_objects ops s))) o = Some p /\
  tree_value (s_objs (snd (run_ops on_objects ops s))) p = tree_value (s_objs s) p.
Proof.
  intros Hp U A Ep Ho. destruct (view_exists s) as (w & V).
  destruct (runs_sim ops s w) as (_ & _ & _ & _ & K); auto. { now apply inv_iff. }
  apply K; auto. intros Hin. apply in_flat_map in Hin as (op & H1 & H2). exact (Ho op H1 H2).
Qed.
