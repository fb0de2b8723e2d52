(** Properties of program trees: C19-C27, C57, C58. *)
From Coq Require Import Permutation.
From Verif.Model Require Import Tree World Operators Creators.
From Verif.Spec Require Import WorldSpec TreeSpec.
From Verif.Proofs Require Import TreeCreateP TreeOpP TreeExecP TreeFinalP.
From Verif.Model Require Import Tree World Creators.
Open Scope nat_scope.
Open Scope list_scope.

(** Material for the examples. *)
Definition add2 : func := mkFunc 1 "add" [None; None] None.
Definition neg1 : func := mkFunc 2 "neg" [None] None.
Definition vx : node := TNode (TVar "x") None.
Definition vy : node := TNode (TVar "y") None.
Definition two : node := TNode (TNum true (Fin 2) 9) None.
Definition with_xy (l : list node) : tree := mkTree [add2; neg1] [(TVar "x", None); (TVar "y", None)] None None l.
(** add(x, neg(y)) and neg(add(y, 2)) *)
Definition rose1 : rtree := Rose (FNode add2) [Rose vx []; Rose (FNode neg1) [Rose vy []]].
Definition rose2 : rtree := Rose (FNode neg1) [Rose (FNode add2) [Rose vy []; Rose two []]].
Definition tree1 : tree := with_xy (flatten rose1).
Definition tree2 : tree := with_xy (flatten rose2).
Definition two_trees (l : list draw) : world := mkWorld [plain_ind 1 (GTree tree1); plain_ind 2 (GTree tree2)] 3 (tape l).
Definition nodes_in (w : world) (o : oid) : list node :=
  match at_ w o with Some i => match i_genome i with GTree t => t_nodes t | _ => [] end | None => [] end.

Lemma hinted_xy : forall f, In f [add2; neg1] -> hinted f.
Proof. intros f [<-|[<-|[]]]; right; cbn; intros o H; repeat (destruct H as [<-|H]; [reflexivity|]); destruct H. Qed.
Lemma complete1 : complete_tree tree1.
Proof.
  split; [|split; [exact hinted_xy|exists rose1; cbn; repeat split]].
  intros f H. cbn in *. repeat (destruct H as [H|H]; [try discriminate; injection H as <-; auto|]). destruct H.
Qed.
Lemma complete2 : complete_tree tree2.
Proof.
  split; [|split; [exact hinted_xy|exists rose2; cbn; repeat split]].
  intros f H. cbn in *. repeat (destruct H as [H|H]; [try discriminate; injection H as <-; auto|]). destruct H.
Qed.
Lemma both_at l : trees_at (two_trees l) [0; 1] [tree1; tree2].
Proof. repeat constructor; eexists; split; reflexivity. Qed.

(** ** C19 *)

(** Whatever Grow and Full return are [n] new individuals with complete trees over the primitives, of the promised
    shape; no other individual is touched. *)
Theorem C19_created : forall m p n h w os w', create_individuals (CGP m p) n h w = (Ok os, w') ->
  os = seq (length (w_heap w)) n /\ length (w_heap w') = length (w_heap w) + n /\
  frame (fun _ => False) w w' /\ forall o, In o os -> created_by m p h w' o.
Proof. exact create_trees_ok. Qed.
Print Assumptions C19_created.

(** Creation succeeds for all draws if every requested type is supplied. *)
Theorem C19_succeeds : forall m p n h w tset,
  handle_input_types (g_fset p) (g_terms p) (g_typed p) (g_erc p) (g_root p) = Ok tset ->
  supplied (blank_tree p tset) (g_root p) -> exists os w', create_individuals (CGP m p) n h w = (Ok os, w').
Proof. exact create_trees_total. Qed.
Print Assumptions C19_succeeds.

(** The tree denoted by the list of nodes is unique. *)
Theorem C19_unique : forall t u, saturated t -> saturated u -> flatten t = flatten u -> t = u.
Proof. exact TreeP.flatten_inj. Qed.
Print Assumptions C19_unique.

Definition small_gp : gp_params :=
  mkGP 1 2 [add2; neg1] [(TVar "x", None); (TVar "y", None)] false (Some (ErcFloat (Fin (-1)) (Fin 1))) (Fin 0) None false (Fin (1 # 2)).

Lemma small_supplied : supplied (blank_tree small_gp [(TVar "x", None); (TVar "y", None)]) None.
Proof.
  split; [exact hinted_xy|]. split; [intros e [= <-]; exact I|].
  assert (forall a, requested (blank_tree small_gp [(TVar "x", None); (TVar "y", None)]) None a -> a = None) as H.
  { intros a [->|(f & [<-|[<-|[]]] & Ha)]; auto; cbn in Ha; intuition. }
  intros a Ha. rewrite (H a Ha). split; [exists add2; cbn; auto|]. left. exists (TVar "x"). cbn; auto.
Qed.

Example C19_example :
  handle_input_types (g_fset small_gp) (g_terms small_gp) (g_typed small_gp) (g_erc small_gp) (g_root small_gp)
    = Ok [(TVar "x", None); (TVar "y", None)] /\
  supplied (blank_tree small_gp [(TVar "x", None); (TVar "y", None)]) (g_root small_gp) /\
  let d n := mkDraw n 0 in
  let w := mkWorld [] 0 (tape [d 0%N; d 0%N; d 0%N; d 0%N; d 0%N; d 9007199254740991%N; d 1%N; d 0%N; d 0%N; d 1%N]) in
  let r := create_individuals (CGP Grow small_gp) 1 (HB true) w in
  fst r = Ok [0] /\ nodes_in (snd r) 0 = [FNode add2; vx; FNode neg1; vy].
Proof. split; [reflexivity|]. split; [exact small_supplied|]. vm_compute. split; reflexivity. Qed.

(** ** C20 *)

Theorem C20_half_and_half : forall mn mx grow full n h w os w', mn <= mx ->
  create_individuals (CHalf mn mx grow full) n h w = (Ok os, w') ->
  os = seq (length (w_heap w)) n /\ frame (fun _ => False) w w' /\
  Forall2 (planned mn grow full h w') (half_plan mn mx n) os.
Proof. exact create_half_ok. Qed.
Print Assumptions C20_half_and_half.

(** How the plan splits: for each depth equally many grown and full trees; the remainder is full, of maximal depth. *)
Theorem C20_split : forall mn mx n d, mn <= d <= mx ->
  let q := n / (2 * (mx + 1 - mn)) in
  length (filter (fun k => match k with (Grow, e) => e =? d | _ => false end) (half_plan mn mx n)) = q /\
  length (filter (fun k => match k with (Full, e) => e =? d | _ => false end) (half_plan mn mx n)) =
    q + (if d =? mx then n - 2 * q * (mx + 1 - mn) else 0).
Proof. exact half_plan_counts. Qed.
Print Assumptions C20_split.

Theorem C20_too_few : forall mn mx grow full n h w, mn <= mx -> n < 2 * (mx + 1 - mn) ->
  create_individuals (CHalf mn mx grow full) n h w = (Raise ValueError, w).
Proof. exact create_half_small. Qed.
Print Assumptions C20_too_few.

Theorem C20_succeeds : forall mn mx grow full n h w tg tf, mn <= mx -> 2 * (mx + 1 - mn) <= n ->
  handle_input_types (g_fset grow) (g_terms grow) (g_typed grow) (g_erc grow) (g_root grow) = Ok tg ->
  handle_input_types (g_fset full) (g_terms full) (g_typed full) (g_erc full) (g_root full) = Ok tf ->
  supplied (blank_tree grow tg) (g_root grow) -> supplied (blank_tree full tf) (g_root full) ->
  exists os w', create_individuals (CHalf mn mx grow full) n h w = (Ok os, w').
Proof. exact create_half_total. Qed.
Print Assumptions C20_succeeds.

(** Whatever bloat weight and [update_parents] are given to HalfCreator with default sub-creators: the individuals
    have bloat weight zero and do not record parents. *)
Theorem C20_bloat_weight_lost : forall p n h w os w', g_min p <= g_max p ->
  create_individuals (half_creator p) n h w = (Ok os, w') ->
  forall o, In o os -> exists i, at_ w' o = Some i /\ i_fit i = unmeasured (KGP (Fin 0)) h /\ i_update_parents i = false.
Proof. exact half_default. Qed.
Print Assumptions C20_bloat_weight_lost.

Example C20_example :
  half_plan 1 2 10 = [(Grow, 1); (Grow, 1); (Full, 1); (Full, 1); (Grow, 2); (Grow, 2); (Full, 2); (Full, 2); (Full, 2); (Full, 2)] /\
  let bloated := mkGP 1 2 [add2; neg1] [(TVar "x", None); (TVar "y", None)] false None (Fin 5) None true (Fin (1 # 2)) in
  let r := create_individuals (half_creator bloated) 10 (HB true) (mkWorld [] 0 (tape [])) in
  fst r = Ok [0; 1; 2; 3; 4; 5; 6; 7; 8; 9] /\
  nodes_in (snd r) 3 = [FNode add2; vx; vx] /\
  nodes_in (snd r) 9 = [FNode add2; FNode add2; vx; vx; FNode add2; vx; vx] /\
  map i_update_parents (w_heap (snd r)) = repeat false 10.
Proof. vm_compute. repeat split; reflexivity. Qed.

(** ** C21 *)

Theorem C21_size : forall t rt, flatten rt = t_nodes t -> tsize t = node_count rt.
Proof. exact size_spec. Qed.
Print Assumptions C21_size.

Theorem C21_depth : forall t rt, saturated rt -> flatten rt = t_nodes t ->
  (forall f, In (FNode f) (t_nodes t) -> 0 < arity f) -> depth t = Ok (height rt).
Proof. exact depth_spec. Qed.
Print Assumptions C21_depth.

(** A function without parameters is accepted everywhere else, but has no depth. *)
Theorem C21_depth_without_parameters_refuted : exists t rt v, saturated rt /\ flatten rt = t_nodes t /\
  depth t = Raise ValueError /\ execute nat (fun _ _ => Ok 7) (fun _ => 0) t [] = Ok v.
Proof.
  exists (mkTree [mkFunc 1 "rand" [] None] [] None None [FNode (mkFunc 1 "rand" [] None)]), (Rose (FNode (mkFunc 1 "rand" [] None)) []), 7.
  repeat split.
Qed.
Print Assumptions C21_depth_without_parameters_refuted.

Theorem C21_execute : forall val (fsem : func -> list val -> res val) const t rt kw,
  saturated rt -> flatten rt = t_nodes t -> exact_arguments t kw ->
  execute val fsem const t kw = eval val fsem const (argument kw) rt.
Proof. exact @execute_accepts. Qed.
Print Assumptions C21_execute.

Definition int_sem (f : func) (l : list Z) : res Z :=
  match l with [a; b] => Ok (10 * a + b)%Z | [a] => if (a =? 3)%Z then Raise TypeError else Ok (- a)%Z | _ => Raise ValueError end.

Example C21_example :
  saturated rose1 /\ flatten rose1 = t_nodes tree1 /\ exact_arguments tree1 [("y", 4%Z); ("x", 2%Z)]%string /\
  tsize tree1 = 4 /\ depth tree1 = Ok 2 /\
  execute Z int_sem (fun _ => 0%Z) tree1 [("y", 4%Z); ("x", 2%Z)]%string = Ok 16%Z /\
  execute Z int_sem (fun _ => 0%Z) tree1 [("y", 3%Z); ("x", 2%Z)]%string = Raise TypeError.
Proof.
  split; [cbn; repeat split|]. split; [reflexivity|]. split; [|vm_compute; repeat split; reflexivity].
  split; cbn.
  - intros s [<-|[<-|[]]]; auto.
  - intros v [<-|[<-|[]]]; eexists; split; auto.
Qed.

(** ** C22 *)

(** [random_subtree] returns None if there is no candidate, and otherwise one complete subtree: the first one in prefix
    order whose root equals the chosen node. *)
Theorem C22_drawn : forall t rt nt g r g', complete_tree t -> saturated rt -> flatten rt = t_nodes t ->
  random_subtree t nt g = (r, g') ->
  (r = Ok None /\ ~ open_for nt t) \/
  exists pre s post, r = Ok (Some (flatten s)) /\ subtree_at rt pre s post /\
     ~ In (label s) pre /\ eligible (label rt) nt (label s).
Proof. exact subtree_drawn. Qed.
Print Assumptions C22_drawn.

(** Each eligible subtree whose root has no equal node before it can be drawn. *)
Theorem C22_reachable : forall t rt nt pre s post, complete_tree t -> saturated rt -> flatten rt = t_nodes t ->
  subtree_at rt pre s post -> ~ In (label s) pre -> eligible (label rt) nt (label s) ->
  exists g g', random_subtree t nt g = (Ok (Some (flatten s)), g').
Proof. exact subtree_reachable. Qed.
Print Assumptions C22_reachable.

(** The drawn subtree is cut out, and nothing else. *)
Theorem C22_replaced : forall t rt nt g s g' u, complete_tree t -> saturated rt -> flatten rt = t_nodes t ->
  random_subtree t nt g = (Ok (Some s), g') -> saturated u ->
  exists pre sub post, s = flatten sub /\ subtree_at rt pre sub post /\
    replace_subtree t s (flatten u) = Ok (with_nodes t (pre ++ flatten u ++ post)) /\
    exists rt', saturated rt' /\ flatten rt' = pre ++ flatten u ++ post /\ subtree_at rt' pre u post.
Proof. exact subtree_replaced. Qed.
Print Assumptions C22_replaced.

(** add(x, add(x, y)): the inner [add] can never be drawn. *)
Definition rose3 : rtree := Rose (FNode add2) [Rose vx []; Rose (FNode add2) [Rose vx []; Rose vy []]].
Theorem C22_every_subtree_refuted : exists t rt pre s post, complete_tree t /\ saturated rt /\ flatten rt = t_nodes t /\
  subtree_at rt pre s post /\ eligible (label rt) None (label s) /\
  forall g g', random_subtree t None g <> (Ok (Some (flatten s)), g').
Proof.
  exists (with_xy (flatten rose3)), rose3, [FNode add2; vx], (Rose (FNode add2) [Rose vx []; Rose vy []]), [].
  assert (complete_tree (with_xy (flatten rose3))) as Hc.
  { split; [|split; [exact hinted_xy|exists rose3; cbn; repeat split]].
    intros f H. cbn in *. repeat (destruct H as [H|H]; [try discriminate; injection H as <-; auto|]). destruct H. }
  assert (saturated rose3) as Hs by (cbn; repeat split).
  split; [exact Hc|]. split; [exact Hs|]. split; [reflexivity|]. split.
  - apply (Below (FNode add2) [Rose vx []] (Rose (FNode add2) [Rose vx []; Rose vy []]) [] [] (Rose (FNode add2) [Rose vx []; Rose vy []]) []).
    constructor.
  - split; [left; reflexivity|]. intros g g' H.
    destruct (subtree_drawn _ rose3 None g _ g' Hc Hs eq_refl H) as [[E _]|(pre & s & post & E & Hsub & Hno & _)]; [discriminate|].
    injection E as E. pose proof (TreeP.subtree_saturated _ _ _ _ Hsub Hs) as Hss.
    assert (s = Rose (FNode add2) [Rose vx []; Rose vy []]) as ->.
    { symmetry. apply TreeP.flatten_inj; auto. cbn. repeat split. }
    pose proof (TreeP.subtree_flatten _ _ _ _ Hsub) as Ef. cbn in Ef, Hno.
    destruct pre as [|a pre]; [discriminate|]. injection Ef as <- _. apply Hno. now left.
Qed.
Print Assumptions C22_every_subtree_refuted.

Example C22_example :
  let '(r, _) := random_subtree tree1 None (tape [mkDraw 2 0]) in
  r = Ok (Some [FNode neg1; vy]) /\
  replace_subtree tree1 [FNode neg1; vy] (flatten rose2) = Ok (with_xy [FNode add2; vx; FNode neg1; FNode add2; vy; two]).
Proof. vm_compute. split; reflexivity. Qed.

(** ** C23 *)

Theorem C23_crossover : forall op inds ts w fset, op_kind op = OSubtreeXO -> op_arity op = length inds ->
  NoDup inds -> inds <> [] -> trees_at w inds ts -> Forall complete_tree ts -> (forall t, In t ts -> t_fset t = fset) ->
  exists w' ts', apply_operator op inds w = (Ok inds, w') /\ trees_at w' inds ts' /\
    (ts' = ts \/ crossed ts ts') /\
    Forall complete_tree ts' /\ (forall t, In t ts' -> t_fset t = fset) /\
    Permutation (nodes_of ts) (nodes_of ts') /\ list_sum (map tsize ts) = list_sum (map tsize ts') /\
    (uniform_types ts -> Forall2 (fun t t' => root_type_of t' = root_type_of t /\
        ((forall u, In u ts -> well_typed_tree u) -> well_typed_tree t')) ts ts').
Proof. exact crossover_final. Qed.
Print Assumptions C23_crossover.

(** With probability one an exchange happens if every tree has a counterpart to whatever is chosen in the first. *)
Theorem C23_acts : forall op inds ts w, op_kind op = OSubtreeXO -> op_arity op = length inds ->
  nle (Fin 1) (op_prob op) = true -> 0 < op_attempts op ->
  NoDup inds -> trees_at w inds ts -> Forall complete_tree ts -> matchable ts ->
  exists w' ts', apply_operator op inds w = (Ok inds, w') /\ trees_at w' inds ts' /\ crossed ts ts'.
Proof. exact crossover_op_sure. Qed.
Print Assumptions C23_acts.

Definition crossover2 : oper := mkOper OSubtreeXO (Fin 1) 2 5.

(** If the individuals have different function sets, the result can contain a function that its individual does not
    know, and then a later [random_subtree] returns a fragment instead of a subtree. *)
Theorem C23_different_function_sets_refuted : exists op inds ts w w' t',
  op_kind op = OSubtreeXO /\ op_arity op = length inds /\ NoDup inds /\ trees_at w inds ts /\ Forall complete_tree ts /\
  apply_operator op inds w = (Ok inds, w') /\ tree_at w' 0 t' /\ complete (t_nodes t') /\ ~ complete_tree t' /\
  exists g g' l, random_subtree t' None g = (Ok (Some l), g') /\ ~ complete l.
Proof.
  set (ta := mkTree [add2] [(TVar "x", None)] None None [FNode add2; vx; vx]).
  set (tb := mkTree [neg1] [(TVar "x", None)] None None [FNode neg1; vx]).
  set (w := mkWorld [plain_ind 1 (GTree ta); plain_ind 2 (GTree tb)] 3 (tape [mkDraw 0 0; mkDraw 1 0; mkDraw 0 0])).
  exists crossover2, [0; 1], [ta; tb], w, (snd (apply_operator crossover2 [0; 1] w)),
         (mkTree [add2] [(TVar "x", None)] None None [FNode add2; FNode neg1; vx; vx]).
  split; [reflexivity|]. split; [reflexivity|]. split.
  { repeat constructor; cbn; intuition discriminate. }
  split. { repeat constructor; eexists; split; reflexivity. }
  split. { constructor; [split; [|split]|constructor; [split; [|split]|constructor]].
    - intros f H. cbn in *. repeat (destruct H as [H|H]; [try discriminate; injection H as <-; auto|]). destruct H.
    - intros f [<-|[]]. apply hinted_xy. cbn; auto.
    - exists (Rose (FNode add2) [Rose vx []; Rose vx []]). cbn. repeat split.
    - intros f H. cbn in *. repeat (destruct H as [H|H]; [try discriminate; injection H as <-; auto|]). destruct H.
    - intros f [<-|[]]. apply hinted_xy. cbn; auto.
    - exists (Rose (FNode neg1) [Rose vx []]). cbn. repeat split. }
  split; [vm_compute; reflexivity|]. split; [eexists; split; vm_compute; reflexivity|].
  split. { exists (Rose (FNode add2) [Rose (FNode neg1) [Rose vx []]; Rose vx []]). cbn. repeat split. }
  split. { intros (Ho & _). specialize (Ho neg1). cbn in Ho. destruct Ho as [Ho|[]]; [auto|discriminate]. }
  eexists (tape [mkDraw 1 0]), _, [FNode neg1]. split; [vm_compute; reflexivity|].
  intros ([n ks] & [Hl _] & E). cbn in E. injection E as -> E. cbn in Hl. destruct ks as [|[m ls] ks]; discriminate.
Qed.
Print Assumptions C23_different_function_sets_refuted.

Example C23_example :
  NoDup [0; 1] /\ trees_at (two_trees []) [0; 1] [tree1; tree2] /\ Forall complete_tree [tree1; tree2] /\
  (forall t, In t [tree1; tree2] -> t_fset t = [add2; neg1]) /\ uniform_types [tree1; tree2] /\
  matchable [tree1; tree2] /\
  let r := apply_operator crossover2 [0; 1] (two_trees [mkDraw 0 0; mkDraw 2 0; mkDraw 3 0]) in
  fst r = Ok [0; 1] /\ nodes_in (snd r) 0 = [FNode add2; vx; two] /\
  nodes_in (snd r) 1 = [FNode neg1; FNode add2; vy; FNode neg1; vy].
Proof.
  split. { repeat constructor; cbn; intuition discriminate. }
  split; [apply both_at|]. split; [constructor; [apply complete1|constructor; [apply complete2|constructor]]|].
  split. { intros t [<-|[<-|[]]]; reflexivity. }
  split. { right. intros t n [<-|[<-|[]]]; cbn; intros H; repeat (destruct H as [<-|H]; [reflexivity|]); destruct H. }
  split. { split.
    - eexists _, vx. split; [reflexivity|]. split; [cbn; auto|left; reflexivity].
    - intros root n _ _ _. constructor; [|constructor]. eexists _, vy. split; [reflexivity|]. split; [cbn; auto|left; reflexivity]. }
  vm_compute. repeat split; reflexivity.
Qed.

(** ** C24 *)

(** For every outcome, including an exception because no node of a needed type exists, all trees stay complete; each is
    unchanged or has one subtree replaced. *)
Theorem C24_mutation : forall op mn mx inds ts w, op_kind op = OSubtreeMut mn mx ->
  NoDup inds -> trees_at w inds ts -> Forall complete_tree ts ->
  exists r w' ts', apply_operator op inds w = (r, w') /\ trees_at w' inds ts' /\
    match r with
    | Ok l => l = inds /\ (ts' = ts \/ Forall2 (mutated mn mx) ts ts')
    | Raise _ => Forall2 (fun t t' => t' = t \/ mutated mn mx t t') ts ts'
    end /\
    Forall complete_tree ts' /\
    ((forall t, In t ts -> well_typed_tree t /\ forall c, place_in t c -> typed_terminals t (delivers (label (p_sub c)))) ->
       Forall2 (fun t t' => well_typed_tree t' /\ root_type_of t' = root_type_of t) ts ts').
Proof. exact mutation_final. Qed.
Print Assumptions C24_mutation.

(** No exception if every type is supplied; with probability one each tree is mutated if it has a candidate. *)
Theorem C24_succeeds : forall op mn mx inds ts w, op_kind op = OSubtreeMut mn mx ->
  NoDup inds -> trees_at w inds ts -> Forall complete_tree ts -> Forall replaceable ts ->
  exists w', apply_operator op inds w = (Ok inds, w').
Proof. exact mutation_op_total. Qed.
Print Assumptions C24_succeeds.

Theorem C24_acts : forall op mn mx inds ts w, op_kind op = OSubtreeMut mn mx ->
  nle (Fin 1) (op_prob op) = true -> 0 < op_attempts op ->
  NoDup inds -> trees_at w inds ts -> Forall complete_tree ts -> Forall replaceable ts -> Forall (open_for None) ts ->
  exists w' ts', apply_operator op inds w = (Ok inds, w') /\ trees_at w' inds ts' /\ Forall2 (mutated mn mx) ts ts'.
Proof. exact mutation_op_sure. Qed.
Print Assumptions C24_acts.

Definition mutation1 : oper := mkOper (OSubtreeMut 0 1) (Fin 1) 1 5.

Example C24_example :
  trees_at (two_trees []) [0] [tree1] /\ complete_tree tree1 /\ open_for None tree1 /\ replaceable tree1 /\
  let r := apply_operator mutation1 [0] (two_trees [mkDraw 0 0; mkDraw 2 0; mkDraw 9007199254740991 0; mkDraw 0 0; mkDraw 1 0; mkDraw 1 0]) in
  fst r = Ok [0] /\ nodes_in (snd r) 0 = [FNode add2; vx; FNode add2; vy; vy].
Proof.
  split; [repeat constructor; eexists; split; reflexivity|]. split; [apply complete1|].
  split. { eexists _, vx. split; [reflexivity|]. split; [cbn; auto|left; reflexivity]. }
  split. { intros c (rt & Hs & E & Hsub).
    assert (delivers (label (p_sub c)) = None) as ->.
    { assert (In (label (p_sub c)) (flatten rt)) as Hin by (eapply TreeOpP.subtree_label_in; eauto).
      rewrite E in Hin. cbn in Hin. repeat (destruct Hin as [<-|Hin]; [reflexivity|]). destruct Hin. }
    split; [exact hinted_xy|]. split; [discriminate|].
    assert (forall a, requested tree1 None a -> a = None) as H.
    { intros a [->|(f & [<-|[<-|[]]] & Ha)]; auto; cbn in Ha; intuition. }
    intros a Ha. rewrite (H a Ha). split; [exists add2; cbn; auto|]. left. exists (TVar "x"). cbn; auto. }
  vm_compute. split; reflexivity.
Qed.

(** ** C25 *)

(** Never an exception; either nothing changes, or one number in every tree; nothing if one tree has none. *)
Theorem C25_erc_mutation : forall op mu sigma inds ts w, op_kind op = OErc mu sigma -> NoDup inds -> trees_at w inds ts ->
  exists w' ts', apply_operator op inds w = (Ok inds, w') /\ trees_at w' inds ts' /\
    (ts' = ts \/ Forall2 (noised mu sigma) ts ts') /\
    ((exists t, In t ts /\ ~ has_number t) -> ts' = ts) /\
    (Forall complete_tree ts -> Forall complete_tree ts').
Proof. exact erc_final. Qed.
Print Assumptions C25_erc_mutation.

Theorem C25_acts : forall op mu sigma inds ts w, op_kind op = OErc mu sigma ->
  nle (Fin 1) (op_prob op) = true -> 0 < op_attempts op ->
  NoDup inds -> trees_at w inds ts -> Forall has_number ts ->
  exists w' ts', apply_operator op inds w = (Ok inds, w') /\ trees_at w' inds ts' /\ Forall2 (noised mu sigma) ts ts'.
Proof. exact erc_op_sure. Qed.
Print Assumptions C25_acts.

Theorem C25_shape : forall mu sigma t t', noised mu sigma t t' ->
  tsize t' = tsize t /\ t_fset t' = t_fset t /\ t_tset t' = t_tset t /\
  map delivers (t_nodes t') = map delivers (t_nodes t) /\ map n_args (t_nodes t') = map n_args (t_nodes t).
Proof. exact noised_shape. Qed.
Print Assumptions C25_shape.

(** An integer constant becomes a float, although the node keeps the type int. *)
Theorem C25_int_stays_int_refuted : exists op w w' x tag y tag',
  (exists mu sigma, op_kind op = OErc mu sigma) /\ apply_operator op [0] w = (Ok [0], w') /\
  nodes_in w 0 = [TNode (TNum false x tag) (Some TyInt)] /\ nodes_in w' 0 = [TNode (TNum true y tag') (Some TyInt)].
Proof.
  set (t := mkTree [] [] (Some (ErcInt (Fin 0) (Fin 5))) (Some TyInt) [TNode (TNum false (Fin 3) 1) (Some TyInt)]).
  set (w := mkWorld [plain_ind 1 (GTree t)] 2 (tape [])).
  exists (mkOper (OErc (Fin 0) (Fin 1)) (Fin 1) 1 5), w, (snd (apply_operator (mkOper (OErc (Fin 0) (Fin 1)) (Fin 1) 1 5) [0] w)).
  exists (Fin 3), 1%N. eexists _, _. split; [do 2 eexists; reflexivity|]. split; [vm_compute; reflexivity|]. split; vm_compute; reflexivity.
Qed.
Print Assumptions C25_int_stays_int_refuted.

Example C25_example :
  trees_at (two_trees []) [1] [tree2] /\ has_number tree2 /\ ~ has_number tree1 /\
  let r := apply_operator (mkOper (OErc (Fin 0) (Fin 1)) (Fin 1) 1 5) [1] (two_trees [mkDraw 0 0; mkDraw 0 0; mkDraw 0 (1 # 2); mkDraw 4 0]) in
  fst r = Ok [1] /\ nodes_in (snd r) 1 = [FNode neg1; FNode add2; vy; TNode (TNum true (Fin (5 # 2)) 4) None] /\
  nodes_in (snd r) 0 = nodes_in (two_trees []) 0.
Proof.
  split; [repeat constructor; eexists; split; reflexivity|]. split; [exists true, (Fin 2), 9%N, None; cbn; auto|].
  split. { intros (b & x & tag & a & H). cbn in H. repeat (destruct H as [H|H]; [discriminate|]). destruct H. }
  vm_compute. repeat split; reflexivity.
Qed.

(** ** C26 *)

(** Other arguments than exactly the terminals are rejected whatever the functions do (exactly the terminals: C21). *)
Theorem C26_rejected : forall val (fsem : func -> list val -> res val) const t kw,
  ~ exact_arguments t kw -> execute val fsem const t kw = Raise ValueError.
Proof. exact @execute_rejects. Qed.
Print Assumptions C26_rejected.

Theorem C26_accepted : forall val (fsem : func -> list val -> res val) const t rt kw,
  saturated rt -> flatten rt = t_nodes t -> exact_arguments t kw ->
  execute val fsem const t kw = eval val fsem const (argument kw) rt.
Proof. exact @execute_accepts. Qed.
Print Assumptions C26_accepted.

(** With a numeric constant among the terminals, [execute] always raises. *)
Theorem C26_constant_terminal : forall val (fsem : func -> list val -> res val) const t kw b x tag,
  In (TNum b x tag) (map fst (t_tset t)) -> execute val fsem const t kw = Raise ValueError.
Proof. exact @execute_constant. Qed.
Print Assumptions C26_constant_terminal.

(** The array argument must have exactly the columns x0, x1, ... of the terminal set. *)
Theorem C26_array_rejected : forall fsem const unspecified t X,
  ~ (forall v, In v (map fst (t_tset t)) <-> In v (create_terminal_set X)) ->
  execute_array fsem const unspecified t X = Raise ValueError.
Proof. exact execute_array_rejects. Qed.
Print Assumptions C26_array_rejected.

Example C26_example :
  ~ exact_arguments tree1 [("x", 1%Z)]%string /\ ~ exact_arguments tree1 [("x", 1%Z); ("y", 1%Z); ("z", 1%Z)]%string /\
  execute Z int_sem (fun _ => 0%Z) tree1 [("x", 1%Z)]%string = Raise ValueError /\
  execute Z int_sem (fun _ => 1%Z) (mkTree [add2] [(TVar "x", None); (TNum false (Fin 1) 1, None)] None None [vx]) [("x", 1%Z)]%string
    = Raise ValueError.
Proof.
  split. { intros [_ H]. destruct (H (TVar "y")) as (s & [= <-] & Hs); [cbn; auto|]. cbn in Hs. intuition discriminate. }
  split. { intros [H _]. specialize (H "z"%string). cbn in H. intuition discriminate. }
  vm_compute. split; reflexivity.
Qed.

(** ** C27 *)

(** The trees in C19 and C20 are well-typed under [typed_terminals]; spelled out for one creation: *)
Theorem C27_well_typed : forall m p t g l g', create_tree m p t g = (Ok l, g') -> typed_terminals t (g_root p) ->
  exists rt, saturated rt /\ flatten rt = l /\ well_typed rt /\ delivers (label rt) = g_root p.
Proof. exact create_tree_typed. Qed.
Print Assumptions C27_well_typed.

Definition of_int : func := mkFunc 1 "of_int" [Some TyInt] (Some TyFloat).
Definition of_float : func := mkFunc 2 "of_float" [Some TyFloat] (Some TyFloat).
Definition mixed (e : option erc) : gp_params :=
  mkGP 1 1 [of_int; of_float] [(TVar "n", Some TyInt); (TVar "r", Some TyFloat)] true e (Fin 0) (Some TyFloat) false (Fin (1 # 2)).

(** The constructor accepts this configuration, and a float constant is created where an int is required. *)
Theorem C27_other_erc_refuted : exists p tset g l g',
  handle_input_types (g_fset p) (g_terms p) (g_typed p) (g_erc p) (g_root p) = Ok tset /\
  create_tree Grow p (blank_tree p tset) g = (Ok l, g') /\
  forall rt, saturated rt -> flatten rt = l -> ~ well_typed rt.
Proof.
  exists (mixed (Some (ErcFloat (Fin 0) (Fin 1)))), [(TVar "n", Some TyInt); (TVar "r", Some TyFloat)].
  eexists (tape [mkDraw 0 0; mkDraw 0 0; mkDraw 0 0; mkDraw 1 0]), _, _. split; [reflexivity|].
  split; [vm_compute; reflexivity|].
  intros rt Hs E Hw.
  assert (rt = Rose (FNode of_int) [Rose (TNode (TNum true (Fin (0 # 9007199254740992)) 0) (Some TyFloat)) []]) as ->.
  { apply TreeP.flatten_inj; [exact Hs|cbn; repeat split|exact E]. }
  cbn in Hw. destruct Hw as [[_ Hw] _]. discriminate.
Qed.
Print Assumptions C27_other_erc_refuted.

Example C27_example :
  typed_terminals (blank_tree (mixed None) [(TVar "n", Some TyInt); (TVar "r", Some TyFloat)]) (Some TyFloat) /\
  handle_input_types (g_fset (mixed None)) (g_terms (mixed None)) true None (Some TyFloat) = Ok [(TVar "n", Some TyInt); (TVar "r", Some TyFloat)] /\
  fst (create_tree Grow (mixed None) (blank_tree (mixed None) [(TVar "n", Some TyInt); (TVar "r", Some TyFloat)]) (tape []))
    = Ok [FNode of_int; TNode (TVar "n") (Some TyInt)].
Proof.
  split; [|vm_compute; split; reflexivity]. right. split; [|discriminate].
  intros k a [[= <- <-]|[[= <- <-]|[]]]; (split; [reflexivity|]); intros k' b [[= <- <-]|[[= <- <-]|[]]]; cbn; congruence.
Qed.

(** Without types the terminal set may have numbers beside an ERC range. *)
Definition untyped_numbers : gp_params :=
  mkGP 1 1 [add2; neg1] [(TVar "x", None); (TNum false (Fin 2) 0, None)] false (Some (ErcFloat (Fin 0) (Fin 1))) (Fin 0) None false (Fin (1 # 2)).
Example C27_untyped_example :
  let t := blank_tree untyped_numbers (g_terms untyped_numbers) in
  typed_terminals t None /\
  handle_input_types (g_fset untyped_numbers) (g_terms untyped_numbers) false (g_erc untyped_numbers) None = Ok (g_terms untyped_numbers) /\
  fst (create_tree Grow untyped_numbers t (tape [mkDraw 0 0; mkDraw 0 0; mkDraw 0 0; mkDraw 2 0; mkDraw 0 0; mkDraw 0 0; mkDraw 1 0]))
    = Ok [FNode add2; TNode (TNum true (Fin (0 # 9007199254740992)) 0) None; TNode (TNum false (Fin 2) 0) None].
Proof.
  split; [|vm_compute; split; reflexivity]. left. split.
  - intros a [->|(f & [<-|[<-|[]]] & Ha)]; auto; cbn in Ha; intuition.
  - intros k a [[= <- <-]|[[= <- <-]|[]]]; reflexivity.
Qed.

(** ** C57 *)

(** Without types: a node is appended as long as the tree is not complete. *)
Theorem C57_add_tree : forall t n, t_root_type t = None -> Forall untyped (t_nodes t) -> untyped n ->
  (unfinished (t_nodes t) -> add_tree t n = Ok (with_nodes t (t_nodes t ++ [n]))) /\
  (~ unfinished (t_nodes t) -> add_tree t n = Raise ValueError).
Proof. exact add_tree_untyped. Qed.
Print Assumptions C57_add_tree.

(** With types: the root may have any type; a node of the wrong type is accepted; one of the right type is rejected. *)
Theorem C57_typed_refuted :
  (exists t n t', t_nodes t = [] /\ node_type n <> t_root_type t /\ add_tree t n = Ok t') /\
  (exists t n t', add_tree t n = Ok t' /\ complete (t_nodes t') /\ ~ well_typed_tree t') /\
  (exists t n, well_typed_tree (with_nodes t (t_nodes t ++ [n])) /\ add_tree t n = Raise ValueError).
Proof.
  set (g := mkFunc 1 "g" [Some TyFloat] (Some TyInt)). set (f := mkFunc 2 "f" [Some TyInt] (Some TyFloat)).
  set (t := mkTree [g; f] [] None (Some TyInt) [FNode g; FNode f]).
  split; [|split].
  - exists (mkTree [g; f] [] None (Some TyInt) []), (FNode f). eexists. split; [reflexivity|]. split; [discriminate|].
    vm_compute. reflexivity.
  - exists t, (TNode (TVar "r") (Some TyFloat)). eexists. split; [vm_compute; reflexivity|]. split.
    + exists (Rose (FNode g) [Rose (FNode f) [Rose (TNode (TVar "r") (Some TyFloat)) []]]). cbn. repeat split.
    + intros (rt & Hs & E & Hw).
      assert (rt = Rose (FNode g) [Rose (FNode f) [Rose (TNode (TVar "r") (Some TyFloat)) []]]) as ->.
      { apply TreeP.flatten_inj; auto. cbn. repeat split. }
      destruct Hw as [_ [[[_ Hw] _] _]]. discriminate.
  - exists t, (TNode (TVar "i") (Some TyInt)). split; [|vm_compute; reflexivity].
    exists (Rose (FNode g) [Rose (FNode f) [Rose (TNode (TVar "i") (Some TyInt)) []]]).
    split; [cbn; repeat split|]. split; [reflexivity|]. cbn.
    repeat split; left; intros o H; cbn in H; intuition; subst; discriminate.
Qed.
Print Assumptions C57_typed_refuted.

Example C57_example :
  unfinished [FNode add2; vx; FNode neg1] /\ ~ unfinished (flatten rose1) /\
  add_tree (with_xy [FNode add2; vx; FNode neg1]) vy = Ok tree1 /\ add_tree tree1 vx = Raise ValueError.
Proof.
  split. { exists [vy]. split; [discriminate|]. exists rose1. cbn. repeat split. }
  split; [|vm_compute; split; reflexivity].
  intros (r & Hr & rt & Hs & E). assert (flatten rose1 ++ r = flatten rt ++ []) as E' by (now rewrite app_nil_r).
  apply TreeP.prefix_free in E' as [_ ->]; auto. cbn. repeat split.
Qed.

(** ** C58 *)

(** For an array of floats, [execute(X)] is the column of the values of the rows. *)
Theorem C58_rows : forall fsem fs const unspecified t rt X,
  saturated rt -> flatten rt = t_nodes t -> map fst (t_tset t) = create_terminal_set X ->
  a_cols X <> [] -> a_float X = true -> (forall c, In c (a_cols X) -> length c = a_rows X) ->
  elementwise t (a_rows X) fsem fs ->
  exists l, execute_array fsem (fun v => Scalar (const v)) unspecified t X = Ok (Column l) /\ length l = a_rows X /\
    forall r, r < a_rows X ->
      exists x, nth_error l r = Some x /\
        eval num (fun f xs => Ok (fs f xs)) const (row_env X r) rt = Ok x.
Proof. exact execute_array_rows. Qed.
Print Assumptions C58_rows.

Definition const_num (v : tval) : num := match v with TNum _ x _ => x | TVar _ => NaN end.

(** For an array of integers, a constant tree 2.5 gives 2. *)
Theorem C58_integer_array_refuted : exists t rt X x y, saturated rt /\ flatten rt = t_nodes t /\
  map fst (t_tset t) = create_terminal_set X /\ a_float X = false /\
  execute_array (fun _ _ => Raise TypeError) (fun v => Scalar (const_num v)) (fun z => z) t X = Ok (Column [x]) /\
  eval num (fun _ _ => Raise TypeError) const_num (row_env X 0) rt = Ok y /\ neq_num x y = false.
Proof.
  exists (mkTree [] [(TVar "x0", None)] None None [TNode (TNum true (Fin (5 # 2)) 1) None]),
         (Rose (TNode (TNum true (Fin (5 # 2)) 1) None) []), (mkArray false 1 [[Fin 7]]).
  eexists _, _. split; [cbn; auto|]. split; [reflexivity|]. split; [reflexivity|]. split; [reflexivity|].
  split; [vm_compute; reflexivity|]. split; [vm_compute; reflexivity|]. reflexivity.
Qed.
Print Assumptions C58_integer_array_refuted.

(** An elementwise addition. *)
Fixpoint zip_add (a b : list num) : list num :=
  match a, b with x :: a', y :: b' => nadd x y :: zip_add a' b' | _, _ => [] end.
Definition np_add (f : func) (l : list nval) : res nval :=
  match l with
  | [Scalar x; Scalar y] => Ok (Scalar (nadd x y))
  | [Scalar x; Column m] => Ok (Column (map (nadd x) m))
  | [Column m; Scalar y] => Ok (Column (map (fun x => nadd x y) m))
  | [Column a; Column b] => Ok (Column (zip_add a b))
  | _ => Ok (Scalar NaN)
  end.
Definition sum2 (f : func) (l : list num) : num := match l with [x; y] => nadd x y | _ => NaN end.

Lemma zip_add_nth a : forall b r x y, nth_error a r = Some x -> nth_error b r = Some y ->
  nth_error (zip_add a b) r = Some (nadd x y).
Proof. induction a as [|u a IH]; intros [|v b] [|r] x y; cbn; try discriminate; [intros [= <-] [= <-]; auto|apply IH]. Qed.
Lemma zip_add_length a : forall b, length a = length b -> length (zip_add a b) = length a.
Proof. induction a as [|u a IH]; intros [|v b]; cbn; try discriminate; auto. Qed.

Lemma np_add_elementwise t n : elementwise t n np_add sum2.
Proof.
  intros f args _ _ H.
  assert (forall l : list num, rows_ok n (Column l) -> length l = n) as Hc by auto.
  destruct args as [|a [|b [|c args]]].
  - exists (Scalar NaN). cbn. repeat split. intros r [|x xs] _ E; [auto|discriminate].
  - exists (Scalar NaN). cbn. split; [destruct a; auto|]. split; auto. intros r [|x [|y xs]] _ E; cbn in *; auto; discriminate.
  - inversion H as [|? ? Ha H1]; subst. inversion H1 as [|? ? Hb _]; subst.
    destruct a as [x|l], b as [y|m]; cbn [np_add]; eexists; (split; [reflexivity|]); cbn in *;
      (split; [rewrite ?map_length, ?zip_add_length; congruence || auto|]);
      intros r [|u [|v [|z xs]]] Hr E; cbn in E; try discriminate; injection E as E1 E2; cbn [sum2].
    + congruence.
    + rewrite nth_error_map, E2. cbn. congruence.
    + rewrite nth_error_map, E1. cbn. congruence.
    + erewrite zip_add_nth; eauto.
  - exists (Scalar NaN). cbn. split; [destruct a, b; auto|]. split; auto.
    intros r [|x [|y [|z xs]]] _ E; cbn in *; auto; discriminate.
Qed.

Example C58_example :
  let t := mkTree [add2] [(TVar "x0", None); (TVar "x1", None)] None None
             [FNode add2; TNode (TVar "x1") None; FNode add2; TNode (TVar "x0") None; two] in
  let X := mkArray true 2 [[Fin 1; Fin 10]; [Fin 3; Fin 30]] in
  elementwise t (a_rows X) np_add sum2 /\ map fst (t_tset t) = create_terminal_set X /\
  execute_array np_add (fun v => Scalar (const_num v)) (fun z => z) t X = Ok (Column [Fin 6; Fin 42]).
Proof. split; [apply np_add_elementwise|]. vm_compute. split; reflexivity. Qed.
