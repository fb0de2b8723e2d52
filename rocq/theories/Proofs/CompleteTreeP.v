(** * Runs with trees complete. *)
From Coq Require Import Lia Permutation.
From Verif.Proofs Require Export CompleteVecP.
From Verif.Proofs Require Import TreeP TreeCreateP TreeOpP TreeFinalP.
From Verif.Model Require Import Tree World Creators Evolution.
From Verif.Spec Require Import TreeSpec CompleteSpec.
Open Scope nat_scope.
Open Scope list_scope.

(** ** Types in well-typed trees *)

Lemma kids_typed f ks k : map (fun k => delivers (label k)) ks = f_params f -> In k ks -> In (delivers (label k)) (f_params f).
Proof. intros E H. rewrite <- E. apply (in_map (fun k => delivers (label k))). exact H. Qed.

Lemma typed_requested t0 rt : well_typed rt -> over (t_fset t0) (flatten rt) ->
  forall n, In n (flatten rt) -> requested t0 (delivers (label rt)) (delivers n).
Proof.
  induction rt as [m ks IH] using rose_ind. intros [Hm Hk] Ho n [<-|Hn]; [left; reflexivity|].
  apply in_flat_map in Hn as (k & Hkin & Hn). rewrite All_In in IH, Hk.
  destruct (IH k Hkin (Hk k Hkin)) with (n := n) as [E|E]; [eapply over_kid; eauto|exact Hn| |right; exact E].
  rewrite E. destruct m as [f|v a]; [|subst ks; destruct Hkin]. destruct Hm as [_ Hm].
  right. exists f. split; [apply Ho; left; reflexivity|]. eapply kids_typed; eauto.
Qed.

Lemma typed_none rt : well_typed rt -> delivers (label rt) = None -> forall n, In n (flatten rt) -> delivers n = None.
Proof.
  induction rt as [m ks IH] using rose_ind. intros [Hm Hk] E n [<-|Hn]; [exact E|].
  apply in_flat_map in Hn as (k & Hkin & Hn). rewrite All_In in IH, Hk. apply (IH k Hkin (Hk k Hkin)); [|exact Hn].
  destruct m as [f|v a]; [|subst ks; destruct Hkin]. destruct Hm as [[H|H] Hm].
  - exfalso. apply (H (f_ret f)); [apply in_app_iff; right; left; reflexivity|exact E].
  - apply H. apply in_app_iff. left. eapply kids_typed; eauto.
Qed.

Lemma typed_some rt : well_typed rt -> delivers (label rt) <> None -> forall n, In n (flatten rt) -> delivers n <> None.
Proof.
  induction rt as [m ks IH] using rose_ind. intros [Hm Hk] E n [<-|Hn]; [exact E|].
  apply in_flat_map in Hn as (k & Hkin & Hn). rewrite All_In in IH, Hk. apply (IH k Hkin (Hk k Hkin)); [|exact Hn].
  destruct m as [f|v a]; [|subst ks; destruct Hkin]. destruct Hm as [[H|H] Hm].
  - apply H. apply in_app_iff. left. eapply kids_typed; eauto.
  - exfalso. apply E. apply (H (f_ret f)). apply in_app_iff. right. left. reflexivity.
Qed.

(** What holds for the root type holds for all types asked for. *)
Lemma requested_down t nt a b : requested t nt a -> requested t a b -> requested t nt b.
Proof. intros H [->|K]; [exact H|right; exact K]. Qed.

Lemma supplied_down t nt a : requested t nt a -> supplied t nt -> supplied t a.
Proof. intros H (S1 & S2 & S3). split; [exact S1|]. split; [exact S2|]. intros b Hb. apply S3. eapply requested_down; eauto. Qed.

Lemma typed_terminals_down t nt a : requested t nt a -> typed_terminals t nt -> typed_terminals t a.
Proof.
  intros H [[T1 T2]|[T1 T2]].
  - left. split; [|exact T2]. intros b Hb. apply T1. eapply requested_down; eauto.
  - right. split; [exact T1|]. intros e Ee. destruct (T2 e Ee) as [K1 K2]. split; [exact K1|].
    intros b Hb. apply K2. eapply requested_down; eauto.
Qed.

Lemma supplied_same t0 t nt : same_primitives t0 t -> supplied t0 nt -> supplied t nt.
Proof. intros (E1 & E2 & E3 & _). unfold supplied, requested. rewrite E1, E2, E3. auto. Qed.

Lemma typed_terminals_same t0 t nt : same_primitives t0 t -> typed_terminals t0 nt -> typed_terminals t nt.
Proof. intros (E1 & E2 & E3 & _). unfold typed_terminals, requested. rewrite E1, E2, E3. auto. Qed.

(** ** The class *)

Definition in_class (t0 t : tree) : Prop := trees t0 (GTree t).

Lemma class_root (t0 t : tree) rt : flatten rt = t_nodes t -> root_type_of t = Some (delivers (label rt)).
Proof. intros E. unfold root_type_of. destruct (flatten_hd rt) as (r & E'). rewrite <- E, E'. reflexivity. Qed.

Lemma class_iff t0 t : in_class t0 t <->
  same_primitives t0 t /\ over (t_fset t) (t_nodes t) /\ well_typed_tree t /\ root_type_of t = Some (t_root_type t0).
Proof.
  split.
  - intros (t' & rt & E & P & O & S & Fl & W & D). injection E as <-. split; [exact P|]. split; [exact O|].
    split; [exists rt; auto|]. rewrite (class_root t0 t rt Fl), D. reflexivity.
  - intros (P & O & (rt & S & Fl & W) & R). exists t, rt. split; [reflexivity|]. split; [exact P|]. split; [exact O|].
    split; [exact S|]. split; [exact Fl|]. split; [exact W|]. rewrite (class_root t0 t rt Fl) in R. congruence.
Qed.

Lemma class_complete t0 t : (forall f, In f (t_fset t0) -> hinted f) -> in_class t0 t -> complete_tree t.
Proof.
  intros Hh (t' & rt & E & P & O & S & Fl & _). injection E as <-. split; [exact O|]. split.
  - destruct P as [-> _]. exact Hh.
  - exists rt. auto.
Qed.

Lemma class_place t0 t c : in_class t0 t -> place_in t c -> requested t0 (t_root_type t0) (delivers (label (p_sub c))).
Proof.
  intros (t' & rt & E & P & O & S & Fl & W & D) (rt' & S' & Fl' & Sub). injection E as <-.
  assert (rt' = rt) as -> by (apply flatten_inj; congruence). rewrite <- D. apply typed_requested; [exact W| |].
  - rewrite Fl. destruct P as [<- _]. exact O.
  - eapply subtree_label_in; eauto.
Qed.

Lemma class_uniform t0 ts : Forall (in_class t0) ts -> uniform_types ts.
Proof.
  intros F. rewrite Forall_forall in F. destruct (t_root_type t0) as [a|] eqn:R; [left|right]; intros t n Ht Hn;
    destruct (F t Ht) as (t' & rt & E & P & O & S & Fl & W & D); injection E as <-; rewrite <- Fl in Hn.
  - eapply typed_some; eauto. congruence.
  - eapply typed_none; eauto. congruence.
Qed.

Lemma genomes_trees t0 l w : genomes_in (trees t0) l w <-> exists ts, trees_at w l ts /\ Forall (in_class t0) ts.
Proof.
  split.
  - intros H. induction l as [|o l IH]; [exists []; split; constructor|].
    destruct IH as (ts & T & F); [intros o' Ho'; apply H; right; exact Ho'|].
    destruct (H o (or_introl eq_refl)) as (i & A & Gi). pose proof Gi as (t & rt & E & _). exists (t :: ts).
    split; constructor; auto; [exists i; auto|]. unfold in_class. rewrite <- E. exact Gi.
  - intros (ts & T & F) o Ho. induction T as [|x t l ts (i & A & E) T IH]; [destruct Ho|]. inversion F; subst.
    destruct Ho as [<-|Ho]; [|auto]. exists i. split; [exact A|]. rewrite E. assumption.
Qed.

Lemma filled_same t0 t c s : same_primitives t0 t -> same_primitives t0 (filled t c s).
Proof. intros H. exact H. Qed.

Lemma noised_typed mu sigma t t' : noised mu sigma t t' -> well_typed_tree t -> well_typed_tree t' /\ root_type_of t' = root_type_of t.
Proof.
  intros (be & b & x & tag & a & af & z & tag' & E & ->) (rt & S & Fl & W). rewrite E in Fl.
  destruct (position_subtree rt be _ _ Fl) as (s & post & Sub & Ls).
  pose proof (subtree_saturated _ _ _ _ Sub S) as Ss. destruct s as [n ks]. cbn [label] in Ls. subst n.
  destruct Ss as [Ln Lk]. cbn [n_args] in Ln. destruct ks; [|discriminate Ln].
  pose proof (subtree_flatten _ _ _ _ Sub) as Ef. rewrite Fl in Ef. cbn in Ef. apply app_inv_head in Ef. injection Ef as ->.
  set (n' := TNode (TNum true (nadd x (nadd mu (nmul (Fin z) sigma))) tag') a).
  destruct (splice rt be (Rose (TNode (TNum b x tag) a) []) post (Rose n' [])) as (rt' & Sub' & S' & D' & W'); auto.
  { split; reflexivity. }
  pose proof (subtree_flatten _ _ _ _ Sub') as Ef'. cbn [flatten flat_map app] in Ef'. split.
  - exists rt'. split; [exact S'|]. split; [exact Ef'|]. apply W'; auto. split; [reflexivity|exact I].
  - rewrite (class_root t (with_nodes t (be ++ n' :: post)) rt' Ef'). rewrite (D' eq_refl).
    rewrite (class_root t t rt) by (rewrite E; exact Fl). reflexivity.
Qed.

Lemma Forall2_right {A B} (P : A -> Prop) (Q : A -> B -> Prop) (C : B -> Prop) l m : Forall2 Q l m -> Forall P l ->
  (forall a b, In a l -> In b m -> P a -> Q a b -> C b) -> Forall C m.
Proof.
  intros F. induction F as [|a b l m Hab F IH]; intros Hp Hf; constructor; inversion Hp; subst.
  - apply (Hf a b); simpl; auto.
  - apply IH; auto. intros a0 b0 Ha Hb. apply (Hf a0 b0); simpl; auto.
Qed.

Lemma filled_all_same t0 : forall ts cs ss, Forall (same_primitives t0) ts -> Forall (same_primitives t0) (filled_all ts cs ss).
Proof.
  induction ts as [|t ts IH]; intros cs ss F; [constructor|]. destruct cs, ss; try constructor; inversion F; subst.
  - apply filled_same. assumption.
  - apply IH. assumption.
Qed.

Lemma class_build t0 t : (forall f, In f (t_fset t0) -> hinted f) -> same_primitives t0 t -> complete_tree t -> well_typed_tree t ->
  root_type_of t = Some (t_root_type t0) -> in_class t0 t.
Proof. intros Hh P (O & _) W R. apply class_iff. auto. Qed.

Lemma tree_closed t0 op : supplied t0 (t_root_type t0) -> typed_terminals t0 (t_root_type t0) -> op_arity op <> 0 ->
  tree_operator op -> closed_operator (trees t0) op.
Proof.
  intros Hs Htt Na Hop l w Hl Hn Hg. pose proof Hg as Hg0. apply genomes_trees in Hg as (ts & T & F).
  pose proof (proj1 Hs) as Hh.
  assert (Fc : Forall complete_tree ts) by (eapply Forall_impl; [|exact F]; intros t; apply class_complete; exact Hh).
  assert (Fs : Forall (same_primitives t0) ts) by (eapply Forall_impl; [|exact F]; intros t Ht; apply class_iff in Ht as (P & _); exact P).
  unfold tree_operator in Hop. destruct (op_kind op) as [p|m n| |mn mx|mu sigma|] eqn:K; try contradiction.
  - destruct (crossover_final op l ts w (t_fset t0) K (eq_sym Hl) Hn) as (w' & ts' & E & T' & X & C' & Fs' & _ & _ & Ty); auto.
    { intros ->. simpl in Hl. congruence. }
    { intros t Ht. rewrite Forall_forall in Fs. apply (Fs t Ht). }
    exists w'. split; [exact E|]. apply genomes_trees. exists ts'. split; [exact T'|].
    assert (Fs2 : Forall (same_primitives t0) ts').
    { destruct X as [->|(cs & _ & ->)]; [exact Fs|]. apply filled_all_same. exact Fs. }
    specialize (Ty (class_uniform t0 ts F)). rewrite Forall_forall in C', Fs2.
    eapply Forall2_right; [exact Ty|exact F|]. intros t t' Ht Ht' Cl [R W]. apply class_build; auto.
    + apply W. intros u Hu. rewrite Forall_forall in F. destruct (proj1 (class_iff t0 u) (F u Hu)) as (_ & _ & Wu & _). exact Wu.
    + rewrite R. apply class_iff in Cl. apply Cl.
  - destruct (mutation_op_total op mn mx l ts w K Hn T Fc) as (w1 & E1).
    { eapply Forall_impl; [|apply Forall_and; [exact F|exact Fs]]. intros t [Ct Pt] c Hc. eapply supplied_down; [|eapply supplied_same; eauto].
      pose proof (class_place t0 t c Ct Hc) as Hr. destruct Pt as (E1 & _). unfold requested in *. rewrite E1. exact Hr. }
    destruct (mutation_final op mn mx l ts w K Hn T Fc) as (r & w' & ts' & E & T' & X & C' & Ty).
    rewrite E1 in E. injection E as <- <-. destruct X as [_ X].
    exists w1. split; [exact E1|]. apply genomes_trees. exists ts'. split; [exact T'|].
    assert (Fs2 : Forall (same_primitives t0) ts').
    { destruct X as [->|X]; [exact Fs|]. eapply Forall2_right; [exact X|exact Fs|].
      intros t t' _ _ P (c & s & _ & -> & _). exact P. }
    rewrite Forall_forall in C', Fs2. eapply Forall2_right; [apply Ty|exact F|].
    + intros t Ht. rewrite Forall_forall in F, Fs. split; [apply (proj1 (class_iff t0 t) (F t Ht))|].
      intros c Hc. eapply typed_terminals_down; [|eapply typed_terminals_same; [apply Fs; exact Ht|exact Htt]].
      pose proof (class_place t0 t c (F t Ht) Hc) as Hr. destruct (Fs t Ht) as (E2 & _). unfold requested in *. rewrite E2. exact Hr.
    + intros t t' Ht Ht' Cl [W R]. apply class_build; auto. rewrite R. apply class_iff in Cl. apply Cl.
  - destruct (erc_final op mu sigma l ts w K Hn T) as (w' & ts' & E & T' & X & _ & C'). specialize (C' Fc).
    exists w'. split; [exact E|]. apply genomes_trees. exists ts'. split; [exact T'|].
    destruct X as [->|X]; [exact F|]. rewrite Forall_forall in C'. eapply Forall2_right; [exact X|exact F|].
    intros t t' Ht Ht' Cl Nt. apply class_iff in Cl as (P & O & W & R).
    destruct (noised_typed _ _ _ _ Nt W) as [W' R']. apply class_build; auto; [|congruence].
    destruct Nt as (be & b & x & tag & a & af & z & tag' & _ & ->). exact P.
  - apply (identity_closed _ op K); assumption.
Qed.

(** ** Creators *)

Lemma created_class t0 m p h w o : typed_terminals t0 (t_root_type t0) -> gp_for t0 p -> created_by m p h w o ->
  genomes_in (trees t0) [o] w.
Proof.
  intros Htt (Eh & E1 & E2 & E3) (i & t & A & Eg & _ & _ & _ & F1 & F2 & F3 & F4 & rt & S & Fl & _ & Pr & _ & _ & Ty) o' [<-|[]].
  exists i. split; [exact A|]. rewrite Eg. apply handle_ok in Eh. rewrite <- Eh in F4.
  assert (P : same_primitives t0 t) by (split; [|split; [|split]]; congruence).
  destruct Ty as [W D].
  { rewrite E3. eapply typed_terminals_same; eauto. }
  exists t, rt. split; [reflexivity|]. split; [exact P|]. split; [|split; [exact S|split; [exact Fl|split; [exact W|congruence]]]].
  intros f Hf. apply (Pr (FNode f) Hf).
Qed.

Lemma gp_supplied t0 p : supplied t0 (t_root_type t0) -> gp_for t0 p -> supplied (blank_tree p (t_tset t0)) (g_root p).
Proof.
  intros Hs (_ & E1 & E2 & E3). rewrite E3. eapply supplied_same; [|exact Hs].
  split; [exact E1|]. split; [reflexivity|]. split; [exact E2|exact E3].
Qed.

Lemma tree_creator_closed t0 n h c : supplied t0 (t_root_type t0) -> typed_terminals t0 (t_root_type t0) -> tree_creator t0 n c ->
  closed_creator (trees t0) n h c.
Proof.
  intros Hs Htt Hc w. destruct c as [|m p|mn mx grow full]; [contradiction| |].
  - destruct (create_trees_total m p n h w (t_tset t0) (proj1 Hc) (gp_supplied _ _ Hs Hc)) as (l & w' & E).
    exists l, w'. split; [exact E|]. apply create_trees_ok in E as (_ & _ & _ & C). rewrite genomes_each. intros o Ho.
    eapply created_class; eauto.
  - destruct Hc as (Cg & Cf & Hm & Hn).
    destruct (create_half_total mn mx grow full n h w (t_tset t0) (t_tset t0) Hm Hn (proj1 Cg) (proj1 Cf) (gp_supplied _ _ Hs Cg) (gp_supplied _ _ Hs Cf))
      as (l & w' & E).
    exists l, w'. split; [exact E|]. apply create_half_ok in E as (_ & _ & C); [|exact Hm]. rewrite genomes_each. intros o Ho.
    apply Forall2_In_r with (y := o) in C; [|exact Ho]. destruct C as ([m d] & _ & C). unfold planned in C. cbn [fst snd] in C.
    eapply created_class; [exact Htt| |exact C]. destruct m; assumption.
Qed.

Lemma trees_complete t0 t : trees t0 (GTree t) -> complete (t_nodes t) /\ t_tset t = t_tset t0.
Proof. intros (t' & rt & [= ->] & (_ & P & _) & _ & S & F & _). split; [exists rt; auto|exact P]. Qed.

Lemma trees_printable t0 g : printable_terminals t0 -> trees t0 g -> printable g.
Proof.
  intros [P1 P2] (t & rt & -> & (_ & Et & _) & _ & S & F & W & D). split; [exists rt; auto|]. unfold printable_tree. rewrite Et. split; [exact P1|].
  intros U. destruct (flatten_hd rt) as [r Er]. exists (label rt), r. specialize (P2 U). destruct (t_root_type t0) as [ty|]; [|congruence].
  exists ty. split; [congruence|]. rewrite node_type_delivers; [exact D|]. intros f E. destruct rt as [n ks]. cbn in E. subst n. apply W.
Qed.

Lemma tree_run_closed t0 h s a w : configured h a w s -> supplied t0 (t_root_type t0) -> typed_terminals t0 (t_root_type t0) ->
  Forall tree_operator (sp_ops s) ->
  match sp_inds s with Some l => genomes_in (trees t0) l w | None => Forall (tree_creator t0 (sp_size s)) (sp_creators s) end ->
  closed_under (trees t0) w s.
Proof.
  intros C Hs Htt Ho Hi. split.
  - rewrite Forall_forall in *. intros op Hop. apply tree_closed; auto.
    apply (cf_arities _ _ _ _ C). apply in_app_iff. right. apply in_map. exact Hop.
  - destruct (sp_inds s); [exact Hi|]. rewrite Forall_forall in Hi. intros c Hc. apply tree_creator_closed; auto.
Qed.
