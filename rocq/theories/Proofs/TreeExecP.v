(** * Size, depth, execution; drawing and replacing subtrees; adding nodes. *)
From Coq Require Import Lia.
From Verif.Model Require Import Tree World Operators.
From Verif.Spec Require Import TreeSpec WorldSpec.
From Verif.Proofs Require Import Lib WorldP TreeP.
From Verif.Model Require Import Tree World Creators.
Open Scope nat_scope.
Open Scope list_scope.

Lemma node_count_length t : length (flatten t) = node_count t.
Proof.
  induction t as [n ks IH] using rose_ind. cbn [flatten node_count length]. f_equal.
  induction ks as [|k ks IHks]; cbn; auto. destruct IH as [Hk IH]. rewrite app_length, Hk, IHks; auto.
Qed.

Lemma size_spec t rt : flatten rt = t_nodes t -> tsize t = node_count rt.
Proof. intros E. unfold tsize. now rewrite <- E, node_count_length. Qed.

Lemma depth_spec t rt : saturated rt -> flatten rt = t_nodes t ->
  (forall f, In (FNode f) (t_nodes t) -> 0 < arity f) -> depth t = Ok (height rt).
Proof.
  intros Hs E Hp. unfold depth, tsize. rewrite <- E in *. rewrite (depth_at_spec _ _ rt 0); auto using seg_all.
Qed.

Lemma argument_assoc {val} (kw : list (string * val)) s : argument kw s = assoc val s kw.
Proof. induction kw as [|[k v] kw IH]; cbn; [auto|now rewrite IH]. Qed.

Lemma assoc_some {val} (kw : list (string * val)) s :
  match assoc val s kw with Some _ => true | None => false end = true <-> In s (map fst kw).
Proof.
  induction kw as [|[k v] kw IH]; cbn; [split; [discriminate|intros []]|].
  destruct (String.eqb_spec s k) as [->|H]; [tauto|]. rewrite IH. split; [auto|intros [E|E]; congruence].
Qed.

Lemma key_in_tset_iff s t : key_in_tset s t = true <-> In (TVar s) (map fst (t_tset t)).
Proof.
  unfold key_in_tset. rewrite existsb_exists, in_map_iff. split.
  - intros ([[x|b x tag] a] & H & E); cbn in E; [|discriminate]. apply String.eqb_eq in E as ->. eexists. split; [|exact H]. auto.
  - intros ([v a] & E & H). cbn in E. subst v. eexists. split; [exact H|]. cbn. apply String.eqb_refl.
Qed.

Lemma term_in_kw_iff {val} v (kw : list (string * val)) : term_in_kw val v kw = true <-> exists s, v = TVar s /\ In s (map fst kw).
Proof.
  destruct v as [s|b x tag]; cbn [term_in_kw].
  - rewrite assoc_some. split; [eauto|]. now intros (s' & [= <-] & H).
  - split; [discriminate|]. now intros (s & E & _).
Qed.

Lemma existsb_negb {A} (p : A -> bool) l : existsb (fun x => negb (p x)) l = false <-> forall x, In x l -> p x = true.
Proof.
  induction l as [|a l IH]; cbn; [split; auto; intros _ x []|].
  rewrite orb_false_iff, negb_false_iff, IH. split; [intros [Ha H] x [<-|Hx]; auto|intros H; split; auto].
Qed.

Lemma execute_accepts {val} (fsem : func -> list val -> res val) const t rt kw :
  saturated rt -> flatten rt = t_nodes t -> exact_arguments t kw ->
  execute val fsem const t kw = eval val fsem const (argument kw) rt.
Proof.
  intros Hs E [H1 H2]. unfold execute. destruct (t_nodes t) as [|n l] eqn:En.
  { destruct rt; discriminate. }
  replace (existsb _ kw) with false.
  2:{ symmetry. apply (existsb_negb (fun e => key_in_tset (fst e) t)). intros x Hx. apply key_in_tset_iff, H1. now apply in_map. }
  replace (existsb _ (t_tset t)) with false.
  2:{ symmetry. apply (existsb_negb (fun e => term_in_kw val (fst e) kw)). intros x Hx. apply term_in_kw_iff, H2. now apply in_map. }
  unfold tsize. rewrite En, <- E. rewrite (execute_at_spec val fsem const kw _ _ rt 0); auto; [|apply seg_all].
  assert (forall t, eval val fsem const (fun s => assoc val s kw) t = eval val fsem const (argument kw) t) as Ee.
  { clear. induction t as [n ks IH] using rose_ind. destruct n as [f|v a]; cbn [eval].
    - replace (map (eval val fsem const (fun s => assoc val s kw)) ks) with (map (eval val fsem const (argument kw)) ks); auto.
      apply map_ext_in. rewrite All_In in IH. symmetry. auto.
    - destruct v as [s|b x tag]; cbn; auto. now rewrite argument_assoc. }
  rewrite Ee. destruct (eval val fsem const (argument kw) rt); reflexivity.
Qed.

Lemma execute_rejects {val} (fsem : func -> list val -> res val) const t kw :
  ~ exact_arguments t kw -> execute val fsem const t kw = Raise ValueError.
Proof.
  intros H. unfold execute. destruct (t_nodes t); auto.
  destruct (existsb (fun e => negb (key_in_tset (fst e) t)) kw) eqn:E1; auto.
  destruct (existsb (fun e => negb (term_in_kw val (fst e) kw)) (t_tset t)) eqn:E2; auto.
  exfalso. apply H. split.
  - intros s Hs. apply in_map_iff in Hs as (x & <- & Hx). apply key_in_tset_iff.
    apply (proj1 (existsb_negb (fun e => key_in_tset (fst e) t) kw)); auto.
  - intros v Hv. apply in_map_iff in Hv as (x & <- & Hx). apply term_in_kw_iff.
    apply (proj1 (existsb_negb (fun e => term_in_kw val (fst e) kw) (t_tset t))); auto.
Qed.

Lemma execute_constant {val} (fsem : func -> list val -> res val) const t kw b x tag :
  In (TNum b x tag) (map fst (t_tset t)) -> execute val fsem const t kw = Raise ValueError.
Proof. intros H. apply execute_rejects. intros [_ H2]. destruct (H2 _ H) as (s & E & _). discriminate. Qed.

(** ** Column names are distinct *)
Lemma digit_inj a b : a < 10 -> b < 10 -> digit a = digit b -> a = b.
Proof.
  intros Ha Hb. do 10 (destruct a as [|a]; [do 10 (destruct b as [|b]; [cbn; intros; (reflexivity || discriminate)|]); lia|]). lia.
Qed.

Lemma string_app_assoc (a b c : string) : ((a ++ b) ++ c = a ++ (b ++ c))%string.
Proof. induction a; cbn; congruence. Qed.

Lemma digit_len a : String.length (digit a) = 1.
Proof. do 10 (destruct a as [|a]; [reflexivity|]). reflexivity. Qed.

Lemma decimal_aux_app fuel : forall n acc, decimal_aux fuel n acc = (decimal_aux fuel n "" ++ acc)%string.
Proof.
  induction fuel as [|fuel IH]; intros n acc; cbn [decimal_aux]; auto.
  destruct (n <? 10).
  - rewrite string_app_assoc. reflexivity.
  - rewrite (IH (n / 10) (digit (n mod 10) ++ acc)%string), (IH (n / 10) (digit (n mod 10) ++ "")%string).
    rewrite !string_app_assoc. reflexivity.
Qed.

Lemma string_app_inj a b (c d : string) : String.length c = 1 -> String.length d = 1 -> (a ++ c = b ++ d)%string -> a = b /\ c = d.
Proof.
  intros Hc Hd. revert b. induction a as [|x a IH]; intros [|y b] E; cbn in E.
  - auto.
  - exfalso. apply (f_equal String.length) in E. cbn in E. rewrite Hc in E. injection E as E.
    assert (forall p q, String.length (p ++ q) = String.length p + String.length q) as L by (induction p; cbn; auto).
    rewrite L, Hd in E. lia.
  - exfalso. apply (f_equal String.length) in E. cbn in E. rewrite Hd in E. injection E as E.
    assert (forall p q, String.length (p ++ q) = String.length p + String.length q) as L by (induction p; cbn; auto).
    rewrite L, Hc in E. lia.
  - injection E as -> E. apply IH in E as [-> ->]. auto.
Qed.

Lemma decimal_aux_pos fuel n : n < fuel -> 0 < String.length (decimal_aux fuel n "").
Proof.
  destruct fuel as [|fuel]; [lia|]. intros _. cbn [decimal_aux].
  assert (forall p q, String.length (p ++ q) = String.length p + String.length q) as L by (induction p; cbn; auto).
  destruct (n <? 10); [|rewrite decimal_aux_app]; rewrite !L, ?digit_len; cbn; lia.
Qed.

Lemma decimal_aux_inj fuel : forall fuel' a b, a < fuel -> b < fuel' ->
  decimal_aux fuel a "" = decimal_aux fuel' b "" -> a = b.
Proof.
  induction fuel as [|fuel IH]; intros [|fuel'] a b Ha Hb; try lia. cbn [decimal_aux].
  assert (forall p, (p ++ "")%string = p) as Enil by (induction p; cbn; congruence). rewrite !Enil.
  assert (forall p q, String.length (p ++ q) = String.length p + String.length q) as L by (induction p; cbn; auto).
  destruct (Nat.ltb_spec a 10), (Nat.ltb_spec b 10); intros E.
  - rewrite !Nat.mod_small in E by auto. now apply digit_inj in E.
  - exfalso. rewrite (decimal_aux_app fuel' (b / 10)) in E. apply (f_equal String.length) in E. rewrite L, !digit_len in E.
    pose proof (decimal_aux_pos fuel' (b / 10)). assert (b / 10 < b) by (apply Nat.div_lt; lia). lia.
  - exfalso. rewrite (decimal_aux_app fuel (a / 10)) in E. apply (f_equal String.length) in E. rewrite L, !digit_len in E.
    pose proof (decimal_aux_pos fuel (a / 10)). assert (a / 10 < a) by (apply Nat.div_lt; lia). lia.
  - rewrite (decimal_aux_app fuel (a / 10)), (decimal_aux_app fuel' (b / 10)) in E.
    apply string_app_inj in E as [E1 E2]; [|apply digit_len|apply digit_len].
    assert (a / 10 < a) by (apply Nat.div_lt; lia). assert (b / 10 < b) by (apply Nat.div_lt; lia).
    apply IH in E1; [|lia|lia]. apply digit_inj in E2; [|apply Nat.mod_upper_bound; lia|apply Nat.mod_upper_bound; lia].
    rewrite (Nat.div_mod a 10), (Nat.div_mod b 10) by lia. congruence.
Qed.

Lemma column_name_inj a b : column_name a = column_name b -> a = b.
Proof.
  unfold column_name. cbn [String.append]. intros E. assert (decimal a = decimal b) as E' by congruence.
  unfold decimal in E'. eapply decimal_aux_inj; [| |exact E']; lia.
Qed.

(** ** Arrays *)
Lemma generated_names cols : forall i, map fst (combine (map column_name (seq i (length cols))) (map Column cols))
  = map column_name (seq i (length cols)).
Proof. induction cols as [|c cols IH]; intros i; cbn; [auto|]. now rewrite IH. Qed.

Lemma generated_arg cols : forall i j, j < length cols ->
  argument (combine (map column_name (seq i (length cols))) (map Column cols)) (column_name (i + j))
  = option_map Column (nth_error cols j).
Proof.
  induction cols as [|c cols IH]; intros i j Hj; cbn in Hj; [lia|]. cbn [length seq map combine argument].
  destruct j as [|j].
  - rewrite Nat.add_0_r, String.eqb_refl. reflexivity.
  - destruct (String.eqb_spec (column_name (i + S j)) (column_name i)) as [E|_].
    + apply column_name_inj in E. lia.
    + cbn [nth_error]. rewrite <- (IH (S i) j) by lia. f_equal. f_equal. lia.
Qed.

Lemma exact_generated t X : map fst (t_tset t) = create_terminal_set X -> exact_arguments t (generate_args X).
Proof.
  intros E. unfold exact_arguments, generate_args. rewrite E, generated_names. unfold create_terminal_set. split.
  - intros s Hs. apply in_map_iff in Hs as (i & <- & Hi). apply in_map_iff. eauto.
  - intros v Hv. apply in_map_iff in Hv as (i & <- & Hi). eexists. split; [reflexivity|]. now apply in_map.
Qed.

Lemma find_name X j : j < length (a_cols X) ->
  find (fun i => String.eqb (column_name j) (column_name i)) (seq 0 (length (a_cols X))) = Some j.
Proof.
  assert (forall n i, i <= j < i + n -> find (fun k => String.eqb (column_name j) (column_name k)) (seq i n) = Some j) as H.
  { induction n as [|n IH]; intros i Hi; [lia|]. cbn [seq find].
    destruct (String.eqb_spec (column_name j) (column_name i)) as [E|E].
    - apply column_name_inj in E. now subst.
    - apply IH. assert (i <> j) by congruence. lia. }
  intros Hj. apply H. lia.
Qed.

Section Rows.
  Variable X : array.
  Variable n : nat.
  Variable fsem : func -> list nval -> res nval.
  Variable fs : func -> list num -> num.
  Variable const : tval -> num.
  Hypothesis Hrows : forall c, In c (a_cols X) -> length c = n.
  Variable t0 : tree.
  Hypothesis Hfs : elementwise t0 n fsem fs.

  Let evalX := eval nval fsem (fun v => Scalar (const v)) (argument (generate_args X)).
  Let eval1 r := eval num (fun f xs => Ok (fs f xs)) const (row_env X r).

  Lemma argument_rows s : match argument (generate_args X) s with
    | Some v => rows_ok n v /\ forall r, r < n -> exists x, row r v = Some x /\ row_env X r s = Some x
    | None => forall r, row_env X r s = None
    end.
  Proof.
    destruct (find (fun i => String.eqb s (column_name i)) (seq 0 (length (a_cols X)))) as [j|] eqn:E.
    - pose proof (find_some _ _ E) as [Hj Es]. apply in_seq in Hj. apply String.eqb_eq in Es. subst s.
      unfold generate_args. pose proof (generated_arg (a_cols X) 0 j) as Hga. cbn [Nat.add] in Hga. rewrite Hga by lia.
      destruct (nth_error (a_cols X) j) as [c|] eqn:Ec; [|apply nth_error_None in Ec; lia]. cbn [option_map rows_ok row].
      assert (length c = n) as Hc by (apply Hrows; eapply nth_error_In; eauto). split; auto.
      intros r Hr. destruct (nth_error c r) as [x|] eqn:Ex; [|apply nth_error_None in Ex; lia].
      exists x. split; auto. unfold row_env. rewrite find_name by lia. now rewrite Ec.
    - assert (argument (generate_args X) s = None) as ->.
      { rewrite argument_assoc. destruct (assoc nval s (generate_args X)) eqn:Ea; auto. exfalso.
        assert (In s (map fst (generate_args X))) as Hin by (apply assoc_some; now rewrite Ea).
        unfold generate_args in Hin. rewrite generated_names in Hin. apply in_map_iff in Hin as (i & <- & Hi).
        pose proof (find_none _ _ E i Hi) as Hf. cbn in Hf. rewrite String.eqb_refl in Hf. discriminate. }
      intros r. unfold row_env. now rewrite E.
  Qed.

  Lemma eval_rows t : saturated t -> incl (flatten t) (t_nodes t0) -> exists v, evalX t = Ok v /\ rows_ok n v /\
    forall r, r < n -> exists x, eval1 r t = Ok x /\ row r v = Some x.
  Proof.
    induction t as [m ks IH] using rose_ind. intros Hs Hi. destruct m as [f|v a].
    - cbn [saturated] in Hs. destruct Hs as [Hlen Hs]. rewrite All_In in IH. rewrite All_In in Hs.
      assert (Hf0 : In (FNode f) (t_nodes t0)) by (apply Hi; cbn; auto).
      assert (Hk : forall k, In k ks -> incl (flatten k) (t_nodes t0)).
      { intros k Hk x Hx. apply Hi. cbn [flatten]. right. apply in_flat_map. eauto. }
      unfold evalX, eval1 in *. cbn [eval].
      assert (exists vs, collect nval (map (eval nval fsem (fun v => Scalar (const v)) (argument (generate_args X))) ks) = Ok vs /\
        length vs = length ks /\ Forall (rows_ok n) vs /\
        forall r, r < n -> exists xs,
          collect num (map (eval num (fun f xs => Ok (fs f xs)) const (row_env X r)) ks) = Ok xs /\ map (row r) vs = map Some xs) as (vs & -> & Hl & Hvs & Hr).
      { clear Hlen Hi. induction ks as [|k ks IHks].
        - exists []. cbn. split; auto. split; auto. split; auto. intros r Hr. exists []. auto.
        - destruct (IH k) as (v & Ev & Hv & Hvr); [now left|apply Hs; now left|apply Hk; now left|].
          destruct IHks as (vs & Evs & Hl & Hvs & Hr); [intros k' Hk'; apply IH; now right|intros k' Hk'; apply Hs; now right|intros k' Hk'; apply Hk; now right|].
          exists (v :: vs). cbn [map collect length]. rewrite Ev, Evs. split; auto. split; [now rewrite Hl|]. split; [now constructor|].
          intros r Hlt. destruct (Hvr r Hlt) as (x & Ex & Hx). destruct (Hr r Hlt) as (xs & Exs & Hxs).
          exists (x :: xs). rewrite Ex, Exs. cbn. rewrite Hx, Hxs. auto. }
      destruct (Hfs f vs Hf0 (eq_trans Hl Hlen) Hvs) as (v & -> & Hv & Hf). exists v. split; auto. split; auto.
      intros r Hlt. destruct (Hr r Hlt) as (xs & -> & Hxs). eauto.
    - unfold evalX, eval1. cbn [eval]. destruct v as [s|b x tag]; cbn [eval_terminal].
      + pose proof (argument_rows s) as H. destruct (argument (generate_args X) s) as [v|].
        * destruct H as [Hv Hr]. exists v. split; auto. split; auto. intros r Hlt.
          destruct (Hr r Hlt) as (x & Hx & He). exists x. rewrite He. auto.
        * eexists. split; [reflexivity|]. split; [exact I|]. intros r Hlt. rewrite H. eexists. split; reflexivity.
      + eexists. split; [reflexivity|]. split; [exact I|]. intros r Hlt. eexists. split; reflexivity.
  Qed.
End Rows.

Lemma nth_repeat_lt {A} (x : A) n r : r < n -> nth_error (repeat x n) r = Some x.
Proof. revert r; induction n as [|n IH]; intros [|r] H; cbn; try lia; auto. apply IH. lia. Qed.

Lemma execute_array_rows fsem fs const unspecified t rt X :
  saturated rt -> flatten rt = t_nodes t -> map fst (t_tset t) = create_terminal_set X ->
  a_cols X <> [] -> a_float X = true -> (forall c, In c (a_cols X) -> length c = a_rows X) ->
  elementwise t (a_rows X) fsem fs ->
  exists l, execute_array fsem (fun v => Scalar (const v)) unspecified t X = Ok (Column l) /\ length l = a_rows X /\
    forall r, r < a_rows X ->
      exists x, nth_error l r = Some x /\
        eval num (fun f xs => Ok (fs f xs)) const (row_env X r) rt = Ok x.
Proof.
  intros Hs E Ht Hne Hf Hrows Hfs. unfold execute_array.
  rewrite (execute_accepts fsem _ t rt (generate_args X) Hs E (exact_generated _ _ Ht)).
  destruct (eval_rows X (a_rows X) fsem fs const Hrows t Hfs rt Hs) as (v & -> & Hv & Hr); [rewrite E; apply incl_refl|]. cbn [rbind].
  destruct v as [x|l].
  - destruct (a_cols X) as [|c cs]; [congruence|]. eexists. split; [reflexivity|]. unfold full_like. rewrite Hf.
    split; [apply repeat_length|]. intros r Hlt. exists x. split; [now apply nth_repeat_lt|].
    destruct (Hr r Hlt) as (y & Ey & [= <-]). exact Ey.
  - exists l. split; auto. split; auto. intros r Hlt. destruct (Hr r Hlt) as (y & Ey & Hy). exists y. auto.
Qed.

Lemma execute_array_rejects fsem const unspecified t X :
  ~ (forall v, In v (map fst (t_tset t)) <-> In v (create_terminal_set X)) ->
  execute_array fsem const unspecified t X = Raise ValueError.
Proof.
  intros H. unfold execute_array. rewrite execute_rejects; auto. intros [H1 H2]. apply H.
  unfold generate_args in *. rewrite generated_names in *. intros v. unfold create_terminal_set. split; intros Hv.
  - destruct (H2 v Hv) as (s & -> & Hs). apply in_map_iff in Hs as (i & <- & Hi). apply in_map_iff. eauto.
  - apply in_map_iff in Hv as (i & <- & Hi). apply H1. now apply in_map.
Qed.

(** ** Drawing and replacing subtrees *)

Lemma choice_reach {A} (l : list A) x : In x l -> exists g g', choice l g = (Ok x, g').
Proof.
  intros H. apply In_nth_error in H as (k & Hk). exists (tape [mkDraw (N.of_nat k) 0]).
  assert (k < length l) by (apply nth_error_Some; congruence).
  destruct l as [|a l]; [destruct k; discriminate|]. unfold choice, bind, randbelow, bind, next_draw, ret.
  cbn [tape r_py r_pyseed r_pypos nth_error d_n]. rewrite N.mod_small by lia. rewrite Nat2N.id, Hk. eauto.
Qed.

Lemma subtree_drawn t rt nt g r g' : complete_tree t -> saturated rt -> flatten rt = t_nodes t ->
  random_subtree t nt g = (r, g') ->
  (r = Ok None /\ ~ open_for nt t) \/
  exists pre s post, r = Ok (Some (flatten s)) /\ subtree_at rt pre s post /\
     ~ In (label s) pre /\ eligible (label rt) nt (label s).
Proof.
  intros (Ho & Hh & _) Hs E H.
  assert (forall n, In n (t_nodes t) -> forall f, n = FNode f -> hinted f) as Hhint.
  { intros n Hn f ->. apply Hh, Ho. auto. }
  destruct (random_subtree_spec t rt nt g r g' Hs E Ho H) as [[-> Hn]|(pre & s & post & -> & Hsub & Hfirst & Hc)].
  - left. split; auto. intros (root & n & Hr & Hin & He). rewrite <- E in Hr.
    destruct (flatten_hd rt) as (rest & Er). rewrite Er in Hr. cbn in Hr. injection Hr as <-.
    apply eligible_iff in He; [rewrite Hn in He; auto; discriminate|]. apply Hhint; auto.
  - right. exists pre, s, post. repeat split; auto. apply eligible_iff; auto. apply Hhint.
    rewrite <- E, (subtree_flatten _ _ _ _ Hsub). destruct (flatten_hd s) as (rr & ->).
    rewrite !in_app_iff. cbn. auto.
Qed.

Lemma subtree_reachable t rt nt pre s post : complete_tree t -> saturated rt -> flatten rt = t_nodes t ->
  subtree_at rt pre s post -> ~ In (label s) pre -> eligible (label rt) nt (label s) ->
  exists g g', random_subtree t nt g = (Ok (Some (flatten s)), g').
Proof.
  intros (Ho & Hh & _) Hs E Hsub Hfirst He.
  assert (In (label s) (t_nodes t)) as Hin.
  { rewrite <- E, (subtree_flatten _ _ _ _ Hsub). destruct (flatten_hd s) as (rr & ->).
    rewrite !in_app_iff. cbn. auto. }
  assert (forall f, label s = FNode f -> hinted f) as Hhint.
  { intros f Hf. apply Hh, Ho. now rewrite <- Hf. }
  destruct (choice_reach (filter (subtree_candidate (label rt) nt) (t_nodes t)) (label s)) as (g & g' & Hg).
  { apply filter_In. split; auto. now apply eligible_iff. }
  exists g, g'. unfold random_subtree. destruct (flatten_hd rt) as (rest & Er).
  destruct (t_nodes t) as [|root l] eqn:En; [destruct Hin|]. assert (root = label rt) as -> by congruence.
  destruct (filter (subtree_candidate (label rt) nt) (label rt :: l)) as [|c cs]; [discriminate|].
  rewrite <- En in *. rewrite (bind_eq_ok _ _ _ _ _ Hg).
  destruct (get_subtree_spec t rt (label s) Hs E Ho Hin) as (pre' & s' & post' & Eg & Hsub' & Hl & Hfirst').
  assert (s' = s) as ->.
  { assert (pre' = pre) as ->; [|eapply subtree_unique; eauto].
    pose proof (subtree_flatten _ _ _ _ Hsub) as F1. pose proof (subtree_flatten _ _ _ _ Hsub') as F2.
    rewrite F1 in F2. destruct (flatten_hd s) as (r1 & E1). destruct (flatten_hd s') as (r2 & E2). rewrite E1, E2, Hl in F2.
    cbn in F2. clear - F2 Hfirst Hfirst'. revert pre' F2 Hfirst'. revert Hfirst. generalize (label s). intros x.
    induction pre as [|a pre IH]; intros Hfirst [|b pre'] F2 H'; auto; cbn in F2; injection F2 as Eab F2.
    - exfalso. apply H'. now left.
    - exfalso. apply Hfirst. now left.
    - subst b. f_equal. apply IH; auto; intros Hx; [apply Hfirst|apply H']; now right. }
  unfold lift, bind. rewrite Eg. reflexivity.
Qed.

Lemma subtree_replaced t rt nt g s g' u : complete_tree t -> saturated rt -> flatten rt = t_nodes t ->
  random_subtree t nt g = (Ok (Some s), g') -> saturated u ->
  exists pre sub post, s = flatten sub /\ subtree_at rt pre sub post /\
    replace_subtree t s (flatten u) = Ok (with_nodes t (pre ++ flatten u ++ post)) /\
    exists rt', saturated rt' /\ flatten rt' = pre ++ flatten u ++ post /\ subtree_at rt' pre u post.
Proof.
  intros Hc Hs E H Hu.
  destruct (subtree_drawn t rt nt g _ g' Hc Hs E H) as [[Hr _]|(pre & sub & post & Hr & Hsub & Hfirst & _)]; [discriminate|].
  injection Hr as ->. exists pre, sub, post. split; auto. split; auto. split; [eapply replace_spec; eauto|].
  destruct (splice _ _ _ _ u Hsub Hs Hu) as (rt' & H1 & H2 & _). exists rt'. split; auto. split; auto.
  now apply subtree_flatten in H1.
Qed.

(** ** Adding nodes (no types) *)
Lemma untyped_types f : untyped (FNode f) -> get_func_types f = repeat None (S (arity f)).
Proof. intros H. unfold get_func_types. rewrite somes_none by exact H. now rewrite Nat.add_1_r. Qed.

Lemma untyped_type n : untyped n -> node_type n = None.
Proof.
  destruct n as [f|v a]; intros H; [|exact H]. cbn [node_type]. rewrite untyped_types by auto.
  generalize (arity f). intros k. induction k as [|k IH]; auto. 
Qed.

Definition dummy : rtree := Rose (TNode (TVar "") None) [].

Lemma flat_dummies n : length (flat_map flatten (repeat dummy n)) = n.
Proof. induction n; cbn in *; auto. Qed.

Lemma seg_skipn l p m : seg l p m -> exists r, skipn p l = m ++ r.
Proof. intros (pre & post & -> & <-). exists post. rewrite skipn_app, skipn_all, Nat.sub_diag. reflexivity. Qed.

Lemma should_add_spec fuel : forall l pos new, Forall untyped l -> node_type new = None ->
  pos <= length l -> length l - pos < fuel ->
  (exists rt, saturated rt /\ seg l pos (flatten rt) /\ should_add fuel l pos new = Ok (None, last_pos pos (flatten rt))) \/
  (exists r rt, r <> [] /\ saturated rt /\ flatten rt = skipn pos l ++ r /\ should_add fuel l pos new = Ok (Some true, length l)).
Proof.
  induction fuel as [|fuel IH]; intros l pos new Hu Hn Hp Hf; [lia|]. cbn [should_add].
  destruct (Nat.eqb_spec pos (length l)) as [->|Hne].
  { right. exists [TNode (TVar "") None], dummy. split; [discriminate|]. split; [cbn; auto|].
    rewrite skipn_all. auto. }
  destruct (nth_error l pos) as [[f|v a]|] eqn:En; [| |apply nth_error_None in En; lia].
  2:{ left. exists (Rose (TNode v a) []). split; [cbn; auto|]. split.
      - destruct (nth_split_firstn _ _ _ En) as [E L]. exists (firstn pos l), (skipn (S pos) l). auto.
      - unfold last_pos. cbn. do 2 f_equal. lia. }
  assert (untyped (FNode f)) as Huf. { rewrite Forall_forall in Hu. apply Hu. eapply nth_error_In; eauto. }
  rewrite (untyped_types f Huf).
  match goal with |- context [?L (repeat None (S (arity f))) (arity f) pos] => set (loop := L) end.
  assert (forall n k p, n <= k -> pos <= p < length l ->
    (exists ks, length ks = n /\ All saturated ks /\ seg l (S p) (flat_map flatten ks) /\
       loop (repeat None k) n p = Ok (None, p + length (flat_map flatten ks))) \/
    (exists ks r, length ks = n /\ All saturated ks /\ r <> [] /\ flat_map flatten ks = skipn (S p) l ++ r /\
       loop (repeat None k) n p = Ok (Some true, length l))) as HL.
  { induction n as [|n IHn]; intros k p Hk Hpp.
    - left. exists []. cbn. split; auto. split; auto. split; [|do 2 f_equal; lia].
      exists (firstn (S p) l), (skipn (S p) l). rewrite firstn_skipn. split; auto. apply firstn_length_le. lia.
    - destruct k as [|k]; [lia|]. change (loop (repeat None (S k)) (S n) p) with
        (rbind (should_add fuel l (S p) (FNode f)) (fun r =>
                      match r with
                      | (Some true, p') => Ok (Some (oty_eqb None (node_type new)), p')
                      | (Some false, p') => Ok (Some false, p')
                      | (None, p') => loop (repeat None k) n p'
                      end)).
      destruct (IH l (S p) (FNode f) Hu (untyped_type _ Huf)) as [(rt & Hs & Hseg & ->)|(r & rt & Hr & Hs & E & ->)]; [lia|lia| |].
      + cbn [rbind]. assert (S p + length (flatten rt) <= length l) as Hle.
        { destruct Hseg as (pre & post & -> & <-). rewrite !app_length. lia. }
        pose proof (flatten_pos rt) as Hpos.
        destruct (IHn k (last_pos (S p) (flatten rt))) as [(ks & L & Hks & Hsg & ->)|(ks & r & L & Hks & Hr & E & ->)];
          [lia|unfold last_pos; lia| |].
        * left. exists (rt :: ks). cbn [length flat_map All]. split; [auto|]. split; [auto|]. split.
          -- destruct Hseg as (pre & post & El & Lp). destruct Hsg as (pre2 & post2 & El2 & Lp2).
             exists pre, post2. split; auto. rewrite <- app_assoc.
             unfold last_pos in Lp2. rewrite <- Lp in Lp2.
             assert (pre2 = pre ++ flatten rt) as ->; [|now rewrite <- app_assoc in El2].
             assert (length pre2 = length (pre ++ flatten rt)) as L2 by (rewrite app_length; lia).
             assert (pre2 ++ (flat_map flatten ks ++ post2) = (pre ++ flatten rt) ++ post) as El3 by (rewrite <- app_assoc; congruence).
             clear - El3 L2. revert El3 L2. generalize (pre ++ flatten rt). intros q.
             revert q. induction pre2 as [|a pre2 IHp]; intros [|b q] El L2; try discriminate; auto.
             cbn in El. injection El as -> El. cbn in L2. f_equal. apply IHp; auto.
          -- do 2 f_equal. unfold last_pos. rewrite app_length. lia.
        * right. exists (rt :: ks), r. cbn [length flat_map All]. split; [auto|]. split; [auto|]. split; auto. split; auto.
          rewrite E. destruct Hseg as (pre & post & El & Lp). rewrite El.
          replace (skipn (S p) (pre ++ flatten rt ++ post)) with (flatten rt ++ post)
            by (rewrite skipn_app, skipn_all2, <- Lp, Nat.sub_diag by lia; reflexivity).
          rewrite <- app_assoc. f_equal.
          replace (S (last_pos (S p) (flatten rt))) with (length (pre ++ flatten rt)) by (rewrite app_length; unfold last_pos; lia).
          rewrite app_assoc, skipn_app, skipn_all, Nat.sub_diag. reflexivity.
      + right. exists (rt :: repeat dummy n), (r ++ flat_map flatten (repeat dummy n)). split; [cbn; now rewrite repeat_length|].
        split. { cbn [All]. split; auto. apply All_In. intros x Hx. apply repeat_spec in Hx as ->. cbn; auto. }
        split. { destruct r; [congruence|discriminate]. }
        split. { cbn [flat_map]. rewrite E, <- app_assoc. reflexivity. }
        cbn [rbind]. rewrite Hn. reflexivity. }
  destruct (HL (arity f) (S (arity f)) pos) as [(ks & L & Hks & Hsg & ->)|(ks & r & L & Hks & Hr & E & ->)]; [lia|lia| |].
  - left. exists (Rose (FNode f) ks). split; [split; auto|]. split.
    + destruct Hsg as (pre & post & El & Lp). destruct (nth_split_firstn _ _ _ En) as [E1 L1].
      exists (firstn pos l), post. split; [|auto]. cbn [flatten].
      rewrite E1 at 1. f_equal. cbn [app]. f_equal.
      rewrite El, <- Lp, skipn_app, skipn_all, Nat.sub_diag. reflexivity.
    + unfold last_pos. change (flatten (Rose (FNode f) ks)) with (FNode f :: flat_map flatten ks).
      rewrite (eq_refl : length (FNode f :: flat_map flatten ks) = S (length (flat_map flatten ks))).
      rewrite Nat.add_succ_r. cbn [Nat.sub]. rewrite Nat.sub_0_r. reflexivity.
  - right. exists r, (Rose (FNode f) ks). split; auto. split; [split; auto|]. split; auto.
    cbn [flatten]. rewrite E. destruct (nth_split_firstn _ _ _ En) as [E1 L1].
    replace (skipn pos l) with (FNode f :: skipn (S pos) l); [reflexivity|].
    clear - En. revert pos En. induction l as [|a l IHl]; intros [|pos] En; try discriminate; cbn in *.
    + congruence.
    + now apply IHl.
Qed.

Lemma add_tree_untyped t n : t_root_type t = None -> Forall untyped (t_nodes t) -> untyped n ->
  (unfinished (t_nodes t) -> add_tree t n = Ok (with_nodes t (t_nodes t ++ [n]))) /\
  (~ unfinished (t_nodes t) -> add_tree t n = Raise ValueError).
Proof.
  intros Hrt Hu Hn. unfold add_tree. rewrite Hrt, (untyped_type n Hn). cbn [oty_eqb]. rewrite andb_true_r.
  destruct (Nat.eqb_spec (tsize t) 0) as [E0|E0].
  { split; auto. intros H. exfalso. apply H. unfold tsize in E0. apply length_zero_iff_nil in E0. rewrite E0.
    exists (flatten dummy). split; [discriminate|]. exists dummy. cbn; auto. }
  unfold tsize. destruct (should_add_spec (S (S (length (t_nodes t)))) (t_nodes t) 0 n Hu (untyped_type n Hn))
    as [(rt & Hs & Hseg & ->)|(r & rt & Hr & Hs & E & ->)]; [lia|lia| |]; cbn [rbind fst].
  - split; auto. intros (r & Hr & rt' & Hs' & E'). exfalso.
    destruct (seg_skipn _ _ _ Hseg) as (q & Eq). cbn in Eq. rewrite Eq, <- app_assoc in E'.
    assert (flatten rt ++ q ++ r = flatten rt' ++ []) as E by (now rewrite app_nil_r).
    apply prefix_free in E as [_ E]; auto. apply app_eq_nil in E as [_ ->]. congruence.
  - split; auto. intros H. exfalso. apply H. exists r. split; auto. exists rt. auto.
Qed.
