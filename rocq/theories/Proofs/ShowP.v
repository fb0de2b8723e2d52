(** * The text of program trees. *)
From Coq Require Import Ascii Lia.
From Verif.Proofs Require Import Lib TreeP.
From Verif.Model Require Import Tree World Show.
From Verif.Spec Require Import TreeSpec ShowSpec.
Open Scope nat_scope.
Open Scope list_scope.

(** ** Blanks *)

Lemma squash_app a b : squash (a ++ b)%string = (squash a ++ squash b)%string.
Proof. induction a as [|c a IH]; cbn; [reflexivity|]. destruct (blank c); [exact IH|]. cbn. now rewrite IH. Qed.

Lemma squash_plain a : no_special a = true -> squash a = a.
Proof.
  induction a as [|c a IH]; cbn; [reflexivity|]. intros H. apply Bool.andb_true_iff in H as [H1 H2].
  destruct (blank c); [discriminate|]. now rewrite IH.
Qed.

Lemma app_empty a : (a ++ "")%string = a.
Proof. induction a; cbn; congruence. Qed.

Lemma app_assoc_s a b c : ((a ++ b) ++ c)%string = (a ++ b ++ c)%string.
Proof. induction a; cbn; congruence. Qed.

Lemma squash_arguments l : squash (arguments l) = listed (map squash l).
Proof.
  unfold arguments. rewrite squash_app.
  assert (E : squash (join ("," ++ newline) l) = listed (map squash l)).
  { induction l as [|x [|y l] IH]; [reflexivity|reflexivity|].
    change (join ("," ++ newline) (x :: y :: l)) with (x ++ ("," ++ newline) ++ join ("," ++ newline) (y :: l))%string.
    rewrite squash_app, (squash_app ("," ++ newline)), IH. reflexivity. }
  rewrite E. destruct l as [|x [|y l]]; cbn [squash]; apply app_empty.
Qed.

Lemma iter_pos_kids_pos {B} (f : nat -> res (B * nat)) (r : rtree -> B) l ks : forall p,
  All (fun k => forall q, 0 < q -> seg l q (flatten k) -> f q = Ok (r k, last_pos q (flatten k))) ks ->
  seg l (S p) (flat_map flatten ks) ->
  iter_pos f (length ks) p = Ok (map r ks, p + length (flat_map flatten ks)).
Proof.
  induction ks as [|k ks IH]; intros p H Hs; cbn [length iter_pos map flat_map].
  - cbn. now rewrite Nat.add_0_r.
  - destruct H as [Hk H]. cbn [flat_map] in Hs.
    rewrite (Hk (S p)) by (try lia; eapply seg_app_l; eauto). cbn [rbind fst snd].
    assert (last_pos (S p) (flatten k) = p + length (flatten k)) as -> by (unfold last_pos; lia).
    rewrite IH; auto.
    + cbn. rewrite app_length. do 2 f_equal. lia.
    + replace (S (p + length (flatten k))) with (S p + length (flatten k)) by lia. eapply seg_app_r; eauto.
Qed.

Section Text.
  Variable num_text : bool -> num -> string.
  Variable type_name : ty -> string.

  (** What is printed for a subtree; [top]: it is the whole tree. *)
  Fixpoint layout (top : bool) (prefix : string) (t : rtree) : string :=
    match t with
    | Rose (FNode f) ks =>
        let prefix' := if top then (prefix ++ "  ")%string else prefix in
        (prefix ++ f_name f ++ "(" ++ newline ++ arguments (map (layout false (prefix' ++ "  ")%string) ks) ++ prefix' ++ ")")%string
    | Rose (TNode v _) _ => (prefix ++ tval_text num_text v)%string
    end.

  Lemma str_at_spec fuel : forall l t p prefix, saturated t -> seg l p (flatten t) -> length (flatten t) <= fuel ->
    str_at num_text fuel l prefix p = Ok (layout (p =? 0) prefix t, last_pos p (flatten t)).
  Proof.
    induction fuel as [|fuel IH]; intros l [n ks] p prefix Hs Hg Hf.
    { pose proof (flatten_pos (Rose n ks)). lia. }
    cbn [str_at]. cbn [flatten] in *. rewrite (seg_nth _ _ _ _ Hg). destruct Hs as [Hn Hk]. destruct n as [f|v ty].
    - cbn [n_args] in Hn. rewrite <- Hn.
      rewrite (iter_pos_kids_pos _ (layout false ((if (p =? 0)%nat then prefix ++ "  " else prefix) ++ "  ")%string) l).
      + cbn [rbind fst snd layout]. unfold last_pos. cbn [length]. do 2 f_equal. lia.
      + rewrite All_In in *. intros k Hin q Hq Hsq. rewrite (IH l k); auto; [|pose proof (flat_map_length_le ks k Hin); cbn in Hf; lia].
        replace (q =? 0) with false by (symmetry; apply Nat.eqb_neq; lia). reflexivity.
      + eapply seg_tail; eauto.
    - cbn in Hn. destruct ks; [|discriminate]. cbn. unfold last_pos. do 2 f_equal. cbn. lia.
  Qed.

  Lemma layout_squash t : forall top prefix, saturated t -> squash prefix = ""%string -> squash (layout top prefix t) = squash (expression num_text t).
  Proof.
    induction t as [n ks IH] using rose_ind. intros top prefix [Hn Hk] Hp. destruct n as [f|v ty].
    - cbn [layout expression]. set (p' := if top then (prefix ++ "  ")%string else prefix).
      assert (Hp' : squash p' = ""%string) by (unfold p'; destruct top; [rewrite squash_app, Hp; reflexivity|exact Hp]).
      rewrite !squash_app, Hp, Hp', squash_arguments. change (squash newline) with ""%string. rewrite All_In in *.
      assert (E : forall l, (forall x, In x l -> In x ks) -> listed (map squash (map (layout false (p' ++ "  ")%string) l)) = squash (listed (map (expression num_text) l))).
      { induction l as [|x [|y l] IHl]; intros Hl; [reflexivity| |].
        - cbn. apply IH; [apply Hl; left; reflexivity|apply Hk, Hl; left; reflexivity|]. rewrite squash_app, Hp'. reflexivity.
        - change (listed (map (expression num_text) (x :: y :: l))) with (expression num_text x ++ "," ++ listed (map (expression num_text) (y :: l)))%string.
          rewrite !squash_app, <- IHl by (intros z Hz; apply Hl; right; exact Hz). cbn [map listed]. f_equal.
          apply IH; [apply Hl; left; reflexivity|apply Hk, Hl; left; reflexivity|]. rewrite squash_app, Hp'. reflexivity. }
      rewrite E by auto. reflexivity.
    - cbn [layout expression]. rewrite squash_app, Hp. cbn [append]. destruct v; reflexivity.
  Qed.

  (** ** What is printed *)

  Definition header (id : string) (t : tree) (ps : list string) (hint : string) : string :=
    ("def func_" ++ id ++ "(" ++ join ", " ps ++ ")" ++ hint ++ ":" ++ newline ++ "  return ")%string.

  Lemma rmap_id_ok {X} (l : list (res X)) xs : rmap (fun r => r) l = Ok xs -> l = map Ok xs.
  Proof.
    revert xs. induction l as [|r l IH]; intros xs H; cbn in H; [injection H as <-; reflexivity|].
    destruct r as [x|]; [|discriminate]. cbn in H. destruct (rmap (fun r => r) l) as [ys|]; [|discriminate]. injection H as <-.
    cbn. f_equal. apply IH. reflexivity.
  Qed.

  Lemma tree_str_spec id t rt : saturated rt -> flatten rt = t_nodes t ->
    tree_str num_text type_name id t =
    rbind (return_hint type_name t) (fun hint => rbind (rmap (fun r => r) (parameters num_text type_name t)) (fun ps =>
      Ok (header id t ps hint ++ layout true "" rt)%string)).
  Proof.
    intros Hs Hf. unfold tree_str. destruct (return_hint type_name t) as [hint|]; [|reflexivity]. cbn [rbind].
    destruct (rmap _ _) as [ps|]; [|reflexivity]. cbn [rbind].
    rewrite (str_at_spec _ (t_nodes t) rt 0 ""); [|exact Hs|rewrite Hf; apply seg_all|rewrite Hf; unfold tsize; lia].
    cbn [rbind fst Nat.eqb]. unfold header. rewrite !app_assoc_s. reflexivity.
  Qed.

  Lemma has_untyped_iff t : has_untyped t = true <-> untyped_terminal (t_tset t).
  Proof.
    unfold has_untyped, untyped_terminal. rewrite existsb_exists. split.
    - intros ([k [ty|]] & Hin & H); [discriminate|]. eauto.
    - intros (k & Hin). exists (k, None). auto.
  Qed.

  Lemma join_comma l : join ", " l = comma_separated l.
  Proof. induction l as [|x [|y l] IH]; [reflexivity|reflexivity|]. change (join ", " (x :: y :: l)) with (x ++ ", " ++ join ", " (y :: l))%string. rewrite IH. reflexivity. Qed.

  Lemma parameters_typed t ps : has_untyped t = false -> rmap (fun r => r) (parameters num_text type_name t) = Ok ps ->
    Forall2 (parameter_text num_text type_name true) (t_tset t) ps.
  Proof.
    intros Hu H. unfold parameters in H. rewrite Hu in H. clear Hu. apply rmap_id_ok in H. revert ps H.
    induction (t_tset t) as [|[k o] l IH]; intros [|p ps] H; try discriminate; [constructor|]. cbn [map] in H. injection H as H1 H2.
    constructor; [|apply IH; exact H2]. cbn in *. destruct o as [ty|]; [|discriminate]. injection H1 as <-. destruct k; reflexivity.
  Qed.

  Lemma parameters_names t ps : has_untyped t = true -> rmap (fun r => r) (parameters num_text type_name t) = Ok ps ->
    Forall2 (parameter_text num_text type_name false) (t_tset t) ps.
  Proof.
    intros Hu H. unfold parameters in H. rewrite Hu in H. clear Hu. apply rmap_id_ok in H. revert ps H.
    induction (t_tset t) as [|[k o] l IH]; intros [|p ps] H; try discriminate; [constructor|]. cbn [map] in H. injection H as H1 H2.
    constructor; [|apply IH; exact H2]. cbn in *. destruct k; [|discriminate]. injection H1 as ->. reflexivity.
  Qed.

  Lemma text_reads id t rt s : saturated rt -> flatten rt = t_nodes t -> tree_str num_text type_name id t = Ok s -> reads_as num_text type_name id t rt s.
  Proof.
    intros Hs Hf H. rewrite (tree_str_spec id t rt Hs Hf) in H. destruct (return_hint type_name t) as [hint|] eqn:Eh; [|discriminate].
    cbn [rbind] in H. destruct (rmap _ _) as [ps|] eqn:Ep; [|discriminate]. injection H as <-.
    exists (negb (has_untyped t)), ps, hint, (layout true "" rt). pose proof (has_untyped_iff t) as Hu.
    split; [destruct (has_untyped t); cbn; split; intros; try discriminate; intuition discriminate|]. split; [|split; [|split]].
    - destruct (has_untyped t) eqn:E; [apply parameters_names|apply parameters_typed]; assumption.
    - unfold return_hint in Eh. destruct (has_untyped t); cbn; [injection Eh as <-; reflexivity|].
      destruct (flatten_hd rt) as [r Er]. rewrite <- Hf, Er in Eh. destruct (node_type (label rt)) as [ty|]; [|discriminate].
      injection Eh as <-. eauto.
    - unfold header, heading. rewrite join_comma. reflexivity.
    - apply layout_squash; [exact Hs|reflexivity].
  Qed.

  Lemma rmap_id_all {X} (l : list (res X)) : (forall r, In r l -> exists x, r = Ok x) -> exists xs, rmap (fun r => r) l = Ok xs.
  Proof.
    induction l as [|r l IH]; intros H; [exists []; reflexivity|]. destruct (H r (or_introl eq_refl)) as [x ->].
    destruct IH as [xs E]; [intros; apply H; right; assumption|]. exists (x :: xs). cbn. rewrite E. reflexivity.
  Qed.

  Lemma rmap_id_raise {X} (l : list (res X)) e : (forall r, In r l -> (exists x, r = Ok x) \/ r = Raise e) -> In (Raise e) l -> rmap (fun r => r) l = Raise e.
  Proof.
    induction l as [|r l IH]; intros H Hin; [destruct Hin|]. cbn. destruct (H r (or_introl eq_refl)) as [[x ->]| ->]; [|reflexivity].
    destruct Hin as [E|Hin]; [discriminate|]. cbn. rewrite IH; auto. intros; apply H; right; assumption.
  Qed.

  (** With untyped terminals, numbers among them are an error. *)
  Lemma text_numbers id t k ty : complete (t_nodes t) -> untyped_terminal (t_tset t) -> In (k, ty) (t_tset t) -> (forall s, k <> TVar s) ->
    tree_str num_text type_name id t = Raise TypeError.
  Proof.
    intros (rt & Hs & Hf) Hu Hin Hk. rewrite (tree_str_spec id t rt Hs Hf). apply has_untyped_iff in Hu. unfold return_hint, parameters. rewrite Hu. cbn [rbind].
    rewrite (rmap_id_raise _ TypeError); [reflexivity| |].
    - intros r Hr. apply in_map_iff in Hr as ([[s|b x n] o] & <- & _); cbn; [left; eauto|right; reflexivity].
    - apply in_map_iff. exists (k, ty). split; [|exact Hin]. cbn. destruct k; [destruct (Hk s eq_refl)|reflexivity].
  Qed.

  (** Without untyped terminals, an untyped root is an error. *)
  Lemma text_untyped_root id t n l : ~ untyped_terminal (t_tset t) -> t_nodes t = n :: l -> node_type n = None ->
    tree_str num_text type_name id t = Raise AttributeError.
  Proof.
    intros Hu Hn Ht. unfold tree_str, return_hint. destruct (has_untyped t) eqn:E; [apply has_untyped_iff in E; contradiction|].
    rewrite Hn, Ht. reflexivity.
  Qed.

  Lemma text_printable id t : complete (t_nodes t) -> ((exists s, tree_str num_text type_name id t = Ok s) <-> printable_tree t).
  Proof.
    intros Hc. pose proof Hc as (rt & Hs & Hf). pose proof (has_untyped_iff t) as Hu. destruct (flatten_hd rt) as [r Er]. rewrite Hf in Er. split.
    - intros [s H]. split.
      + intros U k ty Hin. destruct k as [x|b x n]; [eauto|]. rewrite (text_numbers id t _ _ Hc U Hin) in H; discriminate.
      + intros U. exists (label rt), r. destruct (node_type (label rt)) as [ty|] eqn:E; [eauto|].
        rewrite (text_untyped_root id t _ _ U Er E) in H. discriminate.
    - intros [P1 P2]. rewrite (tree_str_spec id t rt Hs Hf). unfold return_hint, parameters. destruct (has_untyped t).
      + cbn [rbind]. destruct (rmap_id_all (map (fun e => match fst e with TVar s => Ok s | TNum _ _ _ => Raise TypeError end) (t_tset t))) as [ps Ep].
        * intros x Hx. apply in_map_iff in Hx as ([k o] & <- & Hin). destruct (P1 (proj1 Hu eq_refl) k o Hin) as [s ->]. cbn. eauto.
        * rewrite Ep. cbn. eauto.
      + destruct P2 as (n & l & ty & En & Et); [intros U; apply Hu in U; discriminate|]. rewrite En, Et. cbn [rbind].
        match goal with |- context [rmap _ ?m] => destruct (rmap_id_all m) as [ps ->] end; [|cbn; eauto].
        intros x Hx. apply in_map_iff in Hx as ([k [o|]] & <- & Hin); cbn; [eauto|]. exfalso.
        assert (false = true) by (apply Hu; exists k; exact Hin). discriminate.
  Qed.
End Text.

Lemma show_printable i : printable (i_genome i) -> show i = Ok tt.
Proof.
  unfold show, printable. destruct (i_genome i) as [v|t]; [reflexivity|]. intros [Hc Hp].
  apply (text_printable (fun _ _ => ""%string) (fun _ => ""%string) "" t Hc) in Hp as [s ->]. reflexivity.
Qed.

Lemma show_numbers i t k ty : i_genome i = GTree t -> complete (t_nodes t) -> untyped_terminal (t_tset t) -> In (k, ty) (t_tset t) ->
  (forall s, k <> TVar s) -> show i = Raise TypeError.
Proof. intros Eg Hc Hu Hin Hk. unfold show. rewrite Eg, (text_numbers _ _ _ t k ty Hc Hu Hin Hk). reflexivity. Qed.

(** ** Reading it back *)

Lemma no_special_app a b : no_special (a ++ b)%string = no_special a && no_special b.
Proof. induction a as [|c a IH]; cbn; [reflexivity|]. rewrite IH, Bool.andb_assoc. reflexivity. Qed.

(** The name at the beginning of a text. *)
Definition stops (s : string) : Prop := match s with EmptyString => True | String c _ => punctuation c = true end.

Lemma span_unique a : forall b x y, no_special a = true -> no_special b = true -> stops x -> stops y -> (a ++ x = b ++ y)%string -> a = b /\ x = y.
Proof.
  induction a as [|c a IH]; intros [|d b] x y Ha Hb Hx Hy E; cbn in *.
  - auto.
  - subst x. cbn in Hx. rewrite Hx in Hb. rewrite Bool.orb_true_r in Hb. discriminate.
  - subst y. cbn in Hy. rewrite Hy in Ha. rewrite Bool.orb_true_r in Ha. discriminate.
  - injection E as -> E. apply Bool.andb_true_iff in Ha as [_ Ha]. apply Bool.andb_true_iff in Hb as [_ Hb].
    destruct (IH b x y Ha Hb Hx Hy E) as [-> ->]. auto.
Qed.

Section Read.
  Variable num_text : bool -> num -> string.
  Local Notation expr := (expression num_text).

  (** Same kind, text and number of arguments. *)
  Definition same_text (n m : node) : Prop :=
    node_text num_text n = node_text num_text m /\ n_args n = n_args m /\
    match n, m with FNode _, FNode _ | TNode _ _, TNode _ _ => True | _, _ => False end.

  Definition named (l : list node) : Prop := forall n, In n l -> plain (node_text num_text n).

  (** What can follow a subexpression. *)
  Definition follows (s : string) : Prop :=
    match s with EmptyString => True | String c _ => c = ","%char \/ c = ")"%char end.

  Lemma follows_stops s : follows s -> stops s.
  Proof. destruct s as [|c s]; cbn; [auto|]. intros [-> | ->]; reflexivity. Qed.

  Lemma expr_starts t : named (flatten t) -> exists c s, expr t = String c s /\ punctuation c = false.
  Proof.
    destruct t as [n ks]. intros Hn. destruct (Hn n (or_introl eq_refl)) as [H1 H2].
    assert (K : exists c s, node_text num_text n = String c s /\ punctuation c = false).
    { destruct (node_text num_text n) as [|c s]; [congruence|]. exists c, s. split; [reflexivity|]. cbn in H2.
      apply Bool.andb_true_iff in H2 as [H2 _]. apply Bool.negb_true_iff, Bool.orb_false_iff in H2. apply H2. }
    destruct K as (c & s & E & P). destruct n as [f|v ty].
    - cbn in E. cbn [expression]. rewrite E. cbn. eauto.
    - cbn [expression]. eauto.
  Qed.

  Lemma unread : forall t u x y, saturated t -> saturated u -> named (flatten t) -> named (flatten u) -> follows x -> follows y ->
    (expr t ++ x = expr u ++ y)%string -> Forall2 same_text (flatten t) (flatten u) /\ x = y.
  Proof.
    induction t as [n ks IH] using rose_ind. intros [m js] x y [Ln Sk] [Lm Sj] Nt Nu Fx Fy E.
    assert (NP : no_special (node_text num_text n) = true) by apply (Nt n (or_introl eq_refl)).
    assert (MP : no_special (node_text num_text m) = true) by apply (Nu m (or_introl eq_refl)).
    rewrite All_In in Sk, Sj, IH.
    assert (KN : forall k, In k ks -> named (flatten k)) by (intros k Hk a Ha; apply Nt; right; apply in_flat_map; eauto).
    assert (JN : forall k, In k js -> named (flatten k)) by (intros k Hk a Ha; apply Nu; right; apply in_flat_map; eauto).
    assert (KK : forall ls ms x y, (forall k, In k ls -> In k ks) -> (forall k, In k ms -> In k js) ->
      (listed (map expr ls) ++ String ")" x = listed (map expr ms) ++ String ")" y)%string ->
      Forall2 same_text (flat_map flatten ls) (flat_map flatten ms) /\ x = y /\ length ls = length ms).
    { clear E x y Fx Fy. induction ls as [|k ls IHl]; intros ms x y Hl Hm E.
      - destruct ms as [|j ms].
        + cbn in E. injection E as ->. cbn. auto.
        + exfalso. destruct (expr_starts j (JN j (Hm j (or_introl eq_refl)))) as (c & s & Es & Ps).
          destruct ms; cbn [map listed] in E; rewrite Es in E; cbn in E; injection E as <- _; discriminate.
      - destruct ms as [|j ms].
        + exfalso. destruct (expr_starts k (KN k (Hl k (or_introl eq_refl)))) as (c & s & Es & Ps).
          destruct ls; cbn [map listed] in E; rewrite Es in E; cbn in E; injection E as -> _; discriminate.
        + assert (Ek : exists x' y', (expr k ++ x' = expr j ++ y')%string /\ follows x' /\ follows y' /\
                  match ls with [] => x' = String ")" x | _ => x' = (String "," (listed (map expr ls) ++ String ")" x))%string end /\
                  match ms with [] => y' = String ")" y | _ => y' = (String "," (listed (map expr ms) ++ String ")" y))%string end).
          { destruct ls as [|l1 ls], ms as [|m1 ms]; cbn [map listed] in E; rewrite ?app_assoc_s in E;
              (eexists _, _; split; [exact E|]; cbn; auto). }
          destruct Ek as (x' & y' & Ek & Fx & Fy & Ex & Ey).
          destruct (IH k (Hl k (or_introl eq_refl)) j x' y') as [F1 Exy]; auto.
          { apply Sk, Hl. left. reflexivity. } { apply Sj, Hm. left. reflexivity. } { apply KN, Hl. left. reflexivity. } { apply JN, Hm. left. reflexivity. }
          destruct ls as [|l1 ls], ms as [|m1 ms]; subst x' y'; try discriminate Exy.
          * injection Exy as ->. cbn. rewrite !app_nil_r. auto.
          * injection Exy as Exy. destruct (IHl (m1 :: ms) x y) as (F2 & -> & L); auto.
            { intros z Hz. apply Hl. right. exact Hz. } { intros z Hz. apply Hm. right. exact Hz. }
            split; [cbn [flat_map] in *; apply Forall2_app; assumption|]. split; [reflexivity|]. cbn in *. congruence. }
    destruct n as [f|v ty], m as [g|v' ty'].
    - cbn [expression node_text] in *. rewrite !app_assoc_s in E. cbn [append] in E.
      apply span_unique in E as [E1 E2]; auto; try exact eq_refl. injection E2 as E2.
      destruct (KK ks js x y (fun _ H => H) (fun _ H => H)) as (F & -> & L).
      { exact E2. }
      split; [|reflexivity]. cbn [flatten]. constructor; [|exact F]. split; [exact E1|]. split; [congruence|exact I].
    - exfalso. cbn [expression] in E. rewrite !app_assoc_s in E. cbn [append] in E. cbn [node_text] in NP, MP.
      apply span_unique in E as [_ E2]; auto; [|exact eq_refl|apply follows_stops; exact Fy]. subst y. cbn in Fy. destruct Fy; discriminate.
    - exfalso. cbn [expression] in E. rewrite !app_assoc_s in E. cbn [append] in E. cbn [node_text] in NP, MP.
      apply span_unique in E as [_ E2]; auto; [|apply follows_stops; exact Fx|exact eq_refl]. subst x. cbn in Fx. destruct Fx; discriminate.
    - cbn [expression] in E. apply span_unique in E as [E1 E2]; auto using follows_stops. split; [|exact E2].
      destruct ks; [|discriminate]. destruct js; [|discriminate]. cbn. constructor; [|constructor]. split; [exact E1|]. auto.
  Qed.

  Lemma same_text_symbol l l' : distinct_texts num_text (l ++ l') -> Forall2 same_text l l' -> Forall2 same_symbol l l'.
  Proof.
    intros (_ & D1 & D2 & D3) F.
    assert (K : forall m m', Forall2 same_text m m' -> incl m (l ++ l') -> incl m' (l ++ l') -> Forall2 same_symbol m m').
    { induction 1 as [|n n' m m' (E & _ & S) _ IH]; intros I1 I2; constructor.
      - assert (H1 := I1 n (or_introl eq_refl)). assert (H2 := I2 n' (or_introl eq_refl)).
        destruct n as [f|[x|b x k] ty], n' as [g|[x'|b' x' k'] ty']; try contradiction; cbn in *; eauto.
        + exfalso. exact (D2 _ _ _ _ _ _ H1 H2 E).
        + exfalso. exact (D2 _ _ _ _ _ _ H2 H1 (eq_sym E)).
      - apply IH; intros z Hz; [apply I1|apply I2]; right; exact Hz. }
    apply K; [exact F|apply incl_appl, incl_refl|apply incl_appr, incl_refl].
  Qed.
End Read.

Lemma one_line_app a b : one_line (a ++ b)%string = one_line a && one_line b.
Proof. induction a as [|c a IH]; cbn; [reflexivity|]. rewrite IH, Bool.andb_assoc. reflexivity. Qed.

Lemma after_line a b : one_line a = true -> after_first_line (a ++ String (ascii_of_nat 10) b) = b.
Proof.
  induction a as [|c a IH]; cbn [append after_first_line one_line]; intros H; [reflexivity|].
  apply Bool.andb_true_iff in H as [H1 H2]. apply Bool.negb_true_iff in H1. rewrite H1. apply IH, H2.
Qed.

Lemma one_line_commas l : Forall (fun s => one_line s = true) l -> one_line (comma_separated l) = true.
Proof.
  induction 1 as [|x [|y l] Hx _ IH]; [reflexivity|exact Hx|].
  change (comma_separated (x :: y :: l)) with (x ++ ", " ++ comma_separated (y :: l))%string. rewrite !one_line_app, Hx, IH. reflexivity.
Qed.

Lemma heading_body nt tn id t rt s : one_line_heading nt tn id t -> reads_as nt tn id t rt s ->
  squash (after_first_line s) = ("return" ++ squash (expression nt rt))%string.
Proof.
  intros (H1 & H2 & H3) (typed & ps & hint & body & _ & Fp & Hh & -> & E).
  assert (K : (heading id (comma_separated ps) hint ++ body =
     ("def func_" ++ id ++ "(" ++ comma_separated ps ++ ")" ++ hint ++ ":") ++ String (ascii_of_nat 10) ("  return " ++ body))%string).
  { unfold heading. rewrite !app_assoc_s. reflexivity. }
  rewrite K, after_line; [rewrite squash_app, E; reflexivity|].
  rewrite !one_line_app, H1, one_line_commas.
  - assert (one_line hint = true) as ->; [|reflexivity].
    destruct typed; [destruct Hh as (ty & _ & ->)|subst hint; reflexivity]. rewrite one_line_app, H2. reflexivity.
  - clear -Fp H2 H3. induction Fp as [|[k o] p l ps Hp _ IH]; constructor.
    + specialize (H3 k o (or_introl eq_refl)). unfold parameter_text in Hp. cbn [fst snd] in Hp. destruct typed.
      * destruct o as [ty|]; [|contradiction]. subst p. rewrite !one_line_app, H3, H2. reflexivity.
      * subst k. exact H3.
    + apply IH. intros; eapply H3. right; eassumption.
Qed.

Lemma text_unambiguous nt tn id id' t t' s s' :
  complete (t_nodes t) -> complete (t_nodes t') -> distinct_texts nt (t_nodes t ++ t_nodes t') ->
  one_line_heading nt tn id t -> one_line_heading nt tn id' t' ->
  tree_str nt tn id t = Ok s -> tree_str nt tn id' t' = Ok s' -> squash (after_first_line s) = squash (after_first_line s') ->
  Forall2 same_symbol (t_nodes t) (t_nodes t').
Proof.
  intros (rt & S & F) (rt' & S' & F') D H H' E E' Eq.
  apply (text_reads nt tn id t rt s S F) in E. apply (text_reads nt tn id' t' rt' s' S' F') in E'.
  rewrite (heading_body _ _ _ _ _ _ H E), (heading_body _ _ _ _ _ _ H' E') in Eq. cbn in Eq. injection Eq as Eq.
  apply (same_text_symbol nt); [exact D|]. rewrite <- F, <- F'.
  destruct D as (D & _).
  assert (N : named nt (flatten rt)) by (intros n Hn; apply D, in_app_iff; left; congruence).
  assert (N' : named nt (flatten rt')) by (intros n Hn; apply D, in_app_iff; right; congruence).
  assert (X : forall r, named nt (flatten r) -> saturated r -> squash (expression nt r) = expression nt r).
  { clear. induction r as [n ks IH] using rose_ind. intros Hn [_ Sk]. rewrite All_In in IH, Sk.
    destruct n as [f|v ty].
    - cbn [expression]. rewrite !squash_app. rewrite (squash_plain (f_name f)) by apply (Hn (FNode f) (or_introl eq_refl)).
      assert (squash (listed (map (expression nt) ks)) = listed (map (expression nt) ks)) as ->; [|reflexivity].
      assert (J : forall l, incl l ks -> squash (listed (map (expression nt) l)) = listed (map (expression nt) l)).
      { induction l as [|k l IHl]; intros Hl; [reflexivity|].
        assert (Ek : squash (expression nt k) = expression nt k).
        { apply IH; [apply Hl; left; reflexivity| |apply Sk, Hl; left; reflexivity].
          intros m Hm. apply Hn. right. apply in_flat_map. exists k. split; [apply Hl; left; reflexivity|exact Hm]. }
        destruct l as [|k' l]; [exact Ek|]. change (listed (map (expression nt) (k :: k' :: l))) with
          (expression nt k ++ "," ++ listed (map (expression nt) (k' :: l)))%string.
        rewrite !squash_app, Ek, IHl; [reflexivity|]. intros z Hz. apply Hl. right. exact Hz. }
      apply J, incl_refl.
    - cbn [expression]. apply squash_plain, (Hn _ (or_introl eq_refl)). }
  rewrite (X rt N S), (X rt' N' S') in Eq.
  apply (unread nt rt rt' "" "" S S' N N'); [exact I|exact I|]. rewrite !app_empty. exact Eq.
Qed.

(** ** The same symbols compute the same *)

Lemma same_symbol_nth l l' p : Forall2 same_symbol l l' ->
  match nth_error l p, nth_error l' p with Some n, Some m => same_symbol n m | None, None => True | _, _ => False end.
Proof. intros F. revert p. induction F as [|n m l l' S F IH]; intros [|p]; cbn; auto. apply IH. Qed.

Lemma iter_pos_ext {X} (f g : nat -> res (X * nat)) : (forall p, f p = g p) -> forall n p, iter_pos f n p = iter_pos g n p.
Proof. intros E n. induction n as [|n IH]; intros p; cbn; [reflexivity|]. rewrite E. destruct (g (S p)) as [[x q]|]; cbn; [|reflexivity]. rewrite IH. reflexivity. Qed.

Lemma same_symbols_execute val fsem const fuel : forall l l' kw pos, (forall b x k k', const (TNum b x k) = const (TNum b x k')) ->
  Forall2 same_symbol l l' -> execute_at val fsem const fuel l kw pos = execute_at val fsem const fuel l' kw pos.
Proof.
  induction fuel as [|fuel IH]; intros l l' kw pos Hc F; [reflexivity|]. cbn [execute_at]. pose proof (same_symbol_nth l l' pos F) as N.
  destruct (nth_error l pos) as [n|], (nth_error l' pos) as [m|]; try contradiction; [|reflexivity].
  destruct n as [f|[x|b x k] ty], m as [g|[x'|b' x' k'] ty']; try contradiction; cbn in N.
  - subst g. rewrite (iter_pos_ext _ (execute_at val fsem const fuel l' kw)); [reflexivity|]. intros p. apply IH; assumption.
  - subst x'. reflexivity.
  - destruct N as [-> ->]. rewrite (Hc b' x' k k'). reflexivity.
Qed.

Lemma text_determines_value nt tn id id' t t' s s' val fsem const kw :
  complete (t_nodes t) -> complete (t_nodes t') -> distinct_texts nt (t_nodes t ++ t_nodes t') ->
  one_line_heading nt tn id t -> one_line_heading nt tn id' t' ->
  tree_str nt tn id t = Ok s -> tree_str nt tn id' t' = Ok s' -> squash (after_first_line s) = squash (after_first_line s') ->
  t_tset t = t_tset t' -> (forall b x k k', const (TNum b x k) = const (TNum b x k')) ->
  execute val fsem const t kw = execute val fsem const t' kw.
Proof.
  intros C C' D H H' E E' Eq Et Hc. pose proof (text_unambiguous nt tn id id' t t' s s' C C' D H H' E E' Eq) as F.
  unfold execute, key_in_tset, tsize. rewrite (Forall2_len _ _ _ F), Et, (same_symbols_execute val fsem const _ _ _ _ _ Hc F).
  destruct F; reflexivity.
Qed.
