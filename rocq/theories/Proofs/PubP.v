(** Proofs about events and retries (C36, C37, C43). *)
From Coq Require Import Sorted.
From Verif.Proofs Require Export Lib.
From Verif.Spec Require Export PubSpec.
From Verif.Model Require Import Operators Publisher.
Open Scope nat_scope.
Open Scope list_scope.

(** ** Dictionaries *)

Section Dict.
  Context {K V : Type} (eqb : K -> K -> bool).
  Hypothesis eqb_spec : forall a b, reflect (a = b) (eqb a b).

  Lemma dict_get_set k v (d : list (K * V)) k' : dict_get eqb k' (dict_set eqb k v d) = if eqb k' k then Some v else dict_get eqb k' d.
  Proof.
    induction d as [|[a b] d IH]; simpl.
    - reflexivity.
    - destruct (eqb_spec k a) as [->|Hn]; simpl.
      + destruct (eqb_spec k' a); reflexivity.
      + destruct (eqb_spec k' a) as [->|]; [|exact IH]. destruct (eqb_spec a k); congruence.
  Qed.

  Lemma dict_get_in k (d : list (K * V)) v : dict_get eqb k d = Some v -> In (k, v) d.
  Proof.
    induction d as [|[a b] d IH]; simpl; [discriminate|]. destruct (eqb_spec k a) as [->|]; [|auto].
    intros [= ->]. auto.
  Qed.

  Lemma dict_get_none k (d : list (K * V)) : dict_get eqb k d = None -> forall v, ~ In (k, v) d.
  Proof.
    induction d as [|[a b] d IH]; simpl; intros H v; [tauto|]. destruct (eqb_spec k a) as [->|Hn]; [discriminate|].
    intros [[= -> ->]|Hi]; [congruence|]. eapply IH; eauto.
  Qed.

  Lemma dict_set_new k v (d : list (K * V)) : (forall v', ~ In (k, v') d) -> dict_set eqb k v d = d ++ [(k, v)].
  Proof.
    induction d as [|[a b] d IH]; simpl; intros H; [reflexivity|]. destruct (eqb_spec k a) as [->|Hn].
    - exfalso. eapply H. left. reflexivity.
    - rewrite IH; [reflexivity|]. intros v' Hi. eapply H. right. exact Hi.
  Qed.
End Dict.

Lemma del_in (l : subscribers) id : StronglySorted lt (map fst l) -> forall x c,
  In (x, c) (dict_del Nat.eqb id l) <-> In (x, c) l /\ x <> id.
Proof.
  induction l as [|[a b] l IH]; simpl; intros S x c; [tauto|]. inversion S as [|? ? S1 S2]; subst.
  rewrite Forall_forall in S2.
  assert (F : forall y d, In (y, d) l -> a < y). { intros y d Hy. apply S2. apply (in_map fst) in Hy. exact Hy. }
  destruct (Nat.eqb_spec id a) as [->|Hn]; simpl.
  - split.
    + intros H. split; [auto|]. apply F in H. lia.
    + intros [[[= -> ->]|H] Hx]; [congruence|exact H].
  - rewrite IH by exact S1. split.
    + intros [[= -> ->]|[H1 H2]]; split; auto.
    + intros [[[= -> ->]|H] Hx]; auto.
Qed.

Lemma del_sorted (l : subscribers) id : StronglySorted lt (map fst l) -> StronglySorted lt (map fst (dict_del Nat.eqb id l)).
Proof.
  induction l as [|[a b] l IH]; simpl; intros S; [constructor|]. inversion S as [|? ? S1 S2]; subst.
  destruct (id =? a); [exact S1|]. simpl. constructor; [auto|]. rewrite Forall_forall in *.
  intros x Hx. apply in_map_iff in Hx. destruct Hx as ([y c] & <- & Hx). apply del_in in Hx; [|exact S1]. destruct Hx as [Hx _].
  apply S2. apply (in_map fst) in Hx. exact Hx.
Qed.

Lemma sorted_snoc l n : StronglySorted lt l -> (forall x, In x l -> x < n) -> StronglySorted lt (l ++ [n]).
Proof.
  induction 1 as [|a l S IH F]; intros H; simpl; [constructor; constructor|]. constructor.
  - apply IH. intros; apply H; simpl; auto.
  - rewrite Forall_forall in *. intros x Hx. apply in_app_or in Hx. destruct Hx as [Hx|[<-|[]]]; [auto|apply H; simpl; auto].
Qed.

Lemma init_get names e : forall d, dict_get String.eqb e (fold_left (fun d n => dict_set String.eqb n [] d) names d) =
  if existsb (String.eqb e) names then Some [] else dict_get (V := subscribers) String.eqb e d.
Proof.
  induction names as [|n names IH]; intros d; simpl; [reflexivity|]. rewrite IH. rewrite (dict_get_set String.eqb String.eqb_spec).
  destruct (String.eqb e n); simpl; [destruct (existsb _ names); reflexivity|reflexivity].
Qed.

Lemma known_iff names e : existsb (String.eqb e) (names ++ [before_operator; after_operator]) = true <-> known names e.
Proof.
  rewrite existsb_exists. split.
  - intros (x & H & E). apply String.eqb_eq in E. subst x. apply in_app_or in H. unfold known. simpl in H. intuition.
  - intros H. exists e. split; [|apply String.eqb_refl]. apply in_or_app. unfold known in H. simpl. intuition.
Qed.

Lemma known_dec names e : known names e \/ ~ known names e.
Proof. rewrite <- known_iff. destruct (existsb _ _); [left|right]; [reflexivity|discriminate]. Qed.

(** ** Histories of calls *)

Lemma snoc_split {A} (cs cs1 cs2 : list A) x y : cs ++ [x] = cs1 ++ y :: cs2 ->
  (cs2 = [] /\ cs1 = cs /\ y = x) \/ exists cs3, cs2 = cs3 ++ [x] /\ cs = cs1 ++ y :: cs3.
Proof.
  destruct cs2 as [|z cs2] using rev_ind; intros H.
  - apply app_inj_tail in H. left. intuition congruence.
  - right. change (cs1 ++ y :: cs2 ++ [z]) with (cs1 ++ (y :: cs2) ++ [z]) in H. rewrite app_assoc in H.
    apply app_inj_tail in H. destruct H as [-> ->]. exists cs2. split; [reflexivity|]. reflexivity.
Qed.

Lemma registered_fun names cs n : registered names cs n -> forall m, registered names cs m -> m = n.
Proof.
  induction 1 as [|cs n e cb H IH K|cs n e cb H IH K|cs n e id H IH]; intros m Hm; inversion Hm; subst; clear Hm;
    try (match goal with E : _ ++ [_] = [] |- _ => destruct (app_eq_nil _ _ E); discriminate
                       | E : [] = _ ++ [_] |- _ => symmetry in E; destruct (app_eq_nil _ _ E); discriminate end);
    try reflexivity; match goal with E : _ ++ [_] = _ ++ [_] |- _ => apply app_inj_tail in E; destruct E as [-> E] end;
    try discriminate; match goal with E : _ = _ |- _ => injection E; intros; subst end; auto; try contradiction.
Qed.

Lemma registered_some names cs : exists n, registered names cs n.
Proof.
  induction cs as [|c cs (n & H)] using rev_ind; [exists 0; constructor|]. destruct c as [e cb|e id].
  - destruct (known_dec names e); [exists (S n)|exists n]; constructor; assumption.
  - exists n. constructor. assumption.
Qed.

Lemma registered_lt names cs1 e c cs2 id : registered names cs1 id -> known names e ->
  forall n, registered names (cs1 ++ Register e c :: cs2) n -> id < n.
Proof.
  intros H K. induction cs2 as [|x cs2 IH] using rev_ind; intros n Hn.
  - assert (n = S id) by (eapply registered_fun; [|exact Hn]; constructor; assumption). lia.
  - change (cs1 ++ Register e c :: cs2 ++ [x]) with (cs1 ++ (Register e c :: cs2) ++ [x]) in Hn. rewrite app_assoc in Hn.
    inversion Hn as [E|l m a b H1 K1 E|l m a b H1 K1 E|l m a b H1 E].
    + symmetry in E. destruct (app_eq_nil _ _ E). discriminate.
    + apply app_inj_tail in E. destruct E as [-> _]. apply IH in H1. lia.
    + apply app_inj_tail in E. destruct E as [-> _]. apply IH in H1. lia.
    + apply app_inj_tail in E. destruct E as [-> _]. apply IH in H1. lia.
Qed.

Lemma live_lt names cs e id c n : live names cs e id c -> registered names cs n -> id < n.
Proof. intros (K & cs1 & cs2 & cb & -> & R & _) H. eapply registered_lt; eauto. Qed.

Lemma live_reg names cs e cb n : registered names cs n -> known names e -> forall e' id c,
  live names (cs ++ [Register e cb]) e' id c <-> live names cs e' id c \/ (e' = e /\ id = n /\ c = given cb).
Proof.
  intros R K e' id c. split.
  - intros (K' & cs1 & cs2 & d & E & R1 & -> & N). apply snoc_split in E. destruct E as [(-> & -> & [= -> ->])|(cs3 & -> & ->)].
    + right. split; [reflexivity|]. split; [|reflexivity]. eapply registered_fun; eauto.
    + left. split; [exact K'|]. exists cs1, cs3, d. repeat (split; [auto|]). intros Hi. apply N. apply in_or_app. auto.
  - intros [(K' & cs1 & cs2 & d & -> & R1 & -> & N)|(-> & -> & ->)].
    + split; [exact K'|]. exists cs1, (cs2 ++ [Register e cb]), d. split; [rewrite <- app_assoc; reflexivity|].
      repeat (split; [auto|]). intros Hi. apply in_app_or in Hi. destruct Hi as [Hi|[Hi|[]]]; [auto|discriminate].
    + split; [exact K|]. exists cs, [], cb. repeat (split; [auto|]). intros [].
Qed.

Lemma live_unknown names cs e cb : ~ known names e -> forall e' id c,
  live names (cs ++ [Register e cb]) e' id c <-> live names cs e' id c.
Proof.
  intros K e' id c. split.
  - intros (K' & cs1 & cs2 & d & E & R1 & -> & N). apply snoc_split in E. destruct E as [(-> & -> & [= -> ->])|(cs3 & -> & ->)]; [contradiction|].
    split; [exact K'|]. exists cs1, cs3, d. repeat (split; [auto|]). intros Hi. apply N. apply in_or_app. auto.
  - intros (K' & cs1 & cs2 & d & -> & R1 & -> & N).
    split; [exact K'|]. exists cs1, (cs2 ++ [Register e cb]), d. split; [rewrite <- app_assoc; reflexivity|].
    repeat (split; [auto|]). intros Hi. apply in_app_or in Hi. destruct Hi as [Hi|[Hi|[]]]; [auto|discriminate].
Qed.

Lemma live_unreg names cs e i : forall e' id c,
  live names (cs ++ [Unregister e i]) e' id c <-> live names cs e' id c /\ ~ (e' = e /\ id = i).
Proof.
  intros e' id c. split.
  - intros (K' & cs1 & cs2 & d & E & R1 & -> & N). apply snoc_split in E. destruct E as [(-> & -> & E)|(cs3 & -> & ->)]; [discriminate|].
    split.
    + split; [exact K'|]. exists cs1, cs3, d. repeat (split; [auto|]). intros Hi. apply N. apply in_or_app. auto.
    + intros [-> ->]. apply N. apply in_or_app. simpl. auto.
  - intros [(K' & cs1 & cs2 & d & -> & R1 & -> & N) Hn].
    split; [exact K'|]. exists cs1, (cs2 ++ [Unregister e i]), d. split; [rewrite <- app_assoc; reflexivity|].
    repeat (split; [auto|]). intros Hi. apply in_app_or in Hi. destruct Hi as [Hi|[Hi|[]]]; [auto|]. injection Hi as -> ->. tauto.
Qed.

Record tidy (names : list string) (cs : list command) (p : pub) : Prop := {
  td_next : registered names cs (p_next p);
  td_log : p_log p = [];
  td_unknown : forall e, ~ known names e -> dict_get String.eqb e (p_events p) = None;
  td_known : forall e, known names e -> exists l, dict_get String.eqb e (p_events p) = Some l /\
    StronglySorted lt (map fst l) /\ forall id c, In (id, c) l <-> live names cs e id c
}.

Lemma register_eq e cb p : register e cb p =
  match dict_get String.eqb e (p_events p) with
  | Some l => (Ok (p_next p), mkPub (dict_set String.eqb e (dict_set Nat.eqb (p_next p) (given cb) l) (p_events p)) (S (p_next p)) (p_log p))
  | None => (Raise KeyError, p)
  end.
Proof.
  unfold register, get_subscribers, bind. destruct (dict_get String.eqb e (p_events p)) as [l|]; [|reflexivity].
  simpl. unfold given. destruct cb; reflexivity.
Qed.

Lemma unregister_eq e id p : unregister e id p =
  match dict_get String.eqb e (p_events p) with
  | Some l => match dict_get Nat.eqb id l with
              | None => (Raise KeyError, p)
              | Some _ => (Ok tt, mkPub (dict_set String.eqb e (dict_del Nat.eqb id l) (p_events p)) (p_next p) (p_log p))
              end
  | None => (Raise KeyError, p)
  end.
Proof.
  unfold unregister, get_subscribers, bind. destruct (dict_get String.eqb e (p_events p)) as [l|]; [|reflexivity].
  simpl. destruct (dict_get Nat.eqb id l); reflexivity.
Qed.

Lemma tidy_init names : tidy names [] (publisher_init None names).
Proof.
  constructor.
  - constructor.
  - reflexivity.
  - intros e K. simpl. rewrite init_get. destruct (existsb _ _) eqn:E; [|reflexivity]. apply known_iff in E. contradiction.
  - intros e K. exists []. simpl. rewrite init_get. apply known_iff in K. rewrite K. split; [reflexivity|]. split; [constructor|].
    intros id c. split; [intros []|]. intros (_ & cs1 & cs2 & d & E & _). destruct cs1; discriminate.
Qed.

Lemma tidy_register names cs p e cb : tidy names cs p -> tidy names (cs ++ [Register e cb]) (snd (register e cb p)).
Proof.
  intros [R L U W]. rewrite register_eq. destruct (known_dec names e) as [K|K].
  - destruct (W e K) as (l & G & S & M). rewrite G. simpl.
    assert (F : forall c, ~ In (p_next p, c) l). { intros c Hi. apply M in Hi. eapply live_lt in Hi; [|exact R]. lia. }
    rewrite (dict_set_new Nat.eqb Nat.eqb_spec) by exact F.
    constructor; simpl; auto.
    + constructor; assumption.
    + intros e' K'. rewrite (dict_get_set String.eqb String.eqb_spec). destruct (String.eqb_spec e' e) as [->|]; [contradiction|auto].
    + intros e' K'. rewrite (dict_get_set String.eqb String.eqb_spec). destruct (String.eqb_spec e' e) as [->|Hn].
      * eexists. split; [reflexivity|]. split.
        -- rewrite map_app. apply sorted_snoc; [exact S|]. intros x Hx. apply in_map_iff in Hx. destruct Hx as ([y c] & <- & Hx).
           apply M in Hx. eapply live_lt; eauto.
        -- intros id c. rewrite in_app_iff, M, live_reg by eauto. simpl. split.
           ++ intros [H|[[= <- <-]|[]]]; auto.
           ++ intros [H|(_ & -> & ->)]; auto.
      * destruct (W e' K') as (l' & G' & S' & M'). exists l'. split; [exact G'|]. split; [exact S'|].
        intros id c. rewrite M', live_reg by eauto. split; [auto|]. intros [H|(H & _)]; [exact H|congruence].
  - rewrite (U e K). simpl. constructor; auto.
    + constructor; assumption.
    + intros e' K'. destruct (W e' K') as (l' & G' & S' & M'). exists l'. split; [exact G'|]. split; [exact S'|].
      intros id c. rewrite M', live_unknown by exact K. reflexivity.
Qed.

Lemma tidy_unregister names cs p e i : tidy names cs p -> tidy names (cs ++ [Unregister e i]) (snd (unregister e i p)).
Proof.
  intros [R L U W]. rewrite unregister_eq. destruct (known_dec names e) as [K|K].
  - destruct (W e K) as (l & G & S & M). rewrite G. destruct (dict_get Nat.eqb i l) as [x|] eqn:D; simpl.
    + constructor; simpl; auto.
      * constructor. assumption.
      * intros e' K'. rewrite (dict_get_set String.eqb String.eqb_spec). destruct (String.eqb_spec e' e) as [->|]; [contradiction|auto].
      * intros e' K'. rewrite (dict_get_set String.eqb String.eqb_spec). destruct (String.eqb_spec e' e) as [->|Hn].
        -- eexists. split; [reflexivity|]. split; [apply del_sorted; exact S|].
           intros id c. rewrite del_in, M, live_unreg by exact S. intuition.
        -- destruct (W e' K') as (l' & G' & S' & M'). exists l'. split; [exact G'|]. split; [exact S'|].
           intros id c. rewrite M', live_unreg. intuition.
    + pose proof (dict_get_none Nat.eqb Nat.eqb_spec _ _ D) as N. constructor; auto.
      * constructor. assumption.
      * intros e' K'. destruct (W e' K') as (l' & G' & S' & M'). exists l'. split; [exact G'|]. split; [exact S'|].
        intros id c. rewrite M', live_unreg. split; [|tauto]. intros H. split; [exact H|]. intros [-> ->]. apply M in H. eapply N. exact H.
  - rewrite (U e K). simpl. constructor; auto.
    + constructor. assumption.
    + intros e' K'. destruct (W e' K') as (l' & G' & S' & M'). exists l'. split; [exact G'|]. split; [exact S'|].
      intros id c. rewrite M', live_unreg. split; [|tauto]. intros H. split; [exact H|]. intros [-> ->]. contradiction.
Qed.

Lemma tidy_after names cs : tidy names cs (after_calls names cs).
Proof.
  induction cs as [|c cs IH] using rev_ind; [apply tidy_init|].
  unfold after_calls in *. rewrite fold_left_app. simpl. destruct c as [e cb|e i]; [apply tidy_register|apply tidy_unregister]; exact IH.
Qed.

Lemma subscribers_live names cs e : known names e ->
  exists l, get_subscribers e (after_calls names cs) = (Ok l, after_calls names cs) /\
    StronglySorted lt (map fst l) /\ forall id c, In (id, c) l <-> live names cs e id c.
Proof.
  intros K. destruct (td_known _ _ _ (tidy_after names cs) e K) as (l & G & S & M). exists l.
  unfold get_subscribers. rewrite G. auto.
Qed.

Lemma register_number names cs e cb n : registered names cs n ->
  fst (register e cb (after_calls names cs)) = if existsb (String.eqb e) (names ++ [before_operator; after_operator])
                                               then Ok n else Raise KeyError.
Proof.
  intros R. destruct (tidy_after names cs) as [R' _ U W]. rewrite register_eq.
  destruct (known_dec names e) as [K|K].
  - destruct (W e K) as (l & -> & _). apply known_iff in K. rewrite K. simpl. f_equal. eapply registered_fun; eauto.
  - rewrite (U e K). rewrite <- known_iff in K. destruct (existsb _ _); [congruence|reflexivity].
Qed.

Lemma register_known names cs e cb n : registered names cs n -> known names e ->
  fst (register e cb (after_calls names cs)) = Ok n.
Proof. intros R K. rewrite (register_number _ _ _ _ _ R). apply known_iff in K. rewrite K. reflexivity. Qed.

Lemma register_unknown names cs e cb : ~ known names e ->
  register e cb (after_calls names cs) = (Raise KeyError, after_calls names cs).
Proof. intros K. rewrite register_eq. rewrite (td_unknown _ _ _ (tidy_after names cs) e K). reflexivity. Qed.

Lemma unregister_iff names cs e id :
  (fst (unregister e id (after_calls names cs)) = Ok tt <-> exists c, live names cs e id c) /\
  ((forall c, ~ live names cs e id c) -> unregister e id (after_calls names cs) = (Raise KeyError, after_calls names cs)).
Proof.
  destruct (tidy_after names cs) as [_ _ U W]. rewrite unregister_eq. destruct (known_dec names e) as [K|K].
  - destruct (W e K) as (l & -> & S & M). destruct (dict_get Nat.eqb id l) as [x|] eqn:D.
    + apply (dict_get_in Nat.eqb Nat.eqb_spec) in D. apply M in D. split; [split; [eauto|reflexivity]|]. intros N. exfalso. eapply N. eauto.
    + pose proof (dict_get_none Nat.eqb Nat.eqb_spec _ _ D) as N. split; [|reflexivity]. split; [discriminate|].
      intros (c & H). exfalso. apply M in H. eapply N. eauto.
  - rewrite (U e K). split; [|reflexivity]. split; [discriminate|]. intros (c & K' & _). contradiction.
Qed.

Lemma observed_nil p : observed p [] = p.
Proof. destruct p. unfold observed. simpl. rewrite app_nil_r. reflexivity. Qed.
Lemma observed_app p a b : observed (observed p a) b = observed p (a ++ b).
Proof. unfold observed. simpl. rewrite app_assoc. reflexivity. Qed.

Lemma notify_calls user e (l : subscribers) : forall p, exists items r,
  iterM (fun ic => call user e (snd ic)) l p = (r, observed p items) /\ notify user e (map snd l) items r.
Proof.
  induction l as [|[id c] l IH]; intros p; simpl.
  - exists [], (Ok tt). rewrite observed_nil. split; [reflexivity|constructor].
  - destruct c as [n|].
    + assert (C : call user e (CbUser n) p = (user n e, observed p [LCall n e])) by reflexivity.
      destruct (user n e) as [[]|x] eqn:E.
      * destruct (IH (observed p [LCall n e])) as (items & r & E1 & N). exists (LCall n e :: items), r.
        rewrite (bind_eq_ok _ _ _ _ _ C). split; [rewrite E1, observed_app; reflexivity|constructor; assumption].
      * exists [LCall n e], (Raise x). rewrite (bind_eq_raise _ _ _ _ _ C). split; [reflexivity|constructor; assumption].
    + exists [], (Raise TypeError). rewrite observed_nil. split; [reflexivity|constructor].
Qed.

Lemma publish_calls user p e l : get_subscribers e p = (Ok l, p) -> exists items r,
  publish user e p = (r, observed p items) /\ notify user e (map snd l) items r.
Proof.
  intros G. unfold publish. rewrite (bind_eq_ok _ _ _ _ _ G). apply notify_calls.
Qed.

Lemma publish_unknown user names cs e : ~ known names e ->
  publish user e (after_calls names cs) = (Raise KeyError, after_calls names cs).
Proof.
  intros K. unfold publish, bind, get_subscribers. rewrite (td_unknown _ _ _ (tidy_after names cs) e K). reflexivity.
Qed.

Lemma publish_live user names cs e : known names e -> exists l items r,
  StronglySorted lt (map fst l) /\ (forall id c, In (id, c) l <-> live names cs e id c) /\
  publish user e (after_calls names cs) = (r, observed (after_calls names cs) items) /\ notify user e (map snd l) items r.
Proof.
  intros K. destruct (subscribers_live names cs e K) as (l & G & S & M). destruct (publish_calls user _ _ _ G) as (items & r & E & N).
  exists l, items, r. auto.
Qed.

Lemma act_brackets user {A} (r : res A) p before after :
  get_subscribers before_operator p = (Ok before, p) -> get_subscribers after_operator p = (Ok after, p) ->
  exists items out, act_and_publish user (log LAct ;;; lift r) p = (out, observed p items) /\
                    bracketed user (map snd before) (map snd after) r items out.
Proof.
  intros Gb Ga. unfold act_and_publish. destruct (publish_calls user _ _ _ Gb) as (l & rb & E & N).
  destruct rb as [[]|x].
  2:{ exists l, (Raise x). rewrite (bind_eq_raise _ _ _ _ _ E). split; [reflexivity|apply br_before; exact N]. }
  rewrite (bind_eq_ok _ _ _ _ _ E).
  assert (L : (log LAct ;;; lift r) (observed p l) = (r, observed p (l ++ [LAct]))).
  { unfold bind, log, lift. rewrite <- observed_app. reflexivity. }
  destruct r as [v|x].
  2:{ exists (l ++ [LAct]), (Raise x). rewrite (bind_eq_raise _ _ _ _ _ L). split; [reflexivity|apply br_act; auto]. }
  rewrite (bind_eq_ok _ _ _ _ _ L).
  assert (Ga' : get_subscribers after_operator (observed p (l ++ [LAct])) = (Ok after, observed p (l ++ [LAct]))).
  { unfold get_subscribers in *. simpl. destruct (dict_get String.eqb after_operator (p_events p)); [|discriminate]. congruence. }
  destruct (publish_calls user _ _ _ Ga') as (l' & ra & E' & N'). rewrite observed_app, <- app_assoc in E'. simpl in E'. destruct ra as [[]|x].
  - exists (l ++ LAct :: l'), (Ok v). rewrite (bind_eq_ok _ _ _ _ _ E'). split; [reflexivity|eapply br_done; eauto].
  - exists (l ++ LAct :: l'), (Raise x). rewrite (bind_eq_raise _ _ _ _ _ E'). split; [reflexivity|eapply br_after; eauto].
Qed.

Lemma operator_brackets user {A} ar payload (r : res A) names cs :
  let p := after_calls names cs in
  exists before after,
  (forall id c, In (id, c) before <-> live names cs before_operator id c) /\ StronglySorted lt (map fst before) /\
  (forall id c, In (id, c) after <-> live names cs after_operator id c) /\ StronglySorted lt (map fst after) /\
  ((match payload with Some n => n = ar | None => ar = 1 end) ->
     exists items out, operator_act user ar payload (log LAct ;;; lift r) p = (out, observed p items) /\
                       bracketed user (map snd before) (map snd after) r items out) /\
  (~ (match payload with Some n => n = ar | None => ar = 1 end) ->
     operator_act user ar payload (log LAct ;;; lift r) p = (Raise ValueError, p)).
Proof.
  intros p. destruct (subscribers_live names cs before_operator) as (b & Gb & Sb & Mb); [unfold known; auto|].
  destruct (subscribers_live names cs after_operator) as (a & Ga & Sa & Ma); [unfold known; auto|].
  exists b, a. repeat (split; [assumption|]). unfold operator_act, assert_arity. split.
  - intros H. assert (E : match payload with None => if ar =? 1 then Ok tt else Raise ValueError
                         | Some n => if n =? ar then Ok tt else Raise ValueError end = Ok tt).
    { destruct payload; subst; rewrite ?Nat.eqb_refl; reflexivity. }
    rewrite E. rewrite (bind_eq_ok _ _ _ tt p) by reflexivity. apply act_brackets; assumption.
  - intros H. assert (E : match payload with None => if ar =? 1 then Ok tt else Raise ValueError
                         | Some n => if n =? ar then Ok tt else Raise ValueError end = Raise ValueError).
    { destruct payload as [n|]; [destruct (Nat.eqb_spec n ar)|destruct (Nat.eqb_spec ar 1)]; auto; contradiction. }
    rewrite E. reflexivity.
Qed.

(** ** Retries *)

Lemma failable_iff {S A} (attempt : nat -> SE S (bool * A)) (on_fail : SE S A) n : forall i s out,
  failable_from attempt on_fail i n s = out <->
  exists k sk, failed attempt i s k sk /\ k <= i + n /\
   ((k < i + n /\ exists x s', attempt k sk = (Ok (true, x), s') /\ out = (Ok x, s')) \/
    (k < i + n /\ exists x s', attempt k sk = (Raise x, s') /\ out = (Raise x, s')) \/
    (k = i + n /\ out = on_fail sk)).
Proof.
  induction n as [|n IH]; intros i s out; simpl.
  - split.
    + intros <-. exists i, s. split; [constructor|]. split; [lia|]. right. right. split; [lia|reflexivity].
    + intros (k & sk & F & L & H). inversion F as [|? ? ? s1 ? ? E1 F1]; subst.
      * destruct H as [[H _]|[[H _]|[_ H]]]; [lia|lia|congruence].
      * exfalso. assert (G : forall i s k s', failed attempt i s k s' -> i <= k) by (clear; induction 1; lia).
        apply G in F1. lia.
  - unfold bind. destruct (attempt i s) as [[[[|] x]|x] s1] eqn:E; simpl.
    + split.
      * intros <-. exists i, s. split; [constructor|]. split; [lia|]. left. split; [lia|]. eauto.
      * intros (k & sk & F & L & H). inversion F as [|? ? ? s2 ? ? E1 F1]; subst; [|congruence].
        destruct H as [(_ & y & s' & E' & ->)|[(_ & y & s' & E' & ->)|[H _]]]; [|congruence|lia].
        rewrite E in E'. injection E' as <- <-. reflexivity.
    + rewrite IH. split.
      * intros (k & sk & F & L & H). exists k, sk. split; [econstructor; eauto|]. split; [lia|].
        destruct H as [(? & H)|[(? & H)|(? & H)]]; [left|right; left|right; right]; (split; [lia|exact H]).
      * intros (k & sk & F & L & H). inversion F as [|? ? ? s2 ? ? E1 F1]; subst.
        -- exfalso. destruct H as [(_ & y & s' & E' & ->)|[(_ & y & s' & E' & ->)|[H _]]]; [congruence|congruence|lia].
        -- rewrite E in E1. injection E1 as <- <-. exists k, sk. split; [exact F1|]. split; [lia|].
           destruct H as [(? & H)|[(? & H)|(? & H)]]; [left|right; left|right; right]; (split; [lia|exact H]).
    + split.
      * intros <-. exists i, s. split; [constructor|]. split; [lia|]. right. left. split; [lia|]. eauto.
      * intros (k & sk & F & L & H). inversion F as [|? ? ? s2 ? ? E1 F1]; subst; [|congruence].
        destruct H as [(_ & y & s' & E' & ->)|[(_ & y & s' & E' & ->)|[H _]]]; [congruence| |lia].
        rewrite E in E'. injection E' as <- <-. reflexivity.
Qed.

Lemma failable_apply_iff {S A} n (attempt : nat -> SE S (bool * A)) (on_fail : SE S A) s out :
  failable_apply n attempt on_fail s = out <->
  exists k sk, failed attempt 0 s k sk /\ k <= n /\
   ((k < n /\ exists x s', attempt k sk = (Ok (true, x), s') /\ out = (Ok x, s')) \/
    (k < n /\ exists x s', attempt k sk = (Raise x, s') /\ out = (Raise x, s')) \/
    (k = n /\ out = on_fail sk)).
Proof. exact (failable_iff attempt on_fail n 0 s out). Qed.

Lemma failable_attempts z n : failable_init z = Ok n <-> (1 <= z)%Z /\ n = Z.to_nat z.
Proof.
  unfold failable_init. destruct (Z.ltb_spec z 1); split.
  - discriminate.
  - lia.
  - intros [= <-]. lia.
  - intros [_ ->]. reflexivity.
Qed.
