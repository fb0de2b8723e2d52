(** Proofs about copies of objects. *)
From Coq Require Import Lia.
From Verif.Proofs Require Export Lib.
From Verif.Spec Require Export ObjSpec.
From Verif.Model Require Import Objects.
Open Scope nat_scope.
Open Scope string_scope.

(** ** Induction over objects *)

Section ObjInd.
  Variable P : obj -> Prop.
  Hypothesis Ha : forall a, P (OAtom a).
  Hypothesis Hf : forall l n, P (OFun l n).
  Hypothesis He : forall t w s, P (OExec t w s).
  Hypothesis Hl : forall l, Forall P l -> P (OList l).
  Hypothesis Hi : forall c d, Forall (fun p => P (snd p)) d -> P (OInst c d).
  Fixpoint obj_ind' (o : obj) : P o :=
    match o with
    | OAtom a => Ha a
    | OFun l n => Hf l n
    | OExec t w s => He t w s
    | OList l => Hl l ((fix go l : Forall P l := match l with [] => Forall_nil _ | x :: l' => Forall_cons _ (obj_ind' x) (go l') end) l)
    | OInst c d => Hi c d ((fix go l : Forall (fun p => P (snd p)) l :=
        match l with [] => Forall_nil _ | p :: l' => Forall_cons _ (obj_ind' (snd p)) (go l') end) d)
    end.
End ObjInd.

(** ** Dictionaries *)

Lemma dget_dset k k' v d : dget k (dset k' v d) = if String.eqb k k' then Some v else dget k d.
Proof.
  induction d as [|[j w] d IH]; cbn [dset dget]; [reflexivity|].
  destruct (String.eqb_spec k' j) as [->|N]; cbn [dget].
  - destruct (String.eqb k j); reflexivity.
  - rewrite IH. destruct (String.eqb_spec k j) as [->|]; [|reflexivity].
    destruct (String.eqb_spec j k'); [congruence|reflexivity].
Qed.

Lemma dget_none k d : dget k d = None <-> ~ In k (map fst d).
Proof.
  induction d as [|[j w] d IH]; cbn; [tauto|]. destruct (String.eqb_spec k j) as [->|N].
  - split; [discriminate|]. intros H. exfalso. apply H. auto.
  - rewrite IH. split; intros H; [intros [E|E]; [congruence|tauto]|tauto].
Qed.

Lemma dget_in k v d : dget k d = Some v -> In (k, v) d.
Proof.
  induction d as [|[j w] d IH]; cbn; [discriminate|]. destruct (String.eqb_spec k j) as [->|N]; [intros [= ->]; auto|auto].
Qed.

Lemma in_dget k v d : NoDup (map fst d) -> In (k, v) d -> dget k d = Some v.
Proof.
  induction d as [|[j w] d IH]; cbn; [tauto|]. intros H [E|E]; inversion H as [|? ? N M]; subst.
  - injection E as -> ->. rewrite String.eqb_refl. reflexivity.
  - destruct (String.eqb_spec k j) as [->|]; [|auto]. exfalso. apply N. now apply (in_map fst) in E.
Qed.

Lemma dget_dupdate k new : forall d, NoDup (map fst new) ->
  dget k (dupdate new d) = match dget k new with Some v => Some v | None => dget k d end.
Proof.
  induction new as [|[j w] new IH]; intros d H; [reflexivity|]. inversion H as [|? ? N M]; subst. unfold dupdate in *. cbn [fold_left fst snd].
  rewrite IH by exact M. cbn [dget]. rewrite dget_dset. destruct (String.eqb_spec k j) as [->|].
  - destruct (dget j new) eqn:E; [|reflexivity]. apply dget_in, (in_map fst) in E. contradiction.
  - reflexivity.
Qed.

(** Later entries win, in general. *)
Lemma dupdate_keeps k new : forall d, dget k new = None -> dget k (dupdate new d) = dget k d.
Proof.
  induction new as [|[j w] new IH]; intros d H; [reflexivity|]. cbn in H. destruct (String.eqb_spec k j) as [->|N]; [discriminate|].
  unfold dupdate in *. cbn [fold_left fst snd]. rewrite IH by exact H. rewrite dget_dset. destruct (String.eqb_spec k j); [congruence|reflexivity].
Qed.

(** ** Writing *)

Section Dump.
  Variable b : bool.
  Fixpoint dump_items (l : list obj) : res (list obj) :=
    match l with [] => Ok [] | x :: l' => rbind (dump b x) (fun y => rbind (dump_items l') (fun ys => Ok (y :: ys))) end.
  Variable act : string -> action.
  Fixpoint dump_fields (l : dict) : res dict :=
    match l with
    | [] => Ok []
    | (k, x) :: l' =>
        match act k with
        | Keep => rbind (dump b x) (fun y => rbind (dump_fields l') (fun ys => Ok ((k, y) :: ys)))
        | Drop => dump_fields l'
        | Put a => rbind (dump_fields l') (fun ys => Ok ((k, OAtom a) :: ys))
        end
    end.
End Dump.
Lemma dump_list b l : dump b (OList l) = rbind (dump_items b l) (fun l' => Ok (OList l')).
Proof. reflexivity. Qed.
Lemma dump_inst b c d : dump b (OInst c d) = rbind (state_action c d) (fun act => rbind (dump_fields b act d) (fun d' => Ok (OInst c d'))).
Proof. reflexivity. Qed.

Fixpoint load_items (l : list obj) : SE nat (list obj) :=
  match l with [] => ret [] | x :: l' => y <- load x ;; ys <- load_items l' ;; ret (y :: ys) end.
Fixpoint load_fields (l : dict) : SE nat dict :=
  match l with [] => ret [] | (k, x) :: l' => y <- load x ;; ys <- load_fields l' ;; ret ((k, y) :: ys) end.
Lemma load_list l : load (OList l) = (l' <- load_items l ;; ret (OList l')).
Proof. reflexivity. Qed.
Lemma load_inst c d : load (OInst c d) = (s <- load_fields d ;; d' <- setstate c s [] ;; ret (OInst c d')).
Proof. reflexivity. Qed.

Lemma falsy_spec o : truthy o = false <-> falsy o.
Proof.
  unfold falsy. split.
  - destruct o as [[|b|s|x|k]|l| | |]; cbn; try discriminate; auto.
    + intros ->. auto.
    + destruct (String.eqb_spec s ""); [subst; auto|discriminate].
    + destruct x as [q| | |]; cbn; try discriminate. intros H. right. exists q. split; [reflexivity|]. apply Qeq_bool_iff. destruct (Qeq_bool q 0); [reflexivity|discriminate].
    + destruct l; [auto 6|discriminate].
  - intros [[<-|[<-|[<-|[<-|[]]]]]|(q & -> & H)]; try reflexivity. cbn. apply Qeq_bool_iff in H. rewrite H. reflexivity.
Qed.

Lemma thread_spec t : threads t (is_thread t).
Proof.
  unfold threads, is_thread. destruct t as [[|b|s|x|k]|l| | |]; try (split; discriminate). destruct (String.eqb_spec s "thread"); split; congruence.
Qed.

(** The actions of [__getstate__] are the documented ones. *)
Lemma action_spec c d act : state_action c d = Ok act ->
  (forall k, act k = Keep <-> ~ left_out c d k) /\
  (c = CAlgorithm -> dget "executor" d <> None) /\ (c = CFitness -> dget "cache" d <> None) /\
  (forall k a, act k = Put a -> c = CFitness /\ uncached d /\ (k = "fitness" /\ a = ANone \/ k = "_is_evaluated" /\ a = ABool false)).
Proof.
  destruct c; cbn [state_action left_out].
  - destruct (dget "executor" d) eqn:E; [|discriminate]. intros [= <-]. repeat split; try congruence; try (destruct (String.eqb_spec k "executor"); congruence).
    all: destruct (String.eqb_spec k "executor"); congruence.
  - destruct (dget "cache" d) as [c|] eqn:E; [|discriminate]. intros [= <-]. split; [|split; [discriminate|split; [congruence|]]].
    + intros k. destruct (truthy c) eqn:T.
      * split; [|auto]. intros _ ((c' & Ec & Tc) & _). apply falsy_spec in Tc. congruence.
      * assert (U : uncached d) by (exists c; split; [exact E|apply falsy_spec, T]).
        destruct (String.eqb_spec k "_is_evaluated") as [->|]; [split; [discriminate|tauto]|].
        destruct (String.eqb_spec k "fitness") as [->|]; [split; [discriminate|tauto]|]. tauto.
    + intros k a. destruct (truthy c) eqn:T; [discriminate|]. assert (U : uncached d) by (exists c; split; [exact E|apply falsy_spec, T]).
      destruct (String.eqb_spec k "_is_evaluated") as [->|]; [intros [= <-]; auto|].
      destruct (String.eqb_spec k "fitness") as [->|]; [intros [= <-]; auto|discriminate].
  - intros [= <-]. repeat split; try discriminate; destruct (String.eqb_spec k "is_fitted_"); congruence.
  - intros [= <-]. repeat split; try discriminate; tauto.
Qed.

Lemma dump_fields_keys b act d s : dump_fields b act d = Ok s -> map fst s = filter (fun k => match act k with Drop => false | _ => true end) (map fst d).
Proof.
  revert s. induction d as [|[k x] d IH]; cbn [dump_fields map filter fst]; intros s H; [injection H as <-; reflexivity|].
  destruct (act k).
  - destruct (dump b x) as [y|]; [|discriminate]. cbn in H. destruct (dump_fields b act d) as [ys|]; [|discriminate]. injection H as <-. cbn. f_equal. auto.
  - auto.
  - destruct (dump_fields b act d) as [ys|]; [|discriminate]. injection H as <-. cbn. f_equal. auto.
Qed.

Lemma load_fields_keys l : forall n r m, load_fields l n = (Ok r, m) -> map fst r = map fst l.
Proof.
  induction l as [|[k x] l IH]; cbn [load_fields]; intros n r m H; [inv H; reflexivity|].
  mb H as y n1 E1. mb H as ys n2 E2. mr H. cbn. f_equal. eauto.
Qed.

(** ** Copying *)

Lemma replaced_weaken n m n' m' c d d' : n' <= n -> m <= m' -> replaced n m c d d' -> replaced n' m' c d d'.
Proof.
  intros A B. destruct c; cbn; auto. intros (t & b & w & s & H1 & H2 & H3 & H4 & H5). exists t, b, w, s. split; [exact H1|]. split; [exact H2|]. repeat split; auto; lia.
Qed.

Lemma restored_weaken n m n' m' : n' <= n -> m <= m' -> forall o o', restored n m o o' -> restored n' m' o o'.
Proof.
  intros A B. induction o as [a|l k|t w s|l IH|c d IH] using obj_ind'; intros o' H; inversion H as [| |? ? F|? ? ? V N R]; subst; try constructor.
  - clear H. revert l' F. induction IH as [|x l Hx _ IHl]; intros l' F; inversion F; subst; constructor; auto.
  - intros k o Hk Hd. destruct (V k o Hk Hd) as (o' & E & Q). exists o'. split; [exact E|].
    rewrite Forall_forall in IH. apply (IH (k, o)); [now apply dget_in|exact Q].
  - exact N.
  - eapply replaced_weaken; eauto.
Qed.

Definition copies (b : bool) (o : obj) : Prop :=
  exists s, dump b o = Ok s /\ forall n, exists o' m, load s n = (Ok o', m) /\ n <= m /\ restored n m o o'.

Lemma copies_items b l : Forall (copies b) l ->
  exists s, dump_items b l = Ok s /\ forall n, exists r m, load_items s n = (Ok r, m) /\ n <= m /\ Forall2 (restored n m) l r.
Proof.
  induction 1 as [|x l (sx & Dx & Lx) _ (sl & Dl & Ll)].
  - exists []. split; [reflexivity|]. intros n. exists [], n. repeat split; auto.
  - exists (sx :: sl). cbn [dump_items]. rewrite Dx. cbn. rewrite Dl. split; [reflexivity|]. intros n.
    destruct (Lx n) as (y & m1 & E1 & N1 & R1), (Ll m1) as (ys & m2 & E2 & N2 & R2).
    exists (y :: ys), m2. cbn [load_items]. unfold bind. rewrite E1, E2. split; [reflexivity|]. split; [lia|]. constructor.
    + eapply restored_weaken; [| |exact R1]; lia.
    + clear - R2 N1. induction R2; constructor; auto. eapply restored_weaken; [| |eassumption]; lia.
Qed.

Lemma copies_fields b act d : (forall k o, In (k, o) d -> act k = Keep -> copies b o) ->
  exists s, dump_fields b act d = Ok s /\ forall n, exists r m, load_fields s n = (Ok r, m) /\ n <= m /\
    (forall k o, In (k, o) d -> act k = Keep -> exists o', In (k, o') r /\ restored n m o o') /\
    (forall k o a, In (k, o) d -> act k = Put a -> In (k, OAtom a) r).
Proof.
  induction d as [|[k x] d IH]; intros H.
  - exists []. split; [reflexivity|]. intros n. exists [], n. repeat split; auto; intros ? ? [].
  - destruct IH as (sl & Dl & Ll); [intros; eapply H; [right; eassumption|auto]|]. cbn [dump_fields]. destruct (act k) eqn:A.
    + destruct (H k x (or_introl eq_refl) A) as (sx & Dx & Lx). rewrite Dx. cbn. rewrite Dl. eexists. split; [reflexivity|]. intros n.
      destruct (Lx n) as (y & m1 & E1 & N1 & R1), (Ll m1) as (ys & m2 & E2 & N2 & K2 & P2).
      exists ((k, y) :: ys), m2. cbn [load_fields]. unfold bind. rewrite E1, E2. split; [reflexivity|]. split; [lia|]. split.
      * intros j o [E|I] Aj; [injection E as <- <-; exists y; split; [left; reflexivity|]; eapply restored_weaken; [| |exact R1]; lia|].
        destruct (K2 j o I Aj) as (o' & I' & R). exists o'. split; [right; exact I'|]. eapply restored_weaken; [| |exact R]; lia.
      * intros j o a [E|I] Aj; [injection E as <- <-; congruence|]. right. eapply P2; eauto.
    + exists sl. split; [exact Dl|]. intros n. destruct (Ll n) as (ys & m2 & E2 & N2 & K2 & P2). exists ys, m2. repeat split; auto.
      * intros j o [E|I] Aj; [injection E as <- <-; congruence|eauto].
      * intros j o a [E|I] Aj; [injection E as <- <-; congruence|eauto].
    + rewrite Dl. cbn. eexists. split; [reflexivity|]. intros n. destruct (Ll n) as (ys & m2 & E2 & N2 & K2 & P2).
      exists ((k, OAtom a) :: ys), m2. cbn [load_fields load]. unfold bind at 1, ret at 1. unfold bind. rewrite E2. repeat split; auto.
      * intros j o [E|I] Aj; [injection E as <- <-; congruence|]. destruct (K2 j o I Aj) as (o' & I' & R). exists o'. split; [right; exact I'|exact R].
      * intros j o a' [E|I] Aj; [injection E as <- <-; left; congruence|]. right. eapply P2; eauto.
Qed.

Lemma state_action_ok c d : needed c d -> exists act, state_action c d = Ok act.
Proof.
  destruct c; cbn; eauto.
  - intros (H & _). destruct (dget "executor" d); [eauto|congruence].
  - intros H. destruct (dget "cache" d); [eauto|congruence].
Qed.

Lemma NoDup_filter_keys (f : string -> bool) l : NoDup l -> NoDup (filter f l).
Proof. apply NoDup_filter. Qed.

Lemma savable_copies b : forall o, proper o -> savable b o -> copies b o.
Proof.
  induction o as [a|l k|t w s|l IH|c d IH] using obj_ind'; intros Hp Hs.
  - exists (OAtom a). split; [reflexivity|]. intros n. exists (OAtom a), n. repeat split; auto. constructor.
  - exists (OFun l k). inversion Hs as [|? ? C| |]; subst. cbn [dump]. split.
    + destruct C as [->| ->]; [reflexivity|]. rewrite andb_false_r. reflexivity.
    + intros n. exists (OFun l k), n. repeat split; auto. constructor.
  - inversion Hs.
  - inversion Hp as [| | |? P|]; subst. inversion Hs as [| |? S|]; subst.
    destruct (copies_items b l) as (sl & D & L).
    { rewrite Forall_forall in *. intros o Ho. apply IH; auto. }
    exists (OList sl). rewrite dump_list, D. split; [reflexivity|]. intros n. destruct (L n) as (r & m & E & N & R).
    exists (OList r), m. rewrite load_list. unfold bind. rewrite E. repeat split; auto. constructor. exact R.
  - inversion Hp as [| | | |? ? ND P]; subst. inversion Hs as [| | |? ? Nd S]; subst.
    destruct (state_action_ok c d Nd) as (act & Ea). destruct (action_spec c d act Ea) as (K & _ & _ & Pu).
    destruct (copies_fields b act d) as (sl & D & L).
    { intros k o I A. rewrite Forall_forall in IH. apply (IH (k, o) I); [eapply P; eauto|]. eapply S; eauto. now apply K. }
    pose proof (dump_fields_keys b act d sl D) as Keys.
    assert (NDs : NoDup (map fst sl)) by (rewrite Keys; now apply NoDup_filter).
    exists (OInst c sl). rewrite dump_inst, Ea. cbn [rbind]. rewrite D. split; [reflexivity|]. intros n.
    destruct (L n) as (r & m & E & N & R & Q). pose proof (load_fields_keys sl n r m E) as KL.
    assert (NDr : NoDup (map fst r)) by (rewrite KL; exact NDs).
    assert (Get : forall k, dget k (dupdate r []) = dget k r).
    { intros k. rewrite dget_dupdate by exact NDr. destruct (dget k r); reflexivity. }
    assert (Vis : forall k o, ~ left_out c d k -> dget k d = Some o -> exists o', dget k r = Some o' /\ restored n m o o').
    { intros k o Hk Hd. destruct (R k o (dget_in _ _ _ Hd) (proj2 (K k) Hk)) as (o' & I & X). exists o'. split; [now apply in_dget|exact X]. }
    assert (Abs : forall k, dget k d = None -> dget k r = None).
    { intros k Hd. apply dget_none. rewrite KL, Keys, filter_In. apply dget_none in Hd. tauto. }
    rewrite load_inst. unfold bind at 1. rewrite E.
    assert (Fin : forall d', (forall k, ~ left_out c d k -> dget k d' = dget k r) -> forall m', m <= m' -> replaced n m' c d d' ->
                  restored n m' (OInst c d) (OInst c d')).
    { intros d' Same m' Hm Rep. constructor; [| |exact Rep].
      - intros k o Hk Hd. rewrite Same by exact Hk. destruct (Vis k o Hk Hd) as (o' & X & Y). exists o'. split; [exact X|].
        eapply restored_weaken; [| |exact Y]; lia.
      - intros k Hk Hd. rewrite Same by exact Hk. auto. }
    destruct c as [| | |name]; unfold setstate, bind, ret, get, put, lift.
    + destruct Nd as (N1 & N2 & N3).
      destruct (dget "_executor_type" d) as [t|] eqn:Et; [|congruence]. destruct (dget "max_workers" d) as [w|] eqn:Ew; [|congruence].
      destruct (Vis "_executor_type" t ltac:(cbn; discriminate) Et) as (t' & Et' & Rt).
      destruct (Vis "max_workers" w ltac:(cbn; discriminate) Ew) as (w' & Ew' & Rw).
      unfold make_executor. rewrite !Get, Et', Ew'.
      eexists _, _. split; [reflexivity|]. split; [lia|]. apply Fin; [|lia|].
      * intros k Hk. rewrite dget_dset. destruct (String.eqb_spec k "executor") as [->|]; [exfalso; apply Hk; reflexivity|apply Get].
      * assert (is_thread t' = is_thread t) as It by (inversion Rt; reflexivity).
        exists t, (is_thread t), w', m. rewrite !dget_dset. cbn [String.eqb Ascii.eqb Bool.eqb]. rewrite Get, It. split; [exact Et|]. split; [apply thread_spec|]. repeat split; auto; lia.
    + eexists _, _. split; [reflexivity|]. split; [lia|]. apply Fin; [intros; apply Get|lia|].
      cbn [replaced]. intros U. rewrite !Get. split.
      * intros Hf. destruct (dget "fitness" d) as [v|] eqn:Ef; [|congruence]. apply in_dget; [exact NDr|].
        eapply Q; [apply dget_in; exact Ef|]. destruct (act "fitness") eqn:A.
        -- exfalso. apply K in A. apply A. cbn. auto.
        -- exfalso. clear - Ea A. cbn in Ea. destruct (dget "cache" d) as [c|]; [|discriminate]. injection Ea as <-.
           cbn in A. destruct (truthy c); discriminate.
        -- destruct (Pu _ _ A) as (_ & _ & [(_ & ->)|(X & _)]); [reflexivity|discriminate].
      * intros Hf. destruct (dget "_is_evaluated" d) as [v|] eqn:Ef; [|congruence]. apply in_dget; [exact NDr|].
        eapply Q; [apply dget_in; exact Ef|]. destruct (act "_is_evaluated") eqn:A.
        -- exfalso. apply K in A. apply A. cbn. auto.
        -- exfalso. clear - Ea A. cbn in Ea. destruct (dget "cache" d) as [c|]; [|discriminate]. injection Ea as <-.
           cbn in A. destruct (truthy c); discriminate.
        -- destruct (Pu _ _ A) as (_ & _ & [(X & _)|(_ & ->)]); [discriminate|reflexivity].
    + eexists _, _. split; [reflexivity|]. split; [lia|]. apply Fin; [intros; apply Get|lia|].
      cbn [replaced]. rewrite Get. apply dget_none. rewrite KL, Keys, filter_In. intros (_ & F).
      cbn in Ea. injection Ea as <-. cbn in F. discriminate.
    + eexists _, _. split; [reflexivity|]. split; [lia|]. apply Fin; [intros; apply Get|lia|]. exact I.
Qed.

Lemma load_items_each l : forall n r m, load_items l n = (Ok r, m) -> forall x, In x l -> exists n1 y m1, load x n1 = (Ok y, m1).
Proof.
  induction l as [|a l IH]; cbn [load_items]; intros n r m H x I; [destruct I|].
  mb H as y n1 E1. mb H as ys n2 E2. destruct I as [->|I]; [eauto|eauto].
Qed.
Lemma load_fields_each l : forall n r m, load_fields l n = (Ok r, m) -> forall k x, In (k, x) l -> exists n1 y m1, load x n1 = (Ok y, m1).
Proof.
  induction l as [|[j a] l IH]; cbn [load_fields]; intros n r m H k x I; [destruct I|].
  mb H as y n1 E1. mb H as ys n2 E2. destruct I as [E|I]; [injection E as -> ->; eauto|eauto].
Qed.
Lemma dump_items_each b l : forall s, dump_items b l = Ok s -> forall x, In x l -> exists y, dump b x = Ok y /\ In y s.
Proof.
  induction l as [|a l IH]; cbn [dump_items]; intros s H x I; [destruct I|].
  destruct (dump b a) as [y|] eqn:E; [|discriminate]. cbn in H. destruct (dump_items b l) as [ys|] eqn:F; [|discriminate]. injection H as <-.
  destruct I as [<-|I]; [exists y; cbn; auto|]. destruct (IH ys eq_refl x I) as (z & A & B). exists z. cbn. auto.
Qed.
Lemma dump_fields_each b act l : forall s, dump_fields b act l = Ok s -> forall k x, In (k, x) l -> act k = Keep ->
  exists y, dump b x = Ok y /\ In (k, y) s.
Proof.
  induction l as [|[j a] l IH]; cbn [dump_fields]; intros s H k x I A; [destruct I|]. destruct (act j) eqn:Aj.
  - destruct (dump b a) as [y|] eqn:E; [|discriminate]. cbn in H. destruct (dump_fields b act l) as [ys|] eqn:F; [|discriminate]. injection H as <-.
    destruct I as [X|I]; [injection X as -> ->; exists y; cbn; auto|]. destruct (IH ys eq_refl k x I A) as (z & B & C). exists z. cbn. auto.
  - destruct I as [X|I]; [injection X as -> ->; congruence|eauto].
  - destruct (dump_fields b act l) as [ys|] eqn:F; [|discriminate]. injection H as <-.
    destruct I as [X|I]; [injection X as -> ->; congruence|]. destruct (IH ys eq_refl k x I A) as (z & B & C). exists z. cbn. auto.
Qed.

Lemma dset_keys k k' v d : In k (map fst (dset k' v d)) -> k = k' \/ In k (map fst d).
Proof.
  intros H. destruct (String.eqb_spec k k') as [|N]; [auto|]. right. destruct (in_dec string_dec k (map fst d)) as [I|C]; [exact I|exfalso].
  apply dget_none in C. assert (D : dget k (dset k' v d) = None).
  { rewrite dget_dset. destruct (String.eqb_spec k k'); [congruence|exact C]. }
  apply dget_none in D. contradiction.
Qed.
Lemma dupdate_keys k new : forall d, In k (map fst (dupdate new d)) -> In k (map fst new) \/ In k (map fst d).
Proof.
  induction new as [|[j w] new IH]; intros d H; [auto|]. unfold dupdate in *. cbn [fold_left fst snd] in H.
  destruct (IH _ H) as [I|I]; [cbn; auto|]. apply dset_keys in I. cbn. destruct I; auto.
Qed.
Lemma present k d : dget k d <> None <-> In k (map fst d).
Proof.
  destruct (in_dec string_dec k (map fst d)) as [I|N].
  - split; [auto|]. intros _ C. apply dget_none in C. contradiction.
  - split; [|contradiction]. intros C. exfalso. apply C. now apply dget_none.
Qed.

Lemma copy_savable b : forall o s n o' m, dump b o = Ok s -> load s n = (Ok o', m) -> savable b o.
Proof.
  induction o as [a|l k|t w s|l IH|c d IH] using obj_ind'; intros r n o' m D L.
  - constructor.
  - constructor. cbn [dump] in D. destruct l; [|auto]. destruct b; [auto|discriminate].
  - discriminate.
  - rewrite dump_list in D. destruct (dump_items b l) as [sl|] eqn:E; [|discriminate]. injection D as <-. rewrite load_list in L.
    mb L as r n1 E1. constructor. intros o I. destruct (dump_items_each b l sl E o I) as (y & Dy & Iy).
    destruct (load_items_each sl n r n1 E1 y Iy) as (n2 & z & m2 & Lz). rewrite Forall_forall in IH. eapply IH; eauto.
  - rewrite dump_inst in D. destruct (state_action c d) as [act|] eqn:Ea; [|discriminate]. cbn [rbind] in D.
    destruct (dump_fields b act d) as [sl|] eqn:E; [|discriminate]. injection D as <-. rewrite load_inst in L.
    mb L as r n1 E1. mb L as d' n2 E2. destruct (action_spec c d act Ea) as (K & Ne & Nc & _). constructor.
    + destruct c; cbn [needed]; auto. split; [auto|]. unfold setstate in E2. mb E2 as u n3 E3. inv E3. mb E2 as e n4 E4.
      unfold lift in E4. injection E4 as E4 _. unfold make_executor in E4.
      assert (Up : forall k, dget k (dupdate r []) <> None -> dget k d <> None).
      { intros k C. apply present in C. apply dupdate_keys in C. destruct C as [C|[]]. rewrite (load_fields_keys _ _ _ _ E1), (dump_fields_keys _ _ _ _ E) in C.
        apply filter_In in C. now apply present. }
      destruct (dget "_executor_type" (dupdate r [])) eqn:T; [|discriminate]. destruct (dget "max_workers" (dupdate r [])) eqn:W; [|discriminate].
      split; apply Up; congruence.
    + intros k o I Hk. apply K in Hk. destruct (dump_fields_each b act d sl E k o I Hk) as (y & Dy & Iy).
      destruct (load_fields_each sl n r n1 E1 k y Iy) as (n3 & z & m3 & Lz). rewrite Forall_forall in IH. eapply (IH (k, o) I); eauto.
Qed.

Lemma copy_ok b o n o' m : copy b o n = (Ok o', m) -> exists s, dump b o = Ok s /\ load s n = (Ok o', m).
Proof. unfold copy, bind, lift. destruct (dump b o) as [s|e]; [eauto|discriminate]. Qed.

Lemma copy_iff b o n : proper o -> (is_ok (fst (copy b o n)) = true <-> savable b o).
Proof.
  intros P. split.
  - destruct (copy b o n) as [[o'|e] m] eqn:E; [|discriminate]. intros _. destruct (copy_ok b o n o' m E) as (s & D & L). eapply copy_savable; eauto.
  - intros S. destruct (savable_copies b o P S) as (s & D & L). destruct (L n) as (o' & m & E & _). unfold copy, bind, lift. rewrite D, E. reflexivity.
Qed.

Lemma copy_restored b o n o' m : proper o -> copy b o n = (Ok o', m) -> restored n m o o'.
Proof.
  intros P E. destruct (copy_ok b o n o' m E) as (s & D & L). destruct (savable_copies b o P (copy_savable b o s n o' m D L)) as (s' & D' & L').
  assert (s' = s) by congruence. subst s'. destruct (L' n) as (o2 & m2 & E2 & _ & R). rewrite L in E2. injection E2 as <- <-. exact R.
Qed.

(** ** Fitness objects *)

Lemma dump_atoms {A} b (f : A -> atom) l : dump_items b (map (fun x => OAtom (f x)) l) = Ok (map (fun x => OAtom (f x)) l).
Proof. induction l as [|x l IH]; cbn [map dump_items]; [reflexivity|]. cbn [dump rbind]. rewrite IH. reflexivity. Qed.
Lemma load_atoms {A} (f : A -> atom) l n : load_items (map (fun x => OAtom (f x)) l) n = (Ok (map (fun x => OAtom (f x)) l), n).
Proof. induction l as [|x l IH]; cbn [map load_items]; [reflexivity|]. cbn [load]. unfold bind, ret in *. rewrite IH. reflexivity. Qed.

Lemma dump_fval b v : dump b (fval_obj v) = Ok (fval_obj v).
Proof. destruct v; try reflexivity. unfold fval_obj. rewrite dump_list, (dump_atoms b ANum). reflexivity. Qed.
Lemma dump_hib b v : dump b (hib_obj v) = Ok (hib_obj v).
Proof. destruct v; try reflexivity. unfold hib_obj. rewrite dump_list, (dump_atoms b ABool). reflexivity. Qed.
Lemma load_fval v n : load (fval_obj v) n = (Ok (fval_obj v), n).
Proof. destruct v; try reflexivity. unfold fval_obj. rewrite load_list. unfold bind. rewrite (load_atoms ANum). reflexivity. Qed.
Lemma load_hib v n : load (hib_obj v) n = (Ok (hib_obj v), n).
Proof. destruct v; try reflexivity. unfold hib_obj. rewrite load_list. unfold bind. rewrite (load_atoms ABool). reflexivity. Qed.

Lemma dump_fitness b f : dump b (fit_obj f) = Ok (fit_obj (fit_getstate f)).
Proof.
  destruct f as [c v e h ca r cr rk]. unfold fit_obj, fit_getstate, with_value. cbn [ft_class ft_value ft_evaluated ft_hib ft_cache ft_relative ft_crowding ft_rank].
  rewrite dump_inst. destruct ca, c; cbn - [hib_obj fval_obj]; rewrite ?dump_hib; cbn - [hib_obj fval_obj]; rewrite ?dump_fval; reflexivity.
Qed.
Lemma load_fitness f n : load (fit_obj f) n = (Ok (fit_obj f), n).
Proof.
  destruct f as [c v e h ca r cr rk]. unfold fit_obj. cbn [ft_class ft_value ft_evaluated ft_hib ft_cache ft_relative ft_crowding ft_rank].
  rewrite load_inst. unfold bind at 1.
  assert (F : forall l, load_fields (("_is_evaluated", OAtom (ABool e)) :: ("is_relative_fitness", OAtom (ABool r)) ::
      ("cache", OAtom (ABool ca)) :: ("higher_is_better", hib_obj h) :: ("fitness", fval_obj v) :: l) n =
      (y <- load_fields l ;; ret (("_is_evaluated", OAtom (ABool e)) :: ("is_relative_fitness", OAtom (ABool r)) ::
      ("cache", OAtom (ABool ca)) :: ("higher_is_better", hib_obj h) :: ("fitness", fval_obj v) :: y)) n).
  { intros l. cbn - [hib_obj fval_obj]. unfold bind, ret. rewrite load_hib, load_fval. destruct (load_fields l n) as [[y|x] m]; reflexivity. }
  cbn [app]. rewrite F. destruct c; reflexivity.
Qed.

Lemma copy_fitness b f n : copy b (fit_obj f) n = (Ok (fit_obj (fit_getstate f)), n).
Proof. unfold copy, bind, lift. rewrite dump_fitness. apply load_fitness. Qed.

Lemma restored_raises f g size gsize : is_simple_class (ft_class f) = true -> is_simple_class (ft_class g) = true -> ft_cache f = false ->
  simple_better_than (fit_getstate f) size g gsize = Raise ValueError /\
  (forall a, get_augmented_fitness g gsize = Ok a -> simple_better_than g gsize (fit_getstate f) size = Raise ValueError).
Proof.
  intros Cf Cg Hc. unfold fit_getstate. rewrite Hc. unfold simple_better_than, check_comparable, is_fitness_evaluated.
  destruct f as [c v e h ca r cr rk]. cbn in *. rewrite Cf, Cg. cbn. split.
  - destruct r; [|reflexivity]. cbn. destruct (if ft_relative g then true else ft_evaluated g); reflexivity.
  - intros a A. assert (E : ft_evaluated g = true).
    { unfold get_augmented_fitness, get_pure_fitness in A. destruct (ft_evaluated g); [reflexivity|discriminate]. }
    rewrite A, E. destruct r, (ft_relative g); reflexivity.
Qed.

(** ** Algorithms that were initialized *)

Lemma attached_fields d d' : attach_executor d = Ok d' -> exists e c pe, dget "executor" d = Some e /\ dget "population_evaluator" d = Some (OInst c pe) /\
  dget "population_evaluator" d' = Some (OInst c (dset "executor" e pe)).
Proof.
  unfold attach_executor. destruct (dget "executor" d) as [e|]; [|discriminate].
  destruct (dget "population_evaluator" d) as [[| | | |c pe]|]; try discriminate. intros [= <-]. exists e, c, pe.
  rewrite dget_dset. auto.
Qed.

Lemma attached_not_savable b d d' t w s nm pe : dget "executor" d = Some (OExec t w s) -> dget "population_evaluator" d = Some (OInst (COther nm) pe) ->
  attach_executor d = Ok d' -> ~ savable b (OInst CAlgorithm d').
Proof.
  intros He Hp Ha S. destruct (attached_fields d d' Ha) as (e & c & pe' & E1 & E2 & E3).
  assert (e = OExec t w s) by congruence. subst e. assert (X : OInst c pe' = OInst (COther nm) pe) by congruence. injection X as -> ->.
  inversion S as [| | |? ? _ F]; subst. specialize (F _ _ (dget_in _ _ _ E3) ltac:(cbn; discriminate)).
  inversion F as [| | |? ? _ G]; subst. assert (I : dget "executor" (dset "executor" (OExec t w s) pe) = Some (OExec t w s)) by (rewrite dget_dset; reflexivity).
  specialize (G _ _ (dget_in _ _ _ I) ltac:(cbn; tauto)). inversion G.
Qed.

Lemma not_savable_copy b o n : ~ savable b o -> is_ok (fst (copy b o n)) = false.
Proof.
  intros N. destruct (copy b o n) as [[o'|e] m] eqn:E; [|reflexivity]. exfalso. apply N.
  destruct (copy_ok b o n o' m E) as (s & D & L). eapply copy_savable; eauto.
Qed.

Lemma initialized_not_copied b d d' t w s nm pe n : dget "executor" d = Some (OExec t w s) -> dget "population_evaluator" d = Some (OInst (COther nm) pe) ->
  attach_executor d = Ok d' -> is_ok (fst (copy b (OInst CAlgorithm d') n)) = false.
Proof. intros. apply not_savable_copy. eapply attached_not_savable; eauto. Qed.

(** ** The wrapper *)

Lemma getstate_wrapper w : getstate CWrapper w = Ok (ddel "is_fitted_" w).
Proof.
  unfold getstate, state_action. cbn [rbind]. f_equal. unfold ddel. induction w as [|[k v] w IH]; [reflexivity|]. cbn [flat_map filter fst].
  rewrite (String.eqb_sym "is_fitted_" k). destruct (String.eqb k "is_fitted_"); cbn; rewrite IH; reflexivity.
Qed.
Lemma dget_ddel k j d : dget k (ddel j d) = if String.eqb k j then None else dget k d.
Proof.
  unfold ddel. induction d as [|[i v] d IH]; cbn [filter dget fst]; [destruct (String.eqb k j); reflexivity|].
  destruct (String.eqb_spec j i) as [->|N]; cbn [negb dget]; rewrite ?IH.
  - destruct (String.eqb_spec k i); reflexivity.
  - destruct (String.eqb_spec k i) as [->|]; [|reflexivity]. destruct (String.eqb_spec i j); [congruence|reflexivity].
Qed.

Lemma params_read w : exists p, get_params w = Ok p /\ dget "is_fitted_" p = None /\ forall k, k <> "is_fitted_" -> dget k p = dget k w.
Proof.
  exists (ddel "is_fitted_" w). split; [apply getstate_wrapper|]. split; [rewrite dget_ddel; reflexivity|].
  intros k N. rewrite dget_ddel. destruct (String.eqb_spec k "is_fitted_"); [contradiction|reflexivity].
Qed.

Lemma params_set ps w a n : NoDup (map fst ps) -> dget "algorithm" w = Some (OInst CAlgorithm a) ->
  dget "_executor_type" a <> None -> dget "max_workers" a <> None ->
  exists w' a', set_params ps w n = (Ok w', S n) /\ dget "algorithm" w' = Some (OInst CAlgorithm a') /\
    (forall k, k <> "algorithm" -> dget k w' = dget k w) /\
    (forall k, k <> "executor" -> dget k a' = match dget k ps with Some v => Some v | None => dget k a end) /\
    exists t b wk, dget "executor" a' = Some (OExec b wk n) /\ dget "_executor_type" a' = Some t /\ threads t b /\ dget "max_workers" a' = Some wk.
Proof.
  intros ND Ha Ht Hw. unfold set_params. rewrite Ha. unfold setstate, bind, get, lift, put, ret, make_executor.
  rewrite !dget_dupdate by exact ND.
  set (T := match dget "_executor_type" ps with Some v => Some v | None => dget "_executor_type" a end).
  set (W := match dget "max_workers" ps with Some v => Some v | None => dget "max_workers" a end).
  assert (exists t, T = Some t) as (t & ET) by (unfold T; destruct (dget "_executor_type" ps), (dget "_executor_type" a); eauto; congruence).
  assert (exists v, W = Some v) as (v & EW) by (unfold W; destruct (dget "max_workers" ps), (dget "max_workers" a); eauto; congruence).
  rewrite ET, EW. eexists _, _. split; [reflexivity|]. split; [rewrite dget_dset; reflexivity|]. split; [|split].
  - intros k N. rewrite dget_dset. destruct (String.eqb_spec k "algorithm"); [contradiction|reflexivity].
  - intros k N. rewrite dget_dset. destruct (String.eqb_spec k "executor"); [contradiction|]. apply dget_dupdate. exact ND.
  - exists t, (is_thread t), v. rewrite !dget_dset. split; [reflexivity|]. cbn [String.eqb Ascii.eqb Bool.eqb]. rewrite !dget_dupdate by exact ND. split; [exact ET|]. split; [apply thread_spec|exact EW].
Qed.

(** A clone: a new wrapper around a copy of the algorithm, not fitted. *)
Lemma wrapper_cloned w a n : ddel "is_fitted_" w = [("algorithm", a)] -> proper a -> savable true a ->
  exists a' m, clone_wrapper w n = (Ok [("algorithm", a')], m) /\ restored n m a a' /\ is_fitted [("algorithm", a')] = false.
Proof.
  intros Hw P S. destruct (savable_copies true a P S) as (s & D & L). destruct (L n) as (a' & m & E & _ & R).
  exists a', m. split; [|split; [exact R|reflexivity]]. unfold clone_wrapper, get_params. rewrite getstate_wrapper, Hw.
  unfold bind, lift. cbn [mapM snd fst]. unfold bind, deepcopy, copy, lift, bind. rewrite D, E. reflexivity.
Qed.

Lemma wrapper_not_cloned w a n : dget "algorithm" w = Some a -> ~ savable true a -> is_ok (fst (clone_wrapper w n)) = false.
Proof.
  intros Ha N. unfold clone_wrapper, get_params. rewrite getstate_wrapper. unfold bind at 1, lift at 1.
  assert (I : In ("algorithm", a) (ddel "is_fitted_" w)).
  { apply dget_in. rewrite dget_ddel. exact Ha. }
  assert (F : forall l k, In ("algorithm", a) l -> is_ok (fst (mapM (fun p : string * obj => v <- deepcopy (snd p) ;; ret (fst p, v)) l k)) = false).
  { induction l as [|[j o] l IH]; intros k In0; [destruct In0|]. cbn [mapM]. destruct In0 as [E|In'].
    - injection E as -> ->. cbn [snd fst]. pose proof (not_savable_copy true a k N) as X. unfold deepcopy, bind in *.
      destruct (copy true a k) as [[o'|e] m]; [discriminate|reflexivity].
    - unfold bind at 1 2. cbn [snd fst]. destruct (deepcopy o k) as [[o'|e] m]; [|reflexivity]. unfold ret at 1.
      specialize (IH m In'). unfold bind. destruct (mapM _ l m) as [[r|e] m']; [discriminate|reflexivity]. }
  specialize (F _ n I). unfold bind. destruct (mapM _ _ n) as [[r|e] m]; [discriminate|reflexivity].
Qed.

(** A wrapper read back is not fitted. *)
Lemma wrapper_saved_unfitted b w n o m : (forall k, In k (map fst w) -> k = "algorithm" \/ k = "is_fitted_") ->
  copy b (OInst CWrapper w) n = (Ok o, m) -> exists w', o = OInst CWrapper w' /\ is_fitted w' = false.
Proof.
  intros K E. destruct (copy_ok b _ n o m E) as (s & D & L). rewrite dump_inst in D. cbn [state_action rbind] in D.
  destruct (dump_fields b _ w) as [sl|] eqn:F; [|discriminate]. injection D as <-. rewrite load_inst in L. mb L as r n1 E1.
  unfold setstate in L. unfold bind, ret in L. inv L. eexists. split; [reflexivity|]. unfold is_fitted.
  destruct (existsb _ (dupdate r [])) eqn:X; [|reflexivity]. apply existsb_exists in X. destruct X as ([k v] & I & Y). exfalso.
  apply (in_map fst) in I. apply dupdate_keys in I. destruct I as [I|[]]. cbn [fst] in *.
  rewrite (load_fields_keys _ _ _ _ E1), (dump_fields_keys _ _ _ _ F) in I. apply filter_In in I. destruct I as (I & Z).
  destruct (K k I) as [->| ->]; [vm_compute in Y; discriminate|]. cbn in Z. discriminate.
Qed.

(** A decision procedure for [proper], for the examples. *)
Fixpoint nodupb (l : list string) : bool :=
  match l with [] => true | k :: l' => negb (existsb (String.eqb k) l') && nodupb l' end.
Fixpoint properb (o : obj) : bool :=
  match o with
  | OList l => forallb properb l
  | OInst _ d => nodupb (map fst d) && forallb (fun p => properb (snd p)) d
  | _ => true
  end.
Lemma nodupb_sound l : nodupb l = true -> NoDup l.
Proof.
  induction l as [|k l IH]; cbn; intros H; constructor; apply andb_true_iff in H; destruct H as (A & B); auto.
  intros I. apply negb_true_iff in A. assert (X : existsb (String.eqb k) l = true) by (apply existsb_exists; exists k; split; [exact I|apply String.eqb_refl]). congruence.
Qed.
Lemma properb_sound : forall o, properb o = true -> proper o.
Proof.
  induction o as [a|l k|t w s|l IH|c d IH] using obj_ind'; cbn; intros H; try constructor.
  - rewrite forallb_forall in H. rewrite Forall_forall in IH. auto.
  - apply andb_true_iff in H. apply nodupb_sound. apply H.
  - apply andb_true_iff in H. destruct H as (_ & H). rewrite forallb_forall in H. rewrite Forall_forall in IH.
    intros k o I. apply (IH (k, o) I). apply (H (k, o) I).
Qed.

(** ** The mark of fitting *)

Lemma ends_underscore k : ends_with_underscore k = true <-> exists s, k = (s ++ "_")%string.
Proof.
  unfold ends_with_underscore. rewrite String.eqb_eq. induction k as [|c k IH].
  - split; [discriminate|]. intros [[|d s] H]; discriminate.
  - destruct k as [|d k].
    + split.
      * intros H. cbn in H. injection H as ->. exists ""%string. reflexivity.
      * intros [[|e s] H]; cbn in H; injection H; intros; subst; [reflexivity|destruct s; discriminate].
    + cbn [String.length Nat.sub] in *. rewrite Nat.sub_0_r in IH. cbn [String.substring]. rewrite IH. split; intros [s H].
      * exists (String c s). rewrite H. reflexivity.
      * destruct s as [|e s]; cbn in H; injection H; intros E1 E2; [discriminate|]. exists s. exact E1.
Qed.
Lemma begins_two k : begins_with_two k = true <-> exists s, k = ("__" ++ s)%string.
Proof.
  unfold begins_with_two. split.
  - intros H. apply String.prefix_correct in H. destruct k as [|a [|b k]]; cbn in H; try discriminate.
    injection H. intros. subst. exists k. reflexivity.
  - intros [s ->]. destruct s; reflexivity.
Qed.
Lemma fitted_mark w : is_fitted w = true <-> exists k v s, In (k, v) w /\ k = (s ++ "_")%string /\ forall t, k <> ("__" ++ t)%string.
Proof.
  unfold is_fitted. rewrite existsb_exists. split.
  - intros ([k v] & Hin & H). cbn [fst] in H. apply andb_prop in H. destruct H as [H1 H2]. apply ends_underscore in H1. destruct H1 as [s Hs].
    exists k, v, s. split; [exact Hin|]. split; [exact Hs|]. intros t Ht. assert (begins_with_two k = true) by (apply begins_two; eauto).
    rewrite H in H2. discriminate.
  - intros (k & v & s & Hin & Hs & Ht). exists (k, v). split; [exact Hin|]. cbn [fst]. apply andb_true_intro. split; [apply ends_underscore; eauto|].
    destruct (begins_with_two k) eqn:E; [|reflexivity]. apply begins_two in E. destruct E as [t E]. destruct (Ht t E).
Qed.

(** Fitting marks the wrapper as fitted, replaces the algorithm by what [evolve] made of it and leaves the rest. *)
Lemma wrapper_fitted evolve w w' : fit_wrapper evolve w = Ok w' <->
  exists a a', dget "algorithm" w = Some (OInst CAlgorithm a) /\ evolve a = Ok a' /\
    w' = dset "is_fitted_" (OAtom (ABool true)) (dset "algorithm" (OInst CAlgorithm a') w).
Proof.
  unfold fit_wrapper. split.
  - destruct (dget "algorithm" w) as [[| | | |[] a]|]; try discriminate. destruct (evolve a) as [a'|] eqn:E; [|discriminate]. cbn. intros [= <-]. eauto 6.
  - intros (a & a' & -> & -> & ->). reflexivity.
Qed.

Lemma wrapper_fit evolve w w' : fit_wrapper evolve w = Ok w' ->
  exists a a', dget "algorithm" w = Some (OInst CAlgorithm a) /\ evolve a = Ok a' /\ dget "algorithm" w' = Some (OInst CAlgorithm a') /\
    dget "is_fitted_" w' = Some (OAtom (ABool true)) /\ is_fitted w' = true /\
    forall k, k <> "algorithm" -> k <> "is_fitted_" -> dget k w' = dget k w.
Proof.
  rewrite wrapper_fitted. intros (a & a' & H1 & H2 & ->). exists a, a'. rewrite !dget_dset. repeat split; auto.
  - apply fitted_mark. exists "is_fitted_", (OAtom (ABool true)), "is_fitted". split; [apply dget_in; rewrite dget_dset; reflexivity|]. split; [reflexivity|]. intros t. discriminate.
  - intros k N1 N2. rewrite !dget_dset. destruct (String.eqb_spec k "is_fitted_"); [contradiction|]. destruct (String.eqb_spec k "algorithm"); [contradiction|reflexivity].
Qed.

Lemma wrapper_fit_raises evolve w a e : dget "algorithm" w = Some (OInst CAlgorithm a) -> evolve a = Raise e -> fit_wrapper evolve w = Raise e.
Proof. intros H1 H2. unfold fit_wrapper. rewrite H1, H2. reflexivity. Qed.
