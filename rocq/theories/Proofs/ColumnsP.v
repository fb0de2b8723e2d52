(** * Program trees over the columns of a table. *)
From Coq Require Import Lia QArith.
From Verif.Proofs Require Import TreeP CompleteTreeP ProgramP.
From Verif.Model Require Import Num Tree Creators SkClassifier.
From Verif.Spec Require Import TreeSpec CompleteSpec ShowSpec BaseSpec RegSpec.
Open Scope string_scope.
Open Scope nat_scope.
Open Scope list_scope.

(** The functions are numeric, of one type. *)
Definition suitable (typed : bool) (functions : list func) : Prop :=
  functions <> [] /\ forall f, In f functions ->
    f_ret f = float_type typed /\ f_params f <> [] /\ (forall a, In a (f_params f) -> a = float_type typed) /\ In (f_name f, arity f) numeric.

Section Columns.
  Variables (typed : bool) (functions : list func) (columns : nat) (e : option erc).
  Hypothesis Hs : suitable typed functions.
  Hypothesis Hc : 0 < columns.
  Hypothesis He : e = None \/ exists lo hi, e = Some (ErcFloat (Fin lo) (Fin hi)) /\ (lo <= hi)%Q.

  Definition column_tree : tree := mkTree functions (column_terminals typed columns) e (float_type typed) [].

  Lemma column_hinted f : In f functions -> hinted f.
  Proof.
    intros H. destruct Hs as [_ F]. destruct (F f H) as (R & _ & P & _).
    destruct typed; [left|right]; intros o Ho; apply in_app_iff in Ho as [Ho|[<-|[]]]; try (apply P in Ho as ->); try rewrite R; discriminate || reflexivity.
  Qed.

  Lemma column_requested a : requested column_tree (float_type typed) a -> a = float_type typed.
  Proof. intros [->|(f & Hf & Ha)]; [reflexivity|]. destruct Hs as [_ F]. destruct (F f Hf) as (_ & _ & P & _). auto. Qed.

  Lemma column_var k a : In (k, a) (column_terminals typed columns) -> (exists s, k = TVar s) /\ a = float_type typed.
  Proof. intros H. unfold column_terminals in H. apply in_map_iff in H as (s & [= <- <-] & _). eauto. Qed.

  Lemma column_first : In (TVar (column_name 0), float_type typed) (column_terminals typed columns).
  Proof. unfold column_terminals. apply (in_map (fun i => (TVar (column_name i), float_type typed))). apply in_seq. lia. Qed.

  Lemma column_supplied : supplied column_tree (t_root_type column_tree).
  Proof.
    split; [intros f Hf; apply column_hinted, Hf|]. split.
    - intros r E. cbn [t_erc column_tree] in E. destruct He as [E0|(lo & hi & E0 & _)]; rewrite E0 in E; [discriminate|]. injection E as <-. exact I.
    - intros a Ha. apply column_requested in Ha as ->. split.
      + cbn [t_fset column_tree]. destruct Hs as [N F]. destruct functions as [|f fs]; [congruence|]. exists f. destruct (F f) as (R & _); [left; reflexivity|]. split; [left; reflexivity|exact R].
      + left. eexists. apply column_first.
  Qed.

  Lemma column_typed : typed_terminals column_tree (t_root_type column_tree).
  Proof.
    assert (T : typed = true \/ typed = false) by (destruct typed; auto). destruct T as [T|T].
    - right. split.
      + intros k a H. apply column_var in H as ((s & ->) & ->). split; [cbn; apply String.eqb_refl|].
        intros k' b H' _. apply column_var in H' as (_ & ->). reflexivity.
      + intros r E. split.
        * intros k a H. apply column_var in H as ((s & ->) & _). reflexivity.
        * intros a Ha _. apply column_requested in Ha. rewrite T in Ha. injection Ha as ->.
          cbn [t_erc column_tree] in E. destruct He as [E0|(lo & hi & E0 & _)]; rewrite E0 in E; [discriminate|]. injection E as <-. reflexivity.
    - left. split.
      + intros a Ha. apply column_requested in Ha as ->. rewrite T. reflexivity.
      + intros k a H. apply column_var in H as (_ & ->). rewrite T. reflexivity.
  Qed.

  Lemma column_printable : printable_terminals column_tree.
  Proof.
    assert (T : typed = true \/ typed = false) by (destruct typed; auto). split.
    - intros _ k a H. apply (column_var _ _ H).
    - intros H. destruct T as [T|T]; [cbn; rewrite T; discriminate|]. elim H. exists (TVar (column_name 0)). cbn [t_tset column_tree].
      pose proof column_first as Q. replace (float_type typed) with (@None ty) in Q by (rewrite T; reflexivity). exact Q.
  Qed.

  Lemma column_constants lo hi : t_erc column_tree = Some (ErcFloat lo hi) -> exists a b, lo = Fin a /\ hi = Fin b /\ (a <= b)%Q.
  Proof. intros E. cbn [t_erc column_tree] in E. destruct He as [E0|(x & y & E0 & L)]; rewrite E0 in E; [discriminate|]. injection E as <- <-. eauto. Qed.

  Lemma column_numeric : numeric_functions (t_fset column_tree).
  Proof. intros f Hf. destruct Hs as [_ F]. apply (F f Hf). Qed.

  Definition column_gp : gp_params := mkGP 2 4 functions (column_terminals typed columns) typed e (Fin 0) (float_type typed) false (Fin (1 # 2)).

  Lemma column_args : flat_map (fun f => removelast (get_func_types f)) functions <> [] /\
    forall a, In a (flat_map (fun f => removelast (get_func_types f)) functions) -> a = float_type typed.
  Proof.
    assert (Q : forall f, In f functions -> removelast (get_func_types f) = f_params f).
    { intros f Hf. rewrite types_hinted by (apply column_hinted, Hf). apply removelast_last. }
    destruct Hs as [N F]. split.
    - destruct functions as [|f fs]; [congruence|]. cbn [flat_map]. rewrite Q by (left; reflexivity). destruct (F f) as (_ & P & _); [left; reflexivity|].
      destruct (f_params f); [congruence|discriminate].
    - intros a Ha. apply in_flat_map in Ha as (f & Hf & Ha). rewrite (Q f Hf) in Ha. apply (F f Hf). exact Ha.
  Qed.

  Lemma float_type_eq : oty_eqb (float_type typed) (float_type typed) = true.
  Proof. destruct typed; reflexivity. Qed.

  Lemma column_accepted : gp_for column_tree column_gp.
  Proof.
    split; [|repeat split]. cbn [g_fset g_terms g_typed g_erc g_root column_gp t_tset column_tree]. unfold handle_input_types.
    pose proof column_args as [A0 A]. pose proof column_hinted as H. pose proof float_type_eq as Q. pose proof column_first as F0. destruct Hs as [N F]. destruct typed eqn:T.
    - assert (existsb (fun x => match snd x with None => true | Some _ => false end) (column_terminals true columns) = false) as ->.
      { apply not_true_iff_false. intros E. apply existsb_exists in E as (x & Hx & E). unfold column_terminals in Hx. apply in_map_iff in Hx as (i & <- & _). discriminate. }
      assert (R : oty_in (Some TyFloat) (map get_return_type functions) = true).
      { destruct functions as [|f fs]; [congruence|]. cbn [map oty_in existsb]. unfold get_return_type at 1. destruct (F f) as (R & _); [left; reflexivity|]. rewrite R. reflexivity. }
      cbn [float_type]. rewrite R. cbn [negb]. assert (match e with Some r => negb (oty_in (Some (erc_type r)) (map get_return_type functions)) | None => false end = false) as ->.
      { destruct He as [->|(lo & hi & -> & _)]; [reflexivity|]. cbn [erc_type]. rewrite R. reflexivity. }
      cbn zeta. set (args := flat_map _ _) in *. set (tts := map snd (column_terminals true columns) ++ _).
      assert (T1 : forall a, In a tts -> a = Some TyFloat).
      { intros a Ha. unfold tts in Ha. apply in_app_iff in Ha as [Ha|Ha].
        - apply in_map_iff in Ha as (x & <- & Hx). unfold column_terminals in Hx. apply in_map_iff in Hx as (i & <- & _). reflexivity.
        - destruct He as [E|(lo & hi & E & _)]; rewrite E in Ha; [destruct Ha|]. destruct Ha as [<-|[]]. reflexivity. }
      assert (T2 : In (Some TyFloat) tts) by (unfold tts; apply in_app_iff; left; apply (in_map snd) in F0; exact F0).
      assert (A2 : In (Some TyFloat) args) by (destruct args as [|x args]; [congruence|]; rewrite (A x) by (left; reflexivity); left; reflexivity).
      replace (forallb (fun a => oty_in a tts) args) with true.
      2:{ symmetry. apply forallb_forall. intros a Ha. rewrite (A a Ha). apply existsb_exists. eauto. }
      replace (forallb (fun a => oty_in a args) tts) with true; [reflexivity|].
      symmetry. apply forallb_forall. intros a Ha. rewrite (T1 a Ha). apply existsb_exists. eauto.
    - assert (existsb has_hints functions = false) as ->.
      { apply not_true_iff_false. intros E. apply existsb_exists in E as (f & Hf & E). unfold has_hints in E. destruct (F f Hf) as (R & _ & P & _).
        rewrite somes_none in E; [discriminate|]. intros o Ho. apply in_app_iff in Ho as [Ho|[<-|[]]]; [apply P, Ho|exact R]. }
      unfold column_terminals. rewrite map_map. reflexivity.
  Qed.

  Lemma column_creates n : 6 <= n -> tree_creator column_tree n (CHalf 2 4 column_gp column_gp).
  Proof. intros L. split; [exact column_accepted|]. split; [exact column_accepted|]. split; lia. Qed.
End Columns.
