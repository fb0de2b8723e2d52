(** Properties of the functions offered for program trees: C55, C56, C70. *)
From Coq Require Import QArith Qabs Lqa.
From Verif.Model Require Import BaseFns.
From Verif.Spec Require Import TreeSpec BaseSpec.
From Verif.Proofs Require Import BaseP BaseValueP.
From Verif.Model Require Import BaseFns.
Open Scope nat_scope.

(** ** C55 *)

(** Division of finite numbers: 0 if the denominator is at most 0.001, else the quotient; bounded by 1000 times the
    numerator. *)
Theorem C55_division : forall a b x y, el_num a = Fin x -> el_num b = Fin y ->
  exists q, f_div a b = Ok (EFloat (Fin q)) /\ ((Qabs y <= c0001)%Q -> (q == 0)%Q) /\ ((c0001 < Qabs y)%Q -> (q * y == x)%Q) /\
    (Qabs q * c0001 <= Qabs x)%Q.
Proof. exact division. Qed.
Print Assumptions C55_division.

Theorem C55_inverse : forall a x, el_num a = Fin x ->
  exists q, f_inv a = Ok (EFloat (Fin q)) /\ ((Qabs x <= c0001)%Q -> (q == 0)%Q) /\ ((c0001 < Qabs x)%Q -> (q * x == 1)%Q).
Proof. exact inverse. Qed.
Print Assumptions C55_inverse.

(** The root is only taken of non-negative numbers: its values elsewhere do not matter ... *)
Theorem C55_root_domain : forall s1 s2 a, is_nan (el_num a) = false ->
  (forall v, is_nan v = false -> nlt v (Fin 0) = false -> s1 v = s2 v) -> f_sqrt s1 a = f_sqrt s2 a.
Proof. exact sqrt_domain. Qed.
Print Assumptions C55_root_domain.

(** ... and the logarithm only counts above 0.001. *)
Theorem C55_log_domain : forall l1 l2 a, (forall v, nlt (Fin c0001) v = true -> l1 v = l2 v) -> f_log l1 a = f_log l2 a.
Proof. exact log_domain. Qed.
Print Assumptions C55_log_domain.

Theorem C55_log_default : forall l a x, el_num a = Fin x -> (Qabs x <= c0001)%Q -> f_log l a = Ok (EFloat (Fin 0)).
Proof. exact log_default. Qed.
Print Assumptions C55_log_default.

Theorem C55_log_value : forall l a x, el_num a = Fin x -> (c0001 < Qabs x)%Q -> f_log l a = Ok (EFloat (l (Fin (Qabs x)))).
Proof. exact log_value. Qed.
Print Assumptions C55_log_value.

(** Every tree of numeric functions, executed on finite numbers, gives a finite number. *)
Theorem C55_finite_trees : forall us ul usin ucos utan t rt kw, finite_functions us ul usin ucos utan ->
  saturated rt -> flatten rt = t_nodes t -> exact_arguments t kw ->
  (forall f, In (FNode f) (t_nodes t) -> In (f_name f, arity f) numeric) ->
  (forall s a, In (TNode (TVar s) a) (t_nodes t) -> In (TVar s) (map fst (t_tset t))) ->
  finite_constants t -> Forall (fun e => number (snd e)) kw ->
  exists v, execute el (base_sem us ul usin ucos utan) el_const t kw = Ok v /\ number v.
Proof. exact finite_trees. Qed.
Print Assumptions C55_finite_trees.

(** NaN is not always passed on: it counts as a small denominator. *)
Theorem C55_nan_passed_on_refuted : exists nan : el, el_num nan = NaN /\ (forall a, f_div a nan = Ok (EFloat (Fin 0))) /\
  f_inv nan = Ok (EFloat (Fin 0)) /\ (forall l, f_log l nan = Ok (EFloat (Fin 0))) /\ (forall x, np_add2 (EFloat x) nan = Ok nan).
Proof. exists (EFloat NaN). repeat split. intros x. destruct x; reflexivity. Qed.
Print Assumptions C55_nan_passed_on_refuted.

(** div(x, sub(x, 3)) at x = 2 and x = 3. *)
Definition un_fn (name : string) (n : nat) : func := mkFunc 0 name (repeat None n) None.
Definition vx : node := TNode (TVar "x") None.
Definition three : node := TNode (TNum true (Fin 3) 1) None.
Definition rose : rtree :=
  Rose (FNode (un_fn "f_div" 2)) [Rose vx []; Rose (FNode (un_fn "f_sub" 2)) [Rose vx []; Rose three []]].
Definition tree_div : tree := mkTree [un_fn "f_div" 2; un_fn "f_sub" 2] [(TVar "x", None)] None None (flatten rose).
Definition u0 (x : num) : num := x.

Example C55_example :
  finite_functions u0 u0 u0 u0 u0 /\ saturated rose /\ flatten rose = t_nodes tree_div /\
  exact_arguments tree_div [("x"%string, EInt 2)] /\ finite_constants tree_div /\
  (forall f, In (FNode f) (t_nodes tree_div) -> In (f_name f, arity f) numeric) /\
  execute el (base_sem u0 u0 u0 u0 u0) el_const tree_div [("x"%string, EInt 2)] = Ok (EFloat (Fin (2 / (2 + - 3)))) /\
  execute el (base_sem u0 u0 u0 u0 u0) el_const tree_div [("x"%string, EInt 3)] = Ok (EFloat (Fin 0)).
Proof.
  split; [constructor; intros; eexists; reflexivity|]. split; [cbn; repeat split|]. split; [reflexivity|].
  split; [split; cbn; [intros s [<-|[]]; auto|intros v [<-|[]]; exists "x"%string; auto]|].
  split; [intros b x tag a H; cbn in H; repeat (destruct H as [H|H]; [first [discriminate|injection H; intros; subst; reflexivity]|]); contradiction|].
  split; [intros f H; cbn in H; repeat (destruct H as [H|H]; [first [discriminate|injection H as <-; cbn; tauto]|]); contradiction|].
  split; vm_compute; reflexivity.
Qed.

(** ** C56 *)

(** On 0 and 1 the untyped logical functions are the Boolean ones ... *)
Theorem C56_truth_tables : forall x y,
  f_and (EInt (b2z x)) (EInt (b2z y)) = Ok (EInt (b2z (x && y))) /\
  f_or (EInt (b2z x)) (EInt (b2z y)) = Ok (EInt (b2z (x || y))) /\
  f_not (EInt (b2z x)) = Ok (EInt (b2z (negb x))).
Proof. exact logic_bits. Qed.
Print Assumptions C56_truth_tables.

Theorem C56_if_then_else : forall t z w, f_if_then_else (EInt (b2z t)) (EInt z) (EInt w) = Ok (EInt (if t then z else w)).
Proof. exact ite_bits. Qed.
Print Assumptions C56_if_then_else.

(** ... but on other integers "and" and "or" are bitwise and "not" is not, so that de Morgan's law fails; on floats the
    first two raise TypeError. *)
Theorem C56_de_morgan_refuted : exists x y a na nx ny o,
  f_and x y = Ok a /\ f_not a = Ok na /\ f_not x = Ok nx /\ f_not y = Ok ny /\ f_or nx ny = Ok o /\ truthy na = true /\ truthy o = false /\
  truthy x = true /\ truthy y = true.
Proof. exists (EInt 1), (EInt 2). do 5 eexists. repeat split. Qed.
Print Assumptions C56_de_morgan_refuted.

Theorem C56_floats_rejected : forall x y, f_and (EFloat x) y = Raise TypeError /\ f_or (EFloat x) y = Raise TypeError.
Proof. intros x y. destruct y; split; reflexivity. Qed.
Print Assumptions C56_floats_rejected.

(** The typed functions obey de Morgan's law for all arguments. *)
Theorem C56_typed_de_morgan : forall x y a na nx ny o,
  and2 x y = Ok a -> f_not a = Ok na -> f_not x = Ok nx -> f_not y = Ok ny -> or2 nx ny = Ok o -> truthy na = truthy o.
Proof. exact typed_de_morgan. Qed.
Print Assumptions C56_typed_de_morgan.

(** They do not return what is annotated: a well-typed tree of typed functions can raise TypeError on every input. *)
Definition and2floats : func := mkFunc 1 "and2floats" [Some TyFloat; Some TyFloat] (Some TyFloat).
Definition neg_float : func := mkFunc 2 "neg_float" [Some TyFloat] (Some TyFloat).
Definition fx : node := TNode (TVar "x") (Some TyFloat).
Definition rose_logic : rtree := Rose (FNode neg_float) [Rose (FNode and2floats) [Rose fx []; Rose fx []]].

Theorem C56_typed_trees_run_refuted : exists t rt, saturated rt /\ well_typed rt /\ flatten rt = t_nodes t /\
  forall us ul usin ucos utan x, execute el (base_sem us ul usin ucos utan) el_const t [("x"%string, EFloat x)] = Raise TypeError.
Proof.
  exists (mkTree [and2floats; neg_float] [(TVar "x", Some TyFloat)] None (Some TyFloat) (flatten rose_logic)), rose_logic.
  split; [cbn; repeat split|]. split.
  { cbn. repeat split; try (left; intros o H; cbn in H; intuition congruence). }
  split; [reflexivity|]. intros. reflexivity.
Qed.
Print Assumptions C56_typed_trees_run_refuted.

(** The comparisons are complementary unless NaN is involved. *)
Theorem C56_lte_gt : forall x y z w, is_nan (el_num x) = false -> is_nan (el_num y) = false ->
  f_iflte x y z w = f_ifgt x y w z.
Proof. exact lte_gt. Qed.
Print Assumptions C56_lte_gt.

Theorem C56_lte0_gt0 : forall x z w, is_nan (el_num x) = false -> f_iflte0 x z w = f_ifgt0 x w z.
Proof. exact lte0_gt0. Qed.
Print Assumptions C56_lte0_gt0.

Theorem C56_nan_complementary_refuted : exists x y z w, f_iflte x y z w <> f_ifgt x y w z.
Proof. exists (EFloat NaN), (EInt 0), (EInt 1), (EInt 2). vm_compute. discriminate. Qed.
Print Assumptions C56_nan_complementary_refuted.

Example C56_example :
  f_iflte (EInt 1) (EFloat (Fin 2)) (EInt 7) (EInt 8) = Ok (EInt 7) /\ f_ifgt (EInt 1) (EFloat (Fin 2)) (EInt 7) (EFloat (Fin 8)) = Ok (EFloat (Fin 8)) /\
  (exists a na nx ny o, and2 (EInt 1) (EInt 2) = Ok a /\ f_not a = Ok na /\ f_not (EInt 1) = Ok nx /\ f_not (EInt 2) = Ok ny /\ or2 nx ny = Ok o).
Proof. split; [reflexivity|]. split; [reflexivity|]. do 5 eexists. repeat split. Qed.

(** ** C70 *)

(** On finite numbers each function of the table computes the operation it is named after. *)
Theorem C70_functions : forall us ul usin ucos utan f args xs n g, meaning (f_name f) = Some (n, g) -> length args = n ->
  Forall2 is_number args xs -> exists v, base_sem us ul usin ucos utan f args = Ok v /\ is_number v (g xs).
Proof. exact meaning_ok. Qed.
Print Assumptions C70_functions.

(** So executing a tree of them computes the value of the expression. *)
Theorem C70_trees : forall us ul usin ucos utan t rt kw env,
  saturated rt -> flatten rt = t_nodes t -> exact_arguments t kw ->
  (forall f, In (FNode f) (t_nodes t) -> exists g, meaning (f_name f) = Some (arity f, g)) ->
  (forall s a, In (TNode (TVar s) a) (t_nodes t) -> In (TVar s) (map fst (t_tset t))) ->
  finite_constants t -> (forall s v, argument kw s = Some v -> is_number v (env s)) ->
  exists v, execute el (base_sem us ul usin ucos utan) el_const t kw = Ok v /\ is_number v (worth env rt).
Proof. exact trees_worth. Qed.
Print Assumptions C70_trees.

(** Integers stay integers. *)
Theorem C70_integers : forall us ul usin ucos utan f z z',
  (In (f_name f) ["f_add"; "f_sub"; "f_mul"; "f_max"; "f_min"]%string -> exists r, base_sem us ul usin ucos utan f [EInt z; EInt z'] = Ok (EInt r)) /\
  (In (f_name f) ["f_abs"; "f_neg"; "f_not"]%string -> exists r, base_sem us ul usin ucos utan f [EInt z] = Ok (EInt r)).
Proof. exact integers_stay. Qed.
Print Assumptions C70_integers.

(** For argmax, NaN is the largest; of two, the first. *)
Theorem C70_argmax_nan : forall x y, is_nan x = true \/ is_nan y = true ->
  argmax2floats (EFloat x) (EFloat y) = Ok (EInt (if is_nan x then 0 else 1)).
Proof. exact argmax_nan. Qed.
Print Assumptions C70_argmax_nan.

(** On Booleans the functions are the connectives; negating and subtracting them raises TypeError. *)
Theorem C70_booleans : forall us ul usin ucos utan f bs n g, boolean_meaning (f_name f) = Some (n, g) -> length bs = n ->
  base_sem us ul usin ucos utan f (map EBool bs) = match g bs with Some b => Ok (EBool b) | None => Raise TypeError end.
Proof. exact booleans. Qed.
Print Assumptions C70_booleans.

(** Beside a number, and for functions with a numeric result, a Boolean counts as 0 or 1. *)
Theorem C70_booleans_mixed : forall us ul usin ucos utan f args, In (f_name f) mixing -> Exists not_boolean args ->
  base_sem us ul usin ucos utan f args = base_sem us ul usin ucos utan f (map as_number args).
Proof. exact booleans_mixed. Qed.
Print Assumptions C70_booleans_mixed.

Theorem C70_booleans_count : forall us ul usin ucos utan f args, In (f_name f) counting ->
  base_sem us ul usin ucos utan f args = base_sem us ul usin ucos utan f (map as_number args).
Proof. exact booleans_count. Qed.
Print Assumptions C70_booleans_count.

(** With a wrong number of arguments every function raises TypeError. *)
Theorem C70_arguments : forall us ul usin ucos utan f n args, In (f_name f, n) offered -> length args <> n ->
  base_sem us ul usin ucos utan f args = Raise TypeError.
Proof. exact wrong_arguments. Qed.
Print Assumptions C70_arguments.

(** Infinities follow the rules of the floating-point standard; the protected division does not reach them by itself. *)
Theorem C70_infinite : forall up a x, is_number a x ->
  (forall s, In s ["f_add"; "add2floats"]%string ->
     computes s [inf up; a] (inf up) /\ computes s [a; inf up] (inf up) /\ computes s [inf up; inf up] (inf up) /\ computes s [inf up; inf (negb up)] nan) /\
  (forall s, In s ["f_sub"; "sub2floats"]%string ->
     computes s [inf up; a] (inf up) /\ computes s [a; inf up] (inf (negb up)) /\ computes s [inf up; inf up] nan /\ computes s [inf up; inf (negb up)] (inf up)) /\
  (forall s, In s ["f_mul"; "mul2floats"]%string ->
     let r := if Qeq_bool x 0 then nan else inf (Bool.eqb up (above_zero x)) in
     computes s [inf up; a] r /\ computes s [a; inf up] r /\ computes s [inf up; inf up] (inf true) /\ computes s [inf up; inf (negb up)] (inf false)) /\
  (forall s, In s ["f_div"; "div2floats"]%string ->
     computes s [inf up; a] (if Qle_bool (Qabs x) c0001 then EFloat (Fin 0) else inf (Bool.eqb up (above_zero x))) /\
     computes s [a; inf up] (EFloat (Fin 0)) /\ computes s [inf up; inf up] nan /\ computes s [inf up; inf (negb up)] nan) /\
  (forall s, In s ["f_inv"; "inv_float"]%string -> computes s [inf up] (EFloat (Fin 0))) /\
  (forall s, In s ["f_abs"; "abs_float"]%string -> computes s [inf up] (inf true)) /\
  (forall s, In s ["f_neg"; "neg_float"]%string -> computes s [inf up] (inf (negb up))) /\
  (forall s, In s ["f_max"; "max2floats"]%string ->
     computes s [inf true; a] (inf true) /\ computes s [a; inf true] (inf true) /\ computes s [inf up; inf (negb up)] (inf true) /\
     exists v, is_number v x /\ computes s [inf false; a] v /\ computes s [a; inf false] v) /\
  (forall s, In s ["f_min"; "min2floats"]%string ->
     computes s [inf false; a] (inf false) /\ computes s [a; inf false] (inf false) /\ computes s [inf up; inf (negb up)] (inf false) /\
     exists v, is_number v x /\ computes s [inf true; a] v /\ computes s [a; inf true] v).
Proof. exact infinite_values. Qed.
Print Assumptions C70_infinite.

(** NaN is passed on by these functions (by the protected ones it is not, see C55). *)
Theorem C70_nan : forall b, (forall c, b <> EBool c) ->
  forall s, In s ["f_add"; "add2floats"; "f_sub"; "sub2floats"; "f_mul"; "mul2floats"; "f_max"; "max2floats"; "f_min"; "min2floats"]%string ->
  computes s [nan; b] nan /\ computes s [b; nan] nan.
Proof. exact nan_passed_on. Qed.
Print Assumptions C70_nan.

Example C70_special_example :
  computes "f_mul" [inf true; EInt (-2)] (inf false) /\ computes "f_div" [inf false; EFloat (Fin (1 # 2))] (inf false) /\
  computes "f_div" [inf true; EFloat (Fin (1 # 5000))] (EFloat (Fin 0)) /\
  base_sem u0 u0 u0 u0 u0 (un_fn "f_iflte" 4) [EInt 1; EInt 2; EInt 3] = Raise TypeError.
Proof.
  destruct (C70_infinite true (EInt (-2)) (-2)) as (_ & _ & M & _); [split; [exact I|exists (-2 # 1); split; reflexivity]|].
  destruct (C70_infinite false (EFloat (Fin (1 # 2))) (1 # 2)) as (_ & _ & _ & D & _); [split; [exact I|exists (1 # 2); split; reflexivity]|].
  destruct (C70_infinite true (EFloat (Fin (1 # 5000))) (1 # 5000)) as (_ & _ & _ & E & _); [split; [exact I|exists (1 # 5000); split; reflexivity]|].
  split; [exact (proj1 (M _ (or_introl eq_refl)))|]. split; [exact (proj1 (D _ (or_introl eq_refl)))|]. split; [exact (proj1 (E _ (or_introl eq_refl)))|].
  eapply (C70_arguments _ _ _ _ _ _ 4); [cbn; tauto|discriminate].
Qed.

Example C70_booleans_example :
  boolean_meaning "f_mul" = Some (2, fun l => Some (bit l 0 && bit l 1)%bool) /\
  base_sem u0 u0 u0 u0 u0 (un_fn "f_mul" 2) [EBool true; EBool false] = Ok (EBool false) /\
  base_sem u0 u0 u0 u0 u0 (un_fn "f_mul" 2) [EBool true; EInt 5] = Ok (EInt 5) /\
  base_sem u0 u0 u0 u0 u0 (un_fn "f_inv" 1) [EBool true] = Ok (EFloat (Fin 1)) /\
  Exists not_boolean [EBool true; EInt 5].
Proof. do 4 (split; [reflexivity|]). right. left. discriminate. Qed.

(** iflte(x, 3, f_max(x, 1), f_neg(x)) at x = 1/2, with the value 1; argmax of equal values is 0. *)
Definition fneg_x : rtree := Rose (FNode (un_fn "f_neg" 1)) [Rose vx []].
Definition rose_lte : rtree :=
  Rose (FNode (un_fn "f_iflte" 4)) [Rose vx []; Rose three []; Rose (FNode (un_fn "f_max" 2)) [Rose vx []; Rose (TNode (TNum false (Fin 1) 2) None) []]; fneg_x].
Definition tree_lte : tree := mkTree [un_fn "f_iflte" 4; un_fn "f_max" 2; un_fn "f_neg" 1] [(TVar "x", None)] None None (flatten rose_lte).

Example C70_example :
  saturated rose_lte /\ flatten rose_lte = t_nodes tree_lte /\ exact_arguments tree_lte [("x"%string, EFloat (Fin (1 # 2)))] /\ finite_constants tree_lte /\
  (forall f, In (FNode f) (t_nodes tree_lte) -> exists g, meaning (f_name f) = Some (arity f, g)) /\
  worth (fun _ => 1 # 2) rose_lte = 1%Q /\
  execute el (base_sem u0 u0 u0 u0 u0) el_const tree_lte [("x"%string, EFloat (Fin (1 # 2)))] = Ok (EFloat (Fin 1)) /\
  argmax2floats (EInt 2) (EFloat (Fin (4 # 2))) = Ok (EInt 0).
Proof.
  split; [cbn; repeat split|]. split; [reflexivity|].
  split; [split; cbn; [intros s [<-|[]]; auto|intros v [<-|[]]; exists "x"%string; auto]|].
  split; [intros b x tag a H; cbn in H; repeat (destruct H as [H|H]; [first [discriminate|injection H; intros; subst; reflexivity]|]); contradiction|].
  split; [intros f H; cbn in H; repeat (destruct H as [H|H]; [first [discriminate|injection H as <-; eexists; reflexivity]|]); contradiction|].
  vm_compute. repeat split.
Qed.
