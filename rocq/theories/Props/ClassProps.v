(** Properties of classification: C54. *)
From Coq Require Import QArith Lqa.
From Verif.Model Require Import Classifier.
From Verif.Spec Require Import TreeSpec ClassSpec.
From Verif.Proofs Require Import ClassP.
From Verif.Model Require Import Classifier.
Open Scope nat_scope.

(** ** C54 *)

(** The class is always one of 0, ..., n-1, whatever the score. *)
Theorem C54_range : forall sg n x, sigmoid_like sg -> 0 < n -> classify sg n x < n.
Proof. exact classify_range. Qed.
Print Assumptions C54_range.

(** Class k is chosen for the sigmoids from k/n up to, but not including, (k+1)/n; the last class includes 1. *)
Theorem C54_quantiles : forall sg n x q k, sigmoid_like sg -> is_nan x = false -> sg x = Fin q -> 0 < n ->
  classify sg n x = k <->
  k < n /\ ((Z.of_nat k # Pos.of_nat n) <= q)%Q /\ (S k < n -> (q < Z.of_nat (S k) # Pos.of_nat n)%Q).
Proof. exact classify_quantiles. Qed.
Print Assumptions C54_quantiles.

Theorem C54_monotone : forall sg n x y, sigmoid_like sg -> is_nan x = false -> is_nan y = false -> nlt y x = false ->
  classify sg n x <= classify sg n y.
Proof. exact classify_monotone. Qed.
Print Assumptions C54_monotone.

(** A score that is not a number is put into the last class, as if it were the highest. *)
Theorem C54_nan : forall sg n, sigmoid_like sg -> classify sg n NaN = n - 1.
Proof. exact classify_nan. Qed.
Print Assumptions C54_nan.

(** The prediction of a fitted classifier has one class for each row: the class of the value of the best tree. *)
Theorem C54_predict : forall sg fsem fs const unsp s es c n t rt X, sigmoid_like sg ->
  k_fitted s = true -> k_evals s = c :: es -> c_method c = Sigmoid -> c_classes c = n -> 0 < n -> k_best s = Some t ->
  saturated rt -> flatten rt = t_nodes t -> map fst (t_tset t) = create_terminal_set X ->
  a_cols X <> [] -> a_float X = true -> (forall col, In col (a_cols X) -> length col = a_rows X) ->
  elementwise t (a_rows X) fsem fs ->
  exists l, fst (predict sg fsem (fun v => Scalar (const v)) unsp X s) = Ok (map nof_nat l) /\ length l = a_rows X /\
    forall r, r < a_rows X -> exists x k, nth_error l r = Some k /\ k < n /\ k = classify sg n x /\
      eval num (fun f xs => Ok (fs f xs)) const (row_env X r) rt = Ok x.
Proof. exact predict_rows. Qed.
Print Assumptions C54_predict.

(** A prediction does not change later predictions ... *)
Theorem C54_predict_again : forall sg fsem const unsp X1 X2 s,
  let s1 := snd (predict sg fsem const unsp X1 s) in
  predict sg fsem const unsp X2 s1 = predict sg fsem const unsp X2 s.
Proof. exact predict_again. Qed.
Print Assumptions C54_predict_again.

(** ... but the evaluator of the first subpopulation is left with the new samples and without target values: evaluating
    the best individual again compares the prediction with [None]. *)
Theorem C54_predict_forgets : forall sg fsem const unsp X s c es t, k_fitted s = true -> k_evals s = c :: es -> k_best s = Some t ->
  exists c', k_evals (snd (predict sg fsem const unsp X s)) = c' :: es /\ c_X c' = Some X /\ c_y c' = None /\
    c_method c' = c_method c /\ c_classes c' = c_classes c /\
    forall metric, clf_evaluate sg fsem const unsp metric t c' = rbind (fst (predict sg fsem const unsp X s)) (metric None).
Proof. exact predict_forgets. Qed.
Print Assumptions C54_predict_forgets.

(** The methods argmax and softmax return the value of the tree itself, and only if the root function is named after
    the method. *)
Theorem C54_root_method : forall sg fsem const unsp n m t X r, classify_individual sg fsem const unsp (RootFunction m) n t X = Ok r ->
  exists f rest i, t_nodes t = FNode f :: rest /\ String.index 0 m (f_name f) = Some i /\
    (execute_array fsem const unsp t X = Ok (Column r) \/ exists x, execute_array fsem const unsp t X = Ok (Scalar x) /\ r = [x]).
Proof. exact root_method. Qed.
Print Assumptions C54_root_method.

(** The methods that can be asked for; with "argmax" and "softmax" the root function must be named so. *)
Theorem C54_methods : forall s,
  (s = "sigmoid"%string -> clf_method_of s = Ok Sigmoid) /\
  (In s ["argmax"; "softmax"]%string -> clf_method_of s = Ok (RootFunction s)) /\
  (~ In s ["sigmoid"; "argmax"; "softmax"]%string -> clf_method_of s = Raise ValueError).
Proof. exact method_names. Qed.
Print Assumptions C54_methods.

Theorem C54_unfitted : forall sg fsem const unsp X s, k_fitted s = false -> predict sg fsem const unsp X s = (Raise ValueError, s).
Proof. exact predict_unfitted. Qed.
Print Assumptions C54_unfitted.

(** With no class at all there is still an answer. *)
Theorem C54_no_class_refuted : exists n, forall sg x, sigmoid_like sg -> ~ classify sg n x < n.
Proof. exists 0. intros sg x _ H. inversion H. Qed.
Print Assumptions C54_no_class_refuted.

(** With argmax nothing bounds the answer by the number of classes: a root function named argmax2 that returns its first argument. *)
Definition soft2 : func := mkFunc 1 "argmax2" [None; None] None.
Theorem C54_argmax_range_refuted : exists fsem t X, fst (predict (fun x => x) fsem (fun _ => Scalar NaN) (fun x => x) X
    (mkSk true [mkClf (RootFunction "argmax") 2 None None] (Some t))) = Ok [Fin 7].
Proof.
  exists (fun _ l => match l with a :: _ => Ok a | _ => Raise TypeError end),
         (mkTree [soft2] [(TVar "x0", None)] None None [FNode soft2; TNode (TVar "x0") None; TNode (TVar "x0") None]), (mkArray true 1 [[Fin 7]]).
  vm_compute. reflexivity.
Qed.
Print Assumptions C54_argmax_range_refuted.

(** A sigmoid: 0 up to -1, 1 from 1, linear between. *)
Definition ramp (x : num) : num :=
  match x with
  | Fin q => if Qlt_b q (-(1)) then Fin 0 else if Qlt_b 1 q then Fin 1 else Fin ((q + 1) / 2)
  | PInf => Fin 1 | NInf => Fin 0 | NaN => NaN
  end.
Example C54_example : sigmoid_like ramp /\
  map (classify ramp 4) [NInf; Fin (-(3 # 4)); Fin (-(1 # 2)); Fin 0; Fin (1 # 2); Fin 7; NaN] = [0; 0; 1; 2; 3; 3; 3].
Proof.
  split; [|vm_compute; reflexivity]. split; [|split; [|reflexivity]].
  - intros [q| | |] H; try discriminate; cbn [ramp].
    + destruct (Qlt_b q _) eqn:A; [exists 0%Q; split; [reflexivity|lra]|]. destruct (Qlt_b 1 q) eqn:B; [exists 1%Q; split; [reflexivity|lra]|].
      apply Qlt_b_false in A, B. eexists. split; [reflexivity|]. unfold Qdiv. change (/ 2)%Q with (1 # 2)%Q. lra.
    + exists 1%Q. split; [reflexivity|lra].
    + exists 0%Q. split; [reflexivity|lra].
  - assert (Half : forall a, ((a / 2) == a * (1 # 2))%Q) by (intros; reflexivity).
    intros [a| | |] [b| | |] Ha Hb; cbn [ramp nlt]; try discriminate; intros H;
      repeat match goal with |- context [Qlt_b ?u ?v] => match u with context [if _ then _ else _] => fail 1 | _ => destruct (Qlt_b u v) eqn:? end end;
      cbn [nlt]; repeat match goal with
        | H : Qlt_b _ _ = true |- _ => apply Qlt_b_spec in H
        | H : Qlt_b _ _ = false |- _ => apply Qlt_b_false in H end;
      try reflexivity; apply Qlt_b_false || idtac; rewrite ?Half in *; try lra.
Qed.

(** x0 + x1, two classes, fitted. *)
Definition plus_fn : func := mkFunc 1 "f_add" [None; None] None.
Example C54_predict_example :
  let plus := fun _ l => match l with [Column a; Column b] => Ok (Column (map (fun p => nadd (fst p) (snd p)) (combine a b))) | _ => Raise TypeError end in
  let t := mkTree [plus_fn] [(TVar "x0", None); (TVar "x1", None)] None None
             [FNode plus_fn; TNode (TVar "x0") None; TNode (TVar "x1") None] in
  let X := mkArray true 3 [[Fin 1; Fin (-(1)); Fin (-(5))]; [Fin 1; Fin 1; Fin 2]] in
  let s := mkSk false [mkClf Sigmoid 2 None None] None in
  let s1 := snd (fit (fun _ => Ok t) X [Fin 1; Fin 1; Fin 0] s) in
  let p := predict ramp plus (fun _ => Scalar NaN) (fun x => x) X in
  fst (p s) = Raise ValueError /\ fst (p s1) = Ok [Fin 1; Fin 1; Fin 0].
Proof. vm_compute. split; reflexivity. Qed.
