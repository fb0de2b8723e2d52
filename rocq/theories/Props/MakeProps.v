(** * Properties of operators and creators made by their constructors (C83). *)
From Coq Require Import QArith Permutation Lia.
From Verif.Spec Require Import WorldSpec FitnessSpec VectorSpec TreeSpec EvoSpec CompleteSpec ShowSpec SetupSpec MakeSpec.
From Verif.Proofs Require Import MakeP.
From Verif.Model Require Import Num Fitness Tree World Operators Selection Creators Evolution Publisher Setup Make.
Open Scope string_scope.
Open Scope nat_scope.
Open Scope list_scope.

(** ** C83 *)

(** The arguments the class has and at least one attempt are what a constructor needs. *)
Theorem C83_accepted : forall c a,
  (exists op, new_operator c a = Ok op) <-> takes a c /\ (forall z, oa_attempts a = Some z -> (1 <= z)%Z).
Proof. exact made_exactly. Qed.
Print Assumptions C83_accepted.

Theorem C83_refused : forall c a e, new_operator c a = Raise e ->
  (e = TypeError /\ ~ takes a c) \/ (e = ValueError /\ takes a c /\ exists z, oa_attempts a = Some z /\ (z < 1)%Z).
Proof. exact refused_exactly. Qed.
Print Assumptions C83_refused.

(** What is given is stored, what is not has its default. *)
Theorem C83_attributes : forall c a op, new_operator c a = Ok op ->
  set_by (oa_probability a) (usual_probability c) (op_prob op) /\
  (c <> NSubtreeMut -> set_by (oa_arity a) (usual_arity c) (op_arity op)) /\
  (c = NSubtreeMut -> op_arity op = 1) /\
  exists z, set_by (oa_attempts a) (usual_attempts c) z /\ op_attempts op = Z.to_nat z.
Proof. exact attributes. Qed.
Print Assumptions C83_attributes.

(** It does what its class is for, with the parameters given or the defaults. *)
Theorem C83_effect : forall c a op, new_operator c a = Ok op -> does c a (op_kind op).
Proof. exact effect. Qed.
Print Assumptions C83_effect.

Example C83_effect_example : exists op, new_operator NSubtreeMut (mkOA None (Some 3) None None None None None None (Some (1, 5))) = Ok op /\
  op_kind op = OSubtreeMut 1 5.
Proof. eexists. split; reflexivity. Qed.

(** A vector creator makes vectors of the length and bounds given, in the bounds; by default one cell between 0 and 1. *)
Theorem C83_vectors : forall k len b upd n h w l bs u,
  set_by len 1 l -> set_by b (BPair (Fin 0) (Fin 1)) bs -> set_by upd false u -> creatable l bs k ->
  exists os w', create_individuals (new_vector_creator k len b upd) n h w = (Ok os, w') /\ length os = n /\
    forall o, In o os -> newborn w' o KSimple h u /\
      exists v, vec_at w' o v /\ v_kind v = k /\ v_bounds v = bs /\ vsize v = l /\ in_box bs (v_cells v).
Proof. exact vectors_made. Qed.
Print Assumptions C83_vectors.

Example C83_vectors_example :
  creatable 3 (BPair (Fin 0) (Fin 1)) KFloat /\ set_by (Some 3) 1 3 /\ set_by None (BPair (Fin 0) (Fin 1)) (BPair (Fin 0) (Fin 1)).
Proof.
  split; [|split; [left; reflexivity|right; split; reflexivity]].
  split; [|split; [congruence|discriminate]]. exists 0%Q, 1%Q. split; [reflexivity|discriminate].
Qed.

(** The documentation has 1.0 as the default probability of every operator; that of IntVectorOnePointMutation is another. *)
Theorem C83_documented_probability_refuted : exists c op, new_operator c no_args = Ok op /\ op_prob op <> Fin 1.
Proof. exact usual_one_refuted. Qed.
Print Assumptions C83_documented_probability_refuted.

(** An arity that is given need not be that of the operator. *)
Theorem C83_given_arity_refuted : exists c a ar op, oa_arity a = Some ar /\ new_operator c a = Ok op /\ op_arity op <> ar.
Proof. exact arity_refuted. Qed.
Print Assumptions C83_given_arity_refuted.

(** Without replacement a tournament cannot be larger than the population.  The documentation has this as the default; it is not. *)
Theorem C83_tournament : forall size source dest w, length source < size ->
  select (new_tournament size (Some false)) source dest w = (Raise ValueError, w).
Proof. exact tournament_refused. Qed.
Print Assumptions C83_tournament.

Theorem C83_documented_replacement_refuted : exists size source w r w',
  length source < size /\ select (new_tournament size None) source [] w = (Ok r, w').
Proof. exact replacement_refuted. Qed.
Print Assumptions C83_documented_replacement_refuted.

(** Tree creators.  Half and half does not hand on its bloat weight. *)
Theorem C83_grow : forall a c, new_grow a = Ok c <->
  exists fs ts typed mn mx weight upd prune, ga_functions a = Some fs /\ ga_terminals a = Some (ts, typed) /\ set_by (ga_depth a) (2, 4) (mn, mx) /\
    set_by (ga_bloat a) (Fin 0) weight /\ set_by (ga_upd a) false upd /\ set_by (ga_prune a) (Fin (1 # 2)) prune /\
    c = CGP Grow (mkGP mn mx fs ts typed (ga_erc a) weight (ga_root a) upd prune).
Proof. exact grow_made. Qed.
Print Assumptions C83_grow.

Theorem C83_full : forall a c, new_full a = Ok c <->
  ga_prune a = None /\ exists p, new_grow a = Ok (CGP Grow p) /\ c = CGP Full p.
Proof. exact full_made. Qed.
Print Assumptions C83_full.

Theorem C83_half : forall a c, new_half a = Ok c <->
  ga_prune a = None /\ ga_upd a = None /\ exists mn mx fs ts typed weight,
    new_grow a = Ok (CGP Grow (mkGP mn mx fs ts typed (ga_erc a) weight (ga_root a) false (Fin (1 # 2)))) /\
    let q := mkGP mn mx fs ts typed (ga_erc a) (Fin 0) (ga_root a) false (Fin (1 # 2)) in c = CHalf mn mx q q.
Proof. exact half_made. Qed.
Print Assumptions C83_half.

Theorem C83_creators_refused : forall a e,
  (new_grow a = Raise e -> e = ValueError /\ (ga_functions a = None \/ ga_terminals a = None)) /\
  (new_full a = Raise e -> (e = TypeError /\ ga_prune a <> None) \/ (e = ValueError /\ (ga_functions a = None \/ ga_terminals a = None))) /\
  (new_half a = Raise e -> (e = TypeError /\ (ga_prune a <> None \/ ga_upd a <> None)) \/
                           (e = ValueError /\ (ga_functions a = None \/ ga_terminals a = None))).
Proof. exact creators_refused. Qed.
Print Assumptions C83_creators_refused.

(** From the calls to the end of a run: nothing is refused, and whatever is drawn the run completes on vectors within bounds. *)
Theorem C83_vector_program : forall k b len ev sched h sum upd calls rate size,
  creatable len b k -> match b with BCells l => length l <> 2 | _ => True end ->
  (forall c a, In (c, a) calls -> vector_call k len size c a) -> 1 <= size ->
  gives_numbers ev -> total_on (vectors k b len) ev -> fair sched -> sum = sum_plain \/ sum = sum_compensated ->
  exists ops s, new_operators calls = Ok ops /\
    new_subpopulation sum (CrOne (new_vector_creator k (Some len) (Some b) upd)) None (Some ops) None rate size None (HB h) = Ok s /\
    forall t x w, ea_population x = PoOne s -> other_arguments x ->
    exists su a' w', simple_evolution_init t x = Ok su /\ evolve ev sched (su_stats su) (su_algo su, w) = (Ok tt, (a', w')) /\
      forall l, In l (evals (a_trace a')) -> length l = size /\ genomes_in (vectors k b len) l w'.
Proof. exact made_vector_run. Qed.
Print Assumptions C83_vector_program.

(** The same for trees. *)
Theorem C83_tree_program : forall t0 c ev sched h sum calls rate size,
  supplied t0 (t_root_type t0) -> typed_terminals t0 (t_root_type t0) -> printable_terminals t0 ->
  (forall v a, In (v, a) (t_tset t0) -> forall b x tag, v = TNum b x tag -> is_fin x = true) ->
  (forall lo hi, t_erc t0 = Some (ErcFloat lo hi) -> exists a b, lo = Fin a /\ hi = Fin b /\ (a <= b)%Q) ->
  made_for t0 size c -> (forall c a, In (c, a) calls -> tree_call size c a) -> 1 <= size ->
  gives_numbers ev -> total_on (trees_of t0 (program_node t0)) ev -> fair sched -> sum = sum_plain \/ sum = sum_compensated ->
  exists ops s, new_operators calls = Ok ops /\
    new_subpopulation sum (CrOne c) None (Some ops) None rate size None (HB h) = Ok s /\
    forall t x w, ea_population x = PoOne s -> other_arguments x ->
    exists su a' w', simple_evolution_init t x = Ok su /\ evolve ev sched (su_stats su) (su_algo su, w) = (Ok tt, (a', w')) /\
      forall l, In l (evals (a_trace a')) -> length l = size /\ genomes_in (trees_of t0 (program_node t0)) l w'.
Proof. exact made_tree_run. Qed.
Print Assumptions C83_tree_program.

(** Four floats in [-1, 1], a crossover at two points and two mutations; the algorithm with all its defaults. *)
Definition given_k (k : nat) : op_args := mkOA (Some (Fin (1 # 2))) None None (Some k) None None None None None.
Definition given_n (n : nat) (z : Z) : op_args := mkOA None None (Some n) None None (Some (Fin 3)) None (Some z) None.
Definition bounds_ : bounds := BPair (Fin (-1)) (Fin 1).
Definition calls_ : list (op_name * op_args) := [(NKPoints, given_k 2); (NGaussN, given_n 3 7); (NIntOne, no_args)].

Example C83_vector_hypotheses : creatable 4 bounds_ KFloat /\ forall c a, In (c, a) calls_ -> vector_call KFloat 4 6 c a.
Proof.
  split; [split; [|split; [congruence|discriminate]]; exists (-1)%Q, 1%Q; split; [reflexivity|discriminate]|].
  intros c a [[= <- <-]|[[= <- <-]|[[= <- <-]|[]]]]; (split; [cbn; auto|]); (split; [repeat split; cbn; intuition congruence|]);
    (split; [cbn; intros z [=]; lia|]); (split; [|]).
  - split; [discriminate|]. intros k [[= <-]|[[=] _]]. lia.
  - intros ar [[=]|[_ ->]]. split; [discriminate|]. exists 3. reflexivity.
  - split; [intros n [[= <-]|[[=] _]]; lia|]. split; [discriminate|]. intros x [= <-]. reflexivity.
  - intros ar [[=]|[_ ->]]. split; [discriminate|]. exists 6. reflexivity.
  - exact I.
  - intros ar [[=]|[_ ->]]. split; [discriminate|]. exists 6. reflexivity.
Qed.

Definition steps_of (l : list (op_name * op_args)) : list oper := match new_operators l with Ok ops => ops | Raise _ => [] end.
Definition run_of (c : creator) (calls : list (op_name * op_args)) (size : nat) : res unit * list nat :=
  match new_subpopulation sum_plain (CrOne c) None (Some (steps_of calls)) None (1 # 3) size None (HB true) with
  | Raise e => (Raise e, [])
  | Ok s => match simple_evolution_init 7 (mkArgs (PoOne s) StNone BrSimple EvNone 2 None None [] "thread" None None None None None 0) with
            | Raise e => (Raise e, [])
            | Ok su => match evolve (fun g => match g with GVec v => Ok (VNum (hd (Fin 0) (v_cells v))) | GTree t => Ok (VNum (Fin 0)) end)
                                    (fun n => rev (seq 0 n)) (su_stats su) (su_algo su, mkWorld [] 1 (tape [mkDraw 2 (1 # 3); mkDraw 1 (3 # 4)])) with
                       | (r, (a', _)) => (r, map (@length oid) (evals (a_trace a')))
                       end
            end
  end.
Example C83_vector_example :
  steps_of calls_ = [mkOper (OKPoint 2) (Fin (1 # 2)) 2 1; mkOper (OVecMut (MGaussN (Fin 0) (Fin 3)) 3) (Fin 1) 1 7;
                     mkOper (OVecMut (MIntOne (Fin (1 # 10))) 1) (Fin (1 # 2)) 1 5] /\
  run_of (new_vector_creator KFloat (Some 4) (Some bounds_) None) calls_ 6 = (Ok tt, [6; 6; 6]) /\
  new_operator NGaussN (given_n 3 0) = Raise ValueError /\ new_operator NIntN (given_n 3 7) = Raise TypeError.
Proof. vm_compute. repeat split. Qed.

(** Typed trees made by half and half of the default depths, with the three operators for trees. *)
Definition flt : option ty := Some TyFloat.
Definition strt : option ty := Some TyStr.
Definition plus2 : func := mkFunc 1 "plus" [flt; flt] flt.
Definition look : func := mkFunc 2 "look" [strt; flt] flt.
Definition tail : func := mkFunc 3 "tail" [strt] strt.
Definition terms_ : list (tval * option ty) := [(TVar "x", flt); (TVar "s", strt)].
Definition half_args : gp_args :=
  mkGA None (Some [plus2; look; tail]) (Some (terms_, true)) (Some (Fin (1 # 8))) (Some (ErcFloat (Fin (-1)) (Fin 1))) flt None None.
Definition primitives : tree := mkTree [plus2; look; tail] terms_ (Some (ErcFloat (Fin (-1)) (Fin 1))) flt [].
Definition tree_calls : list (op_name * op_args) :=
  [(NSubtreeXO, mkOA (Some (Fin (3 # 4))) None None None None None None (Some 3%Z) None);
   (NSubtreeMut, mkOA None (Some 3) None None None None None None (Some (1, 2))); (NErc, no_args)].

Definition half_ : creator := match new_half half_args with Ok c => c | Raise _ => CVector 0 bounds_ KBit KSimple false end.

Example C83_tree_hypotheses :
  supplied primitives (t_root_type primitives) /\ typed_terminals primitives (t_root_type primitives) /\ printable_terminals primitives /\
  made_for primitives 6 half_ /\ forall c a, In (c, a) tree_calls -> tree_call 6 c a.
Proof.
  assert (Hr : forall a, requested primitives flt a -> a = flt \/ a = strt).
  { intros a [->|(f & [<-|[<-|[<-|[]]]] & Ha)]; auto; cbn in Ha; intuition. }
  split; [split; [|split; [intros e [= <-]; exact I|]]|split; [|split; [|split]]].
  - intros f [<-|[<-|[<-|[]]]]; left; cbn; intros a Ha; destruct Ha as [<-|[<-|Ha]]; try discriminate; try destruct Ha as [<-|[]]; try discriminate; destruct Ha.
  - intros a Ha. destruct (Hr a Ha) as [->| ->].
    + split; [exists plus2; cbn; auto|]. left. exists (TVar "x"). cbn. auto.
    + split; [exists tail; cbn; auto|]. left. exists (TVar "s"). cbn. auto.
  - right. split.
    + intros k a [E|[E|[]]]; injection E as <- <-; (split; [reflexivity|]); intros k b [E|[E|[]]]; injection E as <- <-; cbn; intros H; congruence.
    + intros e [= <-]. split; [intros k a [E|[E|[]]]; injection E as <- <-; reflexivity|].
      intros a Ha Hn. destruct (Hr _ Ha) as [E|E]; injection E as ->; [reflexivity|discriminate].
  - split; [intros [k [[=]|[[=]|[]]]]|discriminate].
  - exists half_args. split; [split; [exists terms_, true; split; [reflexivity|]; split; [reflexivity|vm_compute; reflexivity]|]|].
    + split; [reflexivity|]. split; [reflexivity|]. intros w [= <-]. reflexivity.
    + right. right. split; [reflexivity|]. exists 2, 4. split; [right; auto|]. lia.
  - intros c a [[= <- <-]|[[= <- <-]|[[= <- <-]|[]]]]; (split; [exact I|]); (split; [repeat split; cbn; intuition congruence|]);
      (split; [cbn; intros z [=]; lia|]); (split; [|split; discriminate]).
    + intros ar [[=]|[_ ->]]. split; [discriminate|]. exists 3. reflexivity.
    + intros ar [[= <-]|[[=] _]]. split; [discriminate|]. exists 2. reflexivity.
    + intros ar [[=]|[_ ->]]. split; [discriminate|]. exists 6. reflexivity.
Qed.

Example C83_tree_example :
  map op_arity (steps_of tree_calls) = [2; 1; 1] /\ run_of half_ tree_calls 6 = (Ok tt, [6; 6; 6]) /\
  new_full (mkGA None None (Some (terms_, true)) None None None None None) = Raise ValueError /\
  new_half (mkGA None (Some []) (Some (terms_, true)) None None None (Some true) None) = Raise TypeError.
Proof. vm_compute. repeat split. Qed.
