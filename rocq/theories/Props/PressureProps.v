(** * Chances in tournaments (C77). *)
From Verif.Spec Require Import WorldSpec FitnessSpec SelSpec PressureSpec.
From Verif.Proofs Require Import PressureP.
From Verif.Model Require Import Num Rng World Selection.
Open Scope nat_scope.
Open Scope list_scope.

(** ** C77 *)

(** The integers drawn decide the tournaments, each by its own integers, and every tournament comes from exactly one sequence of
    integers: if these are equally likely, so are the tournaments, independently of each other. *)
Theorem C77_draws : forall replace k a src, 1 <= k -> 1 <= a -> NoDup src -> (replace = false -> k <= length src) ->
  exists f, bijection (draws_for replace (length src) k) (drawn_from replace k src) f /\
    forall h score dest dss w, (forall o, In o src -> scored w o (score o) /\ oriented w h o) ->
      length dss = (length src - length dest) / a -> Forall (draws_for replace (length src) k) dss -> upcoming (w_rng w) (concat dss) ->
      exists winners cs w', tournament_select k replace a src dest w = (Ok (dest ++ cs), w') /\
        Forall2 (fun ds o => first_best h score (f ds) o) dss winners /\ copies "TournamentSelection" winners w cs w'.
Proof. exact tournaments_by_draws. Qed.
Print Assumptions C77_draws.

(** n^k tournaments with replacement, n (n-1) ... (n-k+1) without. *)
Theorem C77_tournaments : forall replace k src, NoDup src -> number_of (drawn_from replace k src) (tournaments replace (length src) k).
Proof. exact tournaments_number. Qed.
Print Assumptions C77_tournaments.

(** Of these, the [e] individuals of one score, which [r] individuals are better than, win (n-r)^k - (n-r-e)^k, each of them
    the same number. *)
Theorem C77_victories : forall h score replace k src o r e, NoDup src -> (forall p, In p src -> is_nan (score p) = false) -> In o src -> 1 <= k ->
  number_of (fun p => In p src /\ better_score h (score p) (score o)) r ->
  number_of (fun p => In p src /\ ~ better_score h (score p) (score o) /\ ~ better_score h (score o) (score p)) e ->
  exists m, number_of (fun t => drawn_from replace k src t /\ first_best h score t o) m /\
    e * m = tournaments replace (length src - r) k - tournaments replace (length src - r - e) k.
Proof. exact pressure. Qed.
Print Assumptions C77_victories.

(** A better individual has at least as many victories; with replacement and two participants it has more. *)
Theorem C77_better : forall h score replace k src a b n m, NoDup src -> (forall p, In p src -> is_nan (score p) = false) -> In a src -> In b src ->
  better_score h (score b) (score a) ->
  number_of (fun t => drawn_from replace k src t /\ first_best h score t a) n ->
  number_of (fun t => drawn_from replace k src t /\ first_best h score t b) m ->
  n <= m /\ (replace = true -> 2 <= k -> n < m).
Proof. exact better_wins_more. Qed.
Print Assumptions C77_better.

(** Without replacement, whoever wins is one of at least [k] individuals that are not better: the last k - 1 never win. *)
Theorem C77_last : forall h score k src o t, NoDup src -> (forall p, In p src -> is_nan (score p) = false) -> In o src ->
  drawn_from false k src t -> first_best h score t o ->
  exists l, NoDup l /\ length l = k /\ forall p, In p l -> In p src /\ ~ better_score h (score p) (score o).
Proof. exact worst_never_win. Qed.
Print Assumptions C77_last.

(** With replacement everyone wins some tournament. *)
Theorem C77_everyone : forall h score k src o, NoDup src -> 1 <= k -> In o src ->
  drawn_from true k src (repeat o k) /\ (forall p, first_best h score (repeat o k) p <-> p = o).
Proof. exact everyone_can_win. Qed.
Print Assumptions C77_everyone.

(** Four individuals; 1 and 2 are the best.  Of the 16 tournaments of two with replacement each of these wins 6, of the 12
    without 5. *)
Definition pscore (o : oid) : num := nth o [Fin 2; Fin 5; Fin 5; Fin 1] NaN.
Definition pworld (g : rng) : world :=
  mkWorld (map (fun x => mkInd 1 0 (mkFit KSimple (VNum x) true (HB true) true false (Fin 0) PInf) (-1) [] [] false []
                           (GVec (mkVec KBit (BPair (Fin 0) (Fin 1)) 1 [Fin 0]))) [Fin 2; Fin 5; Fin 5; Fin 1]) 5 g.

Example C77_example :
  tournaments true 4 2 = 16 /\ tournaments false 4 2 = 12 /\
  number_of (fun p => In p [0; 1; 2; 3] /\ better_score true (pscore p) (pscore 2)) 0 /\
  number_of (fun p => In p [0; 1; 2; 3] /\ ~ better_score true (pscore p) (pscore 2) /\ ~ better_score true (pscore 2) (pscore p)) 2 /\
  tournaments true 4 2 - tournaments true 2 2 = 2 * 6 /\ tournaments false 4 2 - tournaments false 2 2 = 2 * 5 /\
  (forall o, In o [0; 1; 2; 3] -> scored (pworld (tape [])) o (pscore o) /\ oriented (pworld (tape [])) true o) /\
  Forall (draws_for false 4 2) [[0; 2]; [3; 0]; [3; 2]; [1; 1]] /\
  upcoming (tape (map (fun n => mkDraw n 0) [0; 2; 3; 0; 3; 2; 1; 1]%N)) (concat [[0; 2]; [3; 0]; [3; 2]; [1; 1]]) /\
  let r := tournament_select 2 false 1 [0; 1; 2; 3] [] (pworld (tape (map (fun n => mkDraw n 0) [0; 2; 3; 0; 3; 2; 1; 1]%N))) in
  fst r = Ok [4; 5; 6; 7] /\ map i_fit (skipn 4 (w_heap (snd r))) = map (fun x => mkFit KSimple (VNum x) true (HB true) true false (Fin 0) PInf) [Fin 5; Fin 2; Fin 5; Fin 5].
Proof.
  split; [reflexivity|]. split; [reflexivity|].
  split; [exists []; split; [constructor|]; split; [|reflexivity]; intros p; split; [intros []|]; intros [[<-|[<-|[<-|[<-|[]]]]] H]; vm_compute in H; discriminate|].
  split.
  { exists [1; 2]. split; [constructor; [intros [H|[]]; discriminate|constructor; [intros []|constructor]]|]. split; [|reflexivity]. intros p. split.
    - intros [<-|[<-|[]]]; (split; [simpl; auto|split; vm_compute; discriminate]).
    - intros [[<-|[<-|[<-|[<-|[]]]]] [A B]]; simpl; auto; exfalso; apply B; vm_compute; reflexivity. }
  split; [reflexivity|]. split; [reflexivity|].
  split; [intros o [<-|[<-|[<-|[<-|[]]]]]; split; eexists; split; try reflexivity; repeat split|].
  split; [apply Forall_forall; intros ds [<-|[<-|[<-|[<-|[]]]]]; (split; [reflexivity|]); intros [|[|i]] d E; simpl in E; try (injection E as <-; simpl; auto with arith; fail); destruct i; discriminate|].
  split; [intros [|[|[|[|[|[|[|[|i]]]]]]]] d E; simpl in E; try (injection E as <-; reflexivity); destruct i; discriminate|].
  vm_compute. split; reflexivity.
Qed.
