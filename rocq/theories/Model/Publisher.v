(** * Publish/subscribe around operators.

    Cites: eckity/before_after_publisher.py 1-44, eckity/event_based_operator.py 24-55. *)
From Verif.Model Require Export Base.
Open Scope nat_scope.
Open Scope list_scope.

(** A callback: user code, or the default of [register], which is a *set* containing a function and
    therefore not callable (before_after_publisher.py 22-23). *)
Inductive callback := CbUser (n : nat) | CbDefault.

Definition subscribers := list (nat * callback).       (* dict: customer id -> callback *)

(** What a caller can observe: [LCall n e] callback [n] was called for event [e]; [LAct] the action ran. *)
Inductive log_item := LCall (n : nat) (event : string) | LAct.

Record pub := mkPub {
  p_events : list (string * subscribers);
  p_next : nat;                                        (* customers_id *)
  p_log : list log_item
}.

Definition P (A : Type) := SE pub A.

Definition before_operator : string := "before_operator".
Definition after_operator : string := "after_operator".

(** [d[k] = v]: an existing key keeps its place. *)
Fixpoint dict_set {K V} (eqb : K -> K -> bool) (k : K) (v : V) (d : list (K * V)) : list (K * V) :=
  match d with
  | [] => [(k, v)]
  | (k', v') :: d' => if eqb k k' then (k', v) :: d' else (k', v') :: dict_set eqb k v d'
  end.

Fixpoint dict_get {K V} (eqb : K -> K -> bool) (k : K) (d : list (K * V)) : option V :=
  match d with
  | [] => None
  | (k', v') :: d' => if eqb k k' then Some v' else dict_get eqb k d'
  end.

Fixpoint dict_del {K V} (eqb : K -> K -> bool) (k : K) (d : list (K * V)) : list (K * V) :=
  match d with
  | [] => []
  | (k', v') :: d' => if eqb k k' then d' else (k', v') :: dict_del eqb k d'
  end.

(** before_after_publisher.py 6-15.  A given dictionary is used as it is, and the counter starts at 0 also then. *)
Definition publisher_init (events : option (list (string * subscribers))) (names : list string) : pub :=
  match events with
  | Some d => mkPub d 0 []
  | None => mkPub (fold_left (fun d n => dict_set String.eqb n [] d)
                             (names ++ [before_operator; after_operator]) [])
                  0 []
  end.

(** before_after_publisher.py 17-18 *)
Definition get_subscribers (e : string) : P subscribers :=
  fun s => match dict_get String.eqb e (p_events s) with
           | Some l => (Ok l, s)
           | None => (Raise KeyError, s)
           end.

Definition put_subscribers (e : string) (l : subscribers) : P unit :=
  fun s => (Ok tt, mkPub (dict_set String.eqb e l (p_events s)) (p_next s) (p_log s)).

(** before_after_publisher.py 20-26 *)
Definition register (e : string) (cb : option callback) : P nat :=
  let c := match cb with None => CbDefault | Some c => c end in
  l <- get_subscribers e ;;
  s <- get ;;
  put_subscribers e (dict_set Nat.eqb (p_next s) c l) ;;;
  s' <- get ;;
  put (mkPub (p_events s') (S (p_next s')) (p_log s')) ;;;
  ret (p_next s).

(** before_after_publisher.py 28-30 *)
Definition unregister (e : string) (id : nat) : P unit :=
  l <- get_subscribers e ;;
  match dict_get Nat.eqb id l with
  | None => raise KeyError
  | Some _ => put_subscribers e (dict_del Nat.eqb id l)
  end.

Section Publish.
  (** What user callback [n] does on event [e]: return or raise.  Callbacks do not (un)register. *)
  Variable user : nat -> string -> res unit.

  Definition log (x : log_item) : P unit :=
    fun s => (Ok tt, mkPub (p_events s) (p_next s) (p_log s ++ [x])).

  Definition call (e : string) (c : callback) : P unit :=
    match c with
    | CbDefault => raise TypeError
    | CbUser n => log (LCall n e) ;;; lift (user n e)
    end.

  (** before_after_publisher.py 32-35 *)
  Definition publish (e : string) : P unit :=
    l <- get_subscribers e ;; iterM (fun ic => call e (snd ic)) l.

  (** before_after_publisher.py 40-44 *)
  Definition act_and_publish {A} (act : P A) : P A :=
    publish before_operator ;;; v <- act ;; publish after_operator ;;; ret v.

  (** event_based_operator.py 43-55.  [None]: the payload is not a list. *)
  Definition assert_arity (ar : nat) (payload : option nat) : res unit :=
    match payload with
    | None => if ar =? 1 then Ok tt else Raise ValueError
    | Some n => if n =? ar then Ok tt else Raise ValueError
    end.

  (** event_based_operator.py 24-41 *)
  Definition operator_act {A} (ar : nat) (payload : option nat) (act : P A) : P A :=
    lift (assert_arity ar payload) ;;; act_and_publish act.
End Publish.
