(** * The textual form of individuals.

    Cites: eckity/genetic_encodings/gp/tree/tree_individual.py, tree_node.py, eckity/genetic_encodings/ga/vector_individual.py. *)
From Coq Require Import Ascii.
From Verif.Model Require Export Tree World.
Open Scope nat_scope.
Open Scope list_scope.

Definition newline : string := String (ascii_of_nat 10) EmptyString.

(** [sep.join(l)] for strings *)
Fixpoint join (sep : string) (l : list string) : string :=
  match l with
  | [] => ""
  | [x] => x
  | x :: l' => x ++ sep ++ join sep l'
  end%string.

Section Text.
  (** [str] of a number and [__name__] of a type. *)
  Variable num_text : bool -> num -> string.
  Variable type_name : ty -> string.

  (** tree_node.py 101-102; [str] of a string is the string. *)
  Definition tval_text (v : tval) : string := match v with TVar s => s | TNum b x _ => num_text b x end.

  (** tree_individual.py 528-534: what is written between the texts of the arguments: a comma after each but the last; after
      the last a line break, unless it is the only one. *)
  Definition arguments (l : list string) : string :=
    (join ("," ++ newline) l ++ match l with _ :: _ :: _ => newline | _ => "" end)%string.

  (** tree_individual.py 518-537; the list [result] is taken to be joined already. *)
  Fixpoint str_at (fuel : nat) (l : list node) (prefix : string) (pos : nat) : res (string * nat) :=
    match fuel with
    | O => Raise OutOfFuel
    | S fuel' =>
        match nth_error l pos with
        | None => Raise IndexError
        | Some (TNode v _) => Ok (prefix ++ tval_text v, pos)%string
        | Some (FNode f) =>
            let prefix' := if pos =? 0 then (prefix ++ "  ")%string else prefix in
            rbind (iter_pos (str_at fuel' l (prefix' ++ "  ")%string) (arity f) pos) (fun r =>
            Ok (prefix ++ f_name f ++ "(" ++ newline ++ arguments (fst r) ++ prefix' ++ ")", snd r)%string)
        end
    end.

  (** [None in self.terminal_set.values()] *)
  Definition has_untyped (t : tree) : bool := existsb (fun e => match snd e with None => true | _ => false end) (t_tset t).

  (** tree_individual.py 499-503: keys, or keys with types *)
  Definition parameters (t : tree) : list (res string) :=
    if has_untyped t
    then map (fun e => match fst e with TVar s => Ok s | TNum _ _ _ => Raise TypeError end) (t_tset t)
    else map (fun e => match snd e with
                       | Some ty => Ok (tval_text (fst e) ++ ": " ++ type_name ty)%string
                       | None => Raise AttributeError
                       end) (t_tset t).

  (** tree_individual.py 504-508 *)
  Definition return_hint (t : tree) : res string :=
    if has_untyped t then Ok ""%string
    else match t_nodes t with
         | [] => Raise IndexError
         | n :: _ => match node_type n with
                     | None => Raise AttributeError
                     | Some ty => Ok (" -> " ++ type_name ty)%string
                     end
         end.

  (** tree_individual.py 473-516.  [id]: the text of the individual's id.  [join] raises TypeError for keys that are not
      strings; this happens after the return hint. *)
  Definition tree_str (id : string) (t : tree) : res string :=
    rbind (return_hint t) (fun hint =>
    rbind (rmap (fun r => r) (parameters t)) (fun ps =>
    rbind (str_at (S (tsize t)) (t_nodes t) "" 0) (fun r =>
    Ok ("def func_" ++ id ++ "(" ++ join ", " ps ++ ")" ++ hint ++ ":" ++ newline ++ "  return " ++ fst r)%string))).
End Text.

(** tree_individual.py 539-547 and vector_individual.py 305-313: the text only goes to the log.  What numbers and types look
    like does not matter for whether there is an exception. *)
Definition show (i : ind) : res unit :=
  match i_genome i with
  | GVec _ => Ok tt
  | GTree t => rbind (tree_str (fun _ _ => ""%string) (fun _ => ""%string) "" t) (fun _ => Ok tt)
  end.
