(** Which occurrences a renaming changes. *)
From Coq Require Import String.
From Coq Require Import List Bool ZArith.
From Coq.Strings Require Import Byte.
From Verif Require Import Base.Bytes Base.Protocol Text.PositionModel Text.PositionSpec Ide.VariableModel Ide.VariableSpec.
Import ListNotations.
Open Scope list_scope.
Open Scope nat_scope.

(** A function scope: the scope it was opened in, its number (0 is the file, the
    others are numbered in the order in which they open) and its range. *)
Record scope := Scope { sc_outer : nat; sc_number : nat; sc_range : range }.
(** the scopes that the operations open; [stack] has the innermost scope first *)
Fixpoint scopes (next : nat) (stack : list nat) (ops : list var_op) : list scope :=
  match ops with
  | [] => []
  | OpenScope r :: ops =>
      match stack with
      | p :: _ => Scope p next r :: scopes (S next) (next :: stack) ops
      | [] => scopes (S next) (next :: stack) ops
      end
  | CloseScope :: ops => scopes next (tl stack) ops
  | _ :: ops => scopes next stack ops
  end.
(** the scopes around a position, from the file inwards *)
Inductive around (l : list scope) (pos : position) : nat -> Prop :=
| around_file : around l pos 0
| around_function : forall s, In s l -> around l pos (sc_outer s) -> inside pos (sc_range s) -> around l pos (sc_number s).
(** no function in it is around the position, too *)
Definition innermost (l : list scope) (pos : position) (i : nat) : Prop :=
  around l pos i /\ forall s, In s l -> sc_outer s = i -> ~ inside pos (sc_range s).
(** the occurrences of a name that were recorded in a scope *)
Definition occurrences (l : list (nat * occurrence)) (i : nat) (name : gostr) : list occurrence :=
  map snd (List.filter (fun x => Nat.eqb (fst x) i && str_eqb (oc_name (snd x)) name) l).
