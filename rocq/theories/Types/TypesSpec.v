(** What type texts, unions and scoped names mean. *)
From Coq Require Import String.
From Coq Require Import List Bool ZArith.
From Coq.Strings Require Import Byte.
From Verif Require Import Base.Bytes Symbols.Symbols.
Import ListNotations.
Open Scope list_scope.

(** n trailing pairs of brackets *)
Fixpoint arrays (n : nat) : gostr := match n with O => [] | S n => B "[]" ++ arrays n end.

(** the text does not itself end in a pair of brackets *)
Definition element (e : gostr) : Prop := forall p, e <> p ++ B "[]".

(** the names phpintel replaces by the canonical ones *)
Definition alias_name (e : gostr) : Prop := e = B "boolean" \/ e = B "integer".

Definition fqns (t : type_composite) : list gostr := map ts_fqn t.

(** joining a scope and a short name *)
Definition join_scope (scope name : gostr) : gostr :=
  match scope with
  | [] => name
  | _ => if str_eqb scope [BSL] then BSL :: name else scope ++ BSL :: name
  end.

(** "\A\B\C": one or more non-empty parts, each preceded by a backslash *)
Definition fully_qualified (name : gostr) : Prop :=
  exists parts, parts <> [] /\ (forall p, In p parts -> p <> [] /\ ~ In BSL p) /\ name = BSL :: join parts [BSL].
