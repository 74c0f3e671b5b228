(** What the editor shows of the variable under the cursor: internal/lsp/hover.go:149-151. *)
From Coq Require Import String.
From Coq Require Import List Bool ZArith.
From Coq.Strings Require Import Byte.
From Verif Require Import Base.Bytes Symbols.Symbols Symbols.KeysModel Types.TypesModel Expr.ExprModel Hover.HoverModel.
Import ListNotations.
Open Scope list_scope.

(** symbolConverter.go:36-40 *)
Definition wrapCode (code : gostr) : gostr := B "```" ++ [x0a] ++ code ++ [x0a] ++ B "```" ++ [x0a].
(** symbolConverter.go:357-375 variableToHover, the text; [types] is variable.GetTypes() *)
Definition variableToHover (markdown : gostr -> gostr) (types : type_composite) (name description : gostr) : gostr :=
  wrapCode ((if tc_IsEmpty types then [] else tc_ToString types ++ B " ") ++ name) ++ concatDescriptionIfAvailable markdown description.
(** hover.go:149-151 for the variable [i] of a document; its description, which
    only the variables of parameters and global declarations have, is not a
    field of the objects of Expr/ExprModel.v and given.  [None]: there is no
    such variable, or the types are not found *)
Definition variable_hover (markdown : gostr -> gostr) (L : lookups) (h : heap) (i : nat) (description : gostr) : option (heap * gostr) :=
  match nth_error h i, ask L h i with
  | Some o, Some (h', types) =>
      match o_kind o with
      | KVariable => Some (h', variableToHover markdown types (o_name o) description)
      | _ => None
      end
  | _, _ => None
  end.
