(** What the editor should show of a variable. *)
From Coq Require Import String.
From Coq Require Import List ZArith.
From Coq.Strings Require Import Byte.
From Verif Require Import Base.Bytes Hover.HoverSpec.
Import ListNotations.
Open Scope list_scope.

(** a class or a type, and how often an array of it *)
Definition type_code (t : gostr * Z) : gostr := fst t ++ concat (repeat (B "[]") (Z.to_nat (snd t))).
(** a name of a type; the global namespace is none *)
Definition type_name (f : gostr) : Prop := f <> [] /\ f <> B "\".
(** the types, separated by |, the name, and the description below a ruler *)
Definition shows_variable (markdown : gostr -> gostr) (types : list (gostr * Z)) (name description text : gostr) : Prop :=
  exists before more, text = B "```
" ++ before ++ name ++ B "
```
" ++ more
    /\ clause (types <> []) [] (join (map type_code types) (B "|") ++ B " ") before
    /\ clause (description <> []) ruler (markdown description) more.
