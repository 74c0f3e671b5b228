(** What positions and ranges mean. *)
From Coq Require Import ZArith.
From Verif Require Import Base.Protocol.
Open Scope Z_scope.

(** [a] comes before [b] in a text *)
Definition before (a b : position) : Prop :=
  p_line a < p_line b \/ (p_line a = p_line b /\ p_char a < p_char b).
Definition at_or_before (a b : position) : Prop := before a b \/ a = b.

(** [p] lies in the half-open range [r] *)
Definition inside (p : position) (r : range) : Prop := at_or_before (r_start r) p /\ before p (r_end r).

(** a Go int *)
Definition int64 (z : Z) : Prop := - 2 ^ 63 <= z < 2 ^ 63.
