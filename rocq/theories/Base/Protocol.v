(** The LSP value types shared by all models. *)
From Coq Require Import ZArith List.
From Verif Require Import Base.Bytes.

(** internal/lsp/protocol/protocol.go:2796-2815 (Go [int] fields) *)
Record position := Pos { p_line : Z; p_char : Z }.

(** internal/lsp/protocol/protocol.go:2838-2849 *)
Record range := Rng { r_start : position; r_end : position }.

(** internal/lsp/protocol/protocol.go:2863-2870 *)
Record location := Loc { l_uri : gostr; l_range : range }.

(** Go zero values *)
Definition zero_pos : position := Pos 0 0.
Definition zero_range : range := Rng zero_pos zero_pos.
Definition zero_loc : location := Loc nil zero_range.
