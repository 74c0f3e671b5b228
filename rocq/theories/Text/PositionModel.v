(** Positions and ranges: internal/lsp/protocol/util.go and the String methods. *)
From Coq Require Import String.
From Coq Require Import List Bool ZArith Lia.
From Coq.Strings Require Import Byte.
From Verif Require Import Base.Bytes Base.Protocol Base.Decimal.
Import ListNotations.
Open Scope list_scope.
Open Scope Z_scope.

(** util.go:9-20 *)
Definition IsInRange (p : position) (r : range) : Z :=
  let start := r_start r in
  let end_ := r_end r in
  if (p_line p <? p_line start) || ((p_line p =? p_line start) && (p_char p <? p_char start)) then -1
  else if (p_line end_ <? p_line p) || ((p_line p =? p_line end_) && (p_char end_ <=? p_char p)) then 1
  else 0.

(** util.go:23-39 *)
Definition ComparePos (a b : position) : Z :=
  if p_line a <? p_line b then -1
  else if p_line a =? p_line b then
    if p_char a <? p_char b then -1
    else if p_char a =? p_char b then 0
    else if p_char b <? p_char a then 1
    else 1
  else 1.

(** util.go:42-50 *)
Definition CompareRange (a b : range) : Z :=
  if IsInRange (r_end a) b <? 0 then -1
  else if 0 <? IsInRange (r_start a) b then 1
  else 0.

Definition COLON : byte := x3a.

(** protocol.go:2817-2823 *)
Definition PosString (p : position) : gostr := Itoa (p_line p) ++ [COLON] ++ Itoa (p_char p).
(** protocol.go:2851-2857 *)
Definition RangeString (r : range) : gostr := PosString (r_start r) ++ [MINUS] ++ PosString (r_end r).

(** util.go:53-67; [None] is a panic (values[1] out of range, or Atoi fails) *)
Definition PosFromString (s : gostr) : option position :=
  match split_byte s COLON with
  | v0 :: vs =>
      match Atoi v0 with
      | None => None
      | Some line =>
          match vs with
          | [] => None
          | v1 :: _ => match Atoi v1 with
                       | None => None
                       | Some character => Some (Pos line character)
                       end
          end
      end
  | [] => None
  end.

(** util.go:70-78 *)
Definition RangeFromString (s : gostr) : option range :=
  match split_byte s MINUS with
  | v0 :: vs =>
      match PosFromString v0 with
      | None => None
      | Some start =>
          match vs with
          | [] => None
          | v1 :: _ => match PosFromString v1 with
                       | None => None
                       | Some end_ => Some (Rng start end_)
                       end
          end
      end
  | [] => None
  end.
