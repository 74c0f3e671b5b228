(** Go strings and byte slices as lists of bytes, and the functions of the Go
    package [strings] / [bytes] used by phpintel.  These are transcriptions of
    the documented behaviour of the Go standard library; simplifications are
    stated at each definition. *)
From Coq Require Import String Ascii.
From Coq Require Import List Bool NArith ZArith Lia.
From Coq.Strings Require Import Byte.
Import ListNotations.
Open Scope list_scope.

(** A Go [string] or [[]byte] value. *)
Definition gostr := list byte.

(** Go string literal. *)
Definition B (s : string) : gostr := list_byte_of_string s.

(** Byte equality and (unsigned) order. *)
Definition byte_eqb (a b : byte) : bool := Byte.eqb a b.
Definition byte_ltb (a b : byte) : bool := N.ltb (Byte.to_N a) (Byte.to_N b).

(** Go [==] on strings. *)
Fixpoint str_eqb (a b : gostr) : bool :=
  match a, b with
  | [], [] => true
  | x :: a', y :: b' => byte_eqb x y && str_eqb a' b'
  | _, _ => false
  end.

(** strict lexicographic byte order: Go [<] on strings, [bytes.Compare]. *)
Fixpoint str_ltb (a b : gostr) : bool :=
  match a, b with
  | [], [] => false
  | [], _ :: _ => true
  | _ :: _, [] => false
  | x :: a', y :: b' =>
      if byte_ltb x y then true
      else if byte_eqb x y then str_ltb a' b' else false
  end.

(** [strings.HasPrefix s p] *)
Fixpoint has_prefix (p s : gostr) : bool :=
  match p, s with
  | [], _ => true
  | x :: p', y :: s' => byte_eqb x y && has_prefix p' s'
  | _ :: _, [] => false
  end.

(** [strings.HasSuffix s p] *)
Definition has_suffix (p s : gostr) : bool :=
  (length p <=? length s)%nat && str_eqb (skipn (length s - length p) s) p.

(** [strings.TrimPrefix s p] *)
Definition trim_prefix (s p : gostr) : gostr :=
  if has_prefix p s then skipn (length p) s else s.

(** [strings.TrimSuffix s p] *)
Definition trim_suffix (s p : gostr) : gostr :=
  if has_suffix p s then firstn (length s - length p) s else s.

(** [strings.IndexByte]: [None] stands for -1. *)
Fixpoint index_byte (s : gostr) (c : byte) : option nat :=
  match s with
  | [] => None
  | x :: s' => if byte_eqb x c then Some 0
               else match index_byte s' c with
                    | Some i => Some (S i)
                    | None => None
                    end
  end.

(** [strings.LastIndexByte] / [strings.LastIndex] with a one-byte separator. *)
Fixpoint last_index_byte (s : gostr) (c : byte) : option nat :=
  match s with
  | [] => None
  | x :: s' => match last_index_byte s' c with
               | Some i => Some (S i)
               | None => if byte_eqb x c then Some 0 else None
               end
  end.

(** [strings.Split s sep] for a one-byte separator: always at least one part. *)
Fixpoint split_byte (s : gostr) (c : byte) : list gostr :=
  match s with
  | [] => [[]]
  | x :: s' =>
      if byte_eqb x c then [] :: split_byte s' c
      else match split_byte s' c with
           | [] => [[x]]
           | p :: ps => (x :: p) :: ps
           end
  end.

(** [strings.Join parts sep] *)
Fixpoint join (parts : list gostr) (sep : gostr) : gostr :=
  match parts with
  | [] => []
  | [p] => p
  | p :: ps => p ++ sep ++ join ps sep
  end.

(** byte membership ([strings.Contains] with a one-byte needle) *)
Definition contains_byte (s : gostr) (c : byte) : bool :=
  existsb (fun x => byte_eqb x c) s.

(** ASCII part of [unicode.ToLower]. *)
Definition lower_byte (b : byte) : byte :=
  let n := Byte.to_N b in
  if (N.leb 65 n && N.leb n 90)%bool then
    match Byte.of_N (n + 32) with Some c => c | None => b end
  else b.

(** [strings.ToLower] restricted to ASCII letters (Go also maps non-ASCII
    letters; models that depend on it take the lower-casing function as a
    parameter and use this one for examples only). *)
Definition lower_ascii (s : gostr) : gostr := map lower_byte s.

(** The separator used in index keys: "\x00". *)
Definition NUL : byte := x00.
Definition BSL : byte := x5c.  (* \ *)

Definition no_byte (c : byte) (s : gostr) : Prop := ~ In c s.

(** [strings.TrimLeft/TrimRight/Trim] with a predicate on bytes *)
Fixpoint drop_while (f : byte -> bool) (s : gostr) : gostr :=
  match s with
  | [] => []
  | x :: s' => if f x then drop_while f s' else s
  end.
Definition trim_left (f : byte -> bool) (s : gostr) : gostr := drop_while f s.
Definition trim_right (f : byte -> bool) (s : gostr) : gostr :=
  rev (drop_while f (rev s)).
Definition trim_both (f : byte -> bool) (s : gostr) : gostr :=
  trim_right f (trim_left f s).

(** ASCII white space of [unicode.IsSpace]: \t \n \v \f \r and space. *)
Definition is_space (b : byte) : bool :=
  match b with
  | x09 | x0a | x0b | x0c | x0d | x20 => true
  | _ => false
  end.

(** slice expression [s[i:j]] for in-range indices *)
Definition slice (s : gostr) (i j : nat) : gostr := firstn (j - i) (skipn i s).
