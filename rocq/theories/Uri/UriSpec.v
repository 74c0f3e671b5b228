(** How an editor names a file: the percent-encoding of RFC 3986 as VS Code
    writes it. *)
From Coq Require Import String.
From Coq Require Import List Bool NArith ZArith.
From Coq.Strings Require Import Byte.
From Verif Require Import Base.Bytes.
Import ListNotations.
Open Scope list_scope.
Open Scope nat_scope.

(** the characters that stand for themselves *)
Definition literal : gostr := B "ABCDEFGHIJKLMNOPQRSTUVWXYZabcdefghijklmnopqrstuvwxyz0123456789-._~/".
Definition digits : gostr := B "0123456789ABCDEF".
Definition percent (c : byte) : gostr :=
  B "%" ++ [nth (N.to_nat (Byte.to_N c / 16)) digits x00; nth (N.to_nat (Byte.to_N c mod 16)) digits x00].
Definition encode (path : gostr) : gostr := flat_map (fun c => if existsb (byte_eqb c) literal then [c] else percent c) path.
(** the URI of an absolute path *)
Definition editor_uri (path : gostr) : gostr := B "file://" ++ encode path.

(** the path with these names, from the root *)
Definition path_of (names : list gostr) : gostr := flat_map (cons x2f) names.
(** a name of a file or folder *)
Definition file_name (s : gostr) : Prop := s <> [] /\ ~ In x2f s /\ ~ In x5c s.
(** not the name of a drive *)
Definition no_drive (names : list gostr) : Prop := forall s r, names <> (s ++ [x3a]) :: r.

(** characters that do not need care: the literal ones, the blank and all that
    is not ASCII *)
Definition simple (path : gostr) : Prop :=
  forall c, In c path -> In c literal \/ c = x20 \/ (128 <= Byte.to_N c)%N.
