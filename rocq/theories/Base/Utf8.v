(** UTF-8 decoding as done by Go's [range] over a string and package
    unicode/utf8. *)
From Coq Require Import List Bool NArith Arith Lia.
From Coq.Strings Require Import Byte.
From Verif Require Import Base.Bytes.
Import ListNotations.

(** utf8.RuneError, U+FFFD: what an invalid byte decodes to *)
Definition RuneError : N := 65533%N.

Definition in_rng (lo hi : N) (b : byte) : bool :=
  (N.leb lo (Byte.to_N b) && N.leb (Byte.to_N b) hi)%bool.
Definition cont (b : byte) : N := (Byte.to_N b - 128)%N.

(** utf8.DecodeRuneInString: rune and width; an invalid encoding is
    (RuneError, 1).  The ranges of the second byte are the table
    [acceptRanges] of package utf8. *)
Definition decode_rune (s : gostr) : N * nat :=
  match s with
  | [] => (RuneError, 0)
  | b0 :: t =>
      let n := Byte.to_N b0 in
      if N.ltb n 128 then (n, 1)
      else if in_rng 194 223 b0 then
        match t with
        | b1 :: _ => if in_rng 128 191 b1
                     then (((n - 192) * 64 + cont b1)%N, 2) else (RuneError, 1)
        | _ => (RuneError, 1)
        end
      else if in_rng 224 239 b0 then
        let lo := if N.eqb n 224 then 160%N else 128%N in
        let hi := if N.eqb n 237 then 159%N else 191%N in
        match t with
        | b1 :: b2 :: _ =>
            if in_rng lo hi b1 && in_rng 128 191 b2
            then (((n - 224) * 4096 + cont b1 * 64 + cont b2)%N, 3) else (RuneError, 1)
        | _ => (RuneError, 1)
        end
      else if in_rng 240 244 b0 then
        let lo := if N.eqb n 240 then 144%N else 128%N in
        let hi := if N.eqb n 244 then 143%N else 191%N in
        match t with
        | b1 :: b2 :: b3 :: _ =>
            if in_rng lo hi b1 && in_rng 128 191 b2 && in_rng 128 191 b3
            then (((n - 240) * 262144 + cont b1 * 4096 + cont b2 * 64 + cont b3)%N, 4)
            else (RuneError, 1)
        | _ => (RuneError, 1)
        end
      else (RuneError, 1)
  end.

(** The pairs (byte index, rune) of [for i, r := range s]. *)
Fixpoint runes_at (fuel i : nat) (s : gostr) : list (nat * N) :=
  match fuel, s with
  | S fuel', _ :: _ =>
      let '(r, w) := decode_rune s in
      (i, r) :: runes_at fuel' (i + w) (skipn w s)
  | _, _ => []
  end.
Definition range_runes (s : gostr) : list (nat * N) := runes_at (length s) 0 s.

(** [[]rune(s)] *)
Definition to_runes (s : gostr) : list N := map snd (range_runes s).
(** [len([]rune(s))] / utf8.RuneCount *)
Definition rune_count (s : gostr) : nat := length (range_runes s).
