(** strconv.Itoa and strconv.Atoi (Go standard library). *)
From Coq Require Import String.
From Coq Require Import List Bool ZArith.
From Coq Require Decimal.
From Coq.Strings Require Import Byte.
From Verif Require Import Base.Bytes.
Import ListNotations.
Open Scope list_scope.

(** the decimal digits of a number, most significant first *)
Fixpoint digits (d : Decimal.uint) : gostr :=
  match d with
  | Decimal.Nil => []
  | Decimal.D0 d => x30 :: digits d
  | Decimal.D1 d => x31 :: digits d
  | Decimal.D2 d => x32 :: digits d
  | Decimal.D3 d => x33 :: digits d
  | Decimal.D4 d => x34 :: digits d
  | Decimal.D5 d => x35 :: digits d
  | Decimal.D6 d => x36 :: digits d
  | Decimal.D7 d => x37 :: digits d
  | Decimal.D8 d => x38 :: digits d
  | Decimal.D9 d => x39 :: digits d
  end.

Definition MINUS : byte := x2d.

(** strconv.Itoa *)
Definition Itoa (z : Z) : gostr :=
  match Z.to_int z with
  | Decimal.Pos d => digits d
  | Decimal.Neg d => MINUS :: digits d
  end.

(** inverse of [digits]; [None] on a byte that is not a digit *)
Fixpoint undigits (s : gostr) : option Decimal.uint :=
  match s with
  | [] => Some Decimal.Nil
  | b :: s' =>
      match undigits s' with
      | None => None
      | Some d =>
          match b with
          | x30 => Some (Decimal.D0 d) | x31 => Some (Decimal.D1 d)
          | x32 => Some (Decimal.D2 d) | x33 => Some (Decimal.D3 d)
          | x34 => Some (Decimal.D4 d) | x35 => Some (Decimal.D5 d)
          | x36 => Some (Decimal.D6 d) | x37 => Some (Decimal.D7 d)
          | x38 => Some (Decimal.D8 d) | x39 => Some (Decimal.D9 d)
          | _ => None
          end
      end
  end.

(** strconv.Atoi: an optional sign, at least one digit, and a value that fits
    an int (64 bit); [None] is the error result *)
Definition split_sign (s : gostr) : bool * gostr :=
  match s with
  | x2d :: s' => (true, s')
  | x2b :: s' => (false, s')
  | _ => (false, s)
  end.
Definition Atoi (s : gostr) : option Z :=
  let neg := fst (split_sign s) in
  let ds := snd (split_sign s) in
  if (length ds =? 0)%nat then None
  else match undigits ds with
       | None => None
       | Some d =>
           let z := if neg then Z.of_int (Decimal.Neg d) else Z.of_int (Decimal.Pos d) in
           if (Z.leb (- 2 ^ 63) z && Z.ltb z (2 ^ 63))%Z then Some z else None
       end.

Definition is_digit_byte (b : byte) : bool :=
  match b with
  | x30 | x31 | x32 | x33 | x34 | x35 | x36 | x37 | x38 | x39 => true
  | _ => false
  end.
