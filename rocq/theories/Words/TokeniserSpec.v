(** What splitting an identifier into words means. *)
From Coq Require Import List Bool NArith Arith.
From Coq.Strings Require Import Byte.
From Verif Require Import Base.Bytes Base.Utf8 Words.TokeniserModel.
Import ListNotations.

Definition substring (t s : gostr) : Prop := exists before after, s = before ++ t ++ after.

(** the text is valid UTF-8 and does not contain the replacement character *)
Definition well_encoded (s : gostr) : Prop := forall i r, In (i, r) (range_runes s) -> r <> RuneError.

Definition ascii (s : gostr) : Prop := forall b, In b s -> (Byte.to_N b < 128)%N.

Section Words.
  Variables is_upper is_digit : N -> bool.
  Variable name : gostr.

  (** class of the i-th character: 0 underscore, 1 lower case or other,
      2 upper case, 3 digit; 4 beyond the end *)
  Definition cls (i : nat) : nat :=
    match nth_error name i with
    | None => 4
    | Some b => if byte_eqb b US then 0 else class_of is_upper is_digit (Byte.to_N b)
    end.

  (** A word starts at character [i] if the character is not an underscore and
      it is the first character, follows an underscore, changes class (except
      from upper case to lower case, as in "Class"), or is the last upper case
      character of a run that is followed by lower case (the C of "ABClass"). *)
  Definition word_start (i : nat) : Prop :=
    i < length name /\ cls i <> 0 /\
    (i = 0 \/ cls (i - 1) = 0
     \/ (cls (i - 1) <> cls i /\ ~ (cls (i - 1) = 2 /\ cls i = 1))
     \/ (cls (i - 1) = 2 /\ cls i = 2 /\ cls (i + 1) = 1)).

  (** The word from [a] (inclusive) to [b] (exclusive): from one start to the
      next start, underscore or end. *)
  Definition word (a b : nat) : Prop :=
    word_start a /\ a < b <= length name
    /\ (forall k, a < k < b -> ~ word_start k /\ cls k <> 0)
    /\ (b = length name \/ word_start b \/ cls b = 0).

  (** not a single character in front of an underscore *)
  Definition long_enough (a b : nat) : Prop := 2 <= b - a \/ b = length name \/ cls b <> 0.
End Words.
