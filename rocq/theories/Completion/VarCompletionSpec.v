(** What is typed in front of the cursor, and which variables fit. *)
From Coq Require Import String.
From Coq Require Import List Bool NArith ZArith.
From Coq.Strings Require Import Byte.
From Verif Require Import Base.Bytes Base.Protocol Base.Utf8 Symbols.Symbols Text.TextModel Text.PositionModel Text.PositionSpec
  Ide.VariableModel Ide.VariableSpec Rename.RenameSpec.
Import ListNotations.
Open Scope list_scope.
Open Scope nat_scope.

(** [l] is the part of the line in front of the offset *)
Definition line_before (text : gostr) (offset : nat) (l : gostr) : Prop :=
  exists a, firstn offset text = a ++ l /\ ~ In LF l /\ (a = [] \/ exists a', a = a' ++ [LF]).
(** letters of A-Z, "_", "\" and the characters from U+0080 to U+00FF; digits *)
Definition letter (r : N) : Prop := (97 <= r <= 122 \/ 65 <= r <= 90 \/ r = 95 \/ r = 92 \/ 128 <= r <= 255)%N.
Definition digit (r : N) : Prop := (48 <= r <= 57)%N.
(** characters with their places make up a word: it is empty, or begins with a
    letter and goes on with letters and digits *)
Definition wordlike (runes : list (nat * N)) : Prop :=
  match runes with
  | [] => True
  | c :: _ => letter (snd c) /\ Forall (fun c => letter (snd c) \/ digit (snd c)) runes
  end.
(** where the characters begin in a text *)
Definition begins_at (s : gostr) (runes : list (nat * N)) : nat := match runes with [] => length s | c :: _ => fst c end.
(** [w] is the longest word at the end of [l] *)
Definition last_word (l w : gostr) : Prop :=
  exists front word, range_runes l = front ++ word /\ wordlike word /\ w = skipn (begins_at l word) l /\
    forall front' word', range_runes l = front' ++ word' -> wordlike word' -> length word' <= length word.

(** the occurrences recorded in a function *)
Definition recorded_in (ops : list var_op) (i : nat) : list occurrence :=
  map snd (List.filter (fun x => Nat.eqb (fst x) i) (scoped 1 [0%nat] ops)).
