(** What an editor means by lines, positions and edits (the Language Server
    Protocol's text documents). *)
From Coq Require Import List Bool NArith ZArith Lia.
From Coq.Strings Require Import Byte.
From Verif Require Import Base.Bytes Base.Protocol Base.Utf8 Words.TokeniserSpec Text.TextModel.
Import ListNotations.
Open Scope list_scope.
Open Scope Z_scope.

(** no line terminator inside *)
Definition one_line (s : gostr) : Prop := ~ In CR s /\ ~ In LF s.

(** the lines of a text, each with its terminator: LF, CR LF, or CR not
    followed by LF *)
Inductive lines_of : gostr -> list gostr -> Prop :=
| lines_last : forall s, one_line s -> lines_of s [s]
| lines_lf : forall s rest ls, one_line s -> lines_of rest ls -> lines_of (s ++ LF :: rest) ((s ++ [LF]) :: ls)
| lines_crlf : forall s rest ls, one_line s -> lines_of rest ls -> lines_of (s ++ CR :: LF :: rest) ((s ++ [CR; LF]) :: ls)
| lines_cr : forall s rest ls, one_line s -> (forall r, rest <> LF :: r) -> lines_of rest ls ->
    lines_of (s ++ CR :: rest) ((s ++ [CR]) :: ls).

(** line [i] starts at the sum of the lengths of the lines before it *)
Definition line_start (ls : list gostr) (i : nat) : Z := Z.of_nat (length (concat (firstn i ls))).

(** every CR is followed by LF *)
Definition no_lone_cr (s : gostr) : Prop := forall a b, s = a ++ CR :: b -> exists b', b = LF :: b'.

(** the number of UTF-16 code units of a text: characters beyond the basic
    plane count twice *)
Definition utf16_len (s : gostr) : Z :=
  fold_right (fun r n => (if N.ltb r 65536 then 1 else 2) + n) 0 (to_runes s).
(** only characters of the basic multilingual plane *)
Definition basic (s : gostr) : Prop := forall r, In r (to_runes s) -> (r < 65536)%N.

(** [o] is the byte offset of the position [p], a place within its line *)
Definition at_position (text : gostr) (p : position) (o : Z) : Prop :=
  exists before mid rest after,
    lines_of text (before ++ (mid ++ rest) :: after)
    /\ Z.of_nat (length before) = p_line p
    /\ one_line mid /\ well_encoded mid /\ utf16_len mid = p_char p
    /\ o = Z.of_nat (length (concat before) + length mid).

(** a column beyond the end of the line means the end of the line *)
Definition past_line_end (text : gostr) (p : position) (o : Z) : Prop :=
  exists before mid term after,
    lines_of text (before ++ (mid ++ term) :: after)
    /\ Z.of_nat (length before) = p_line p
    /\ one_line mid /\ (term = [] \/ term = [LF] \/ term = [CR; LF] \/ term = [CR]) /\ utf16_len mid < p_char p
    /\ o = Z.of_nat (length (concat before) + length mid).

(** the effect of one edit *)
Inductive edit : gostr -> change -> gostr -> Prop :=
| edit_all : forall text new, edit text (Change None new) new
| edit_range : forall a b c s e new,
    at_position (a ++ b ++ c) s (Z.of_nat (length a)) ->
    at_position (a ++ b ++ c) e (Z.of_nat (length a + length b)) ->
    edit (a ++ b ++ c) (Change (Some (Rng s e)) new) (a ++ new ++ c).
Inductive edits : gostr -> list change -> gostr -> Prop :=
| edits_nil : forall t, edits t [] t
| edits_cons : forall t t' t'' c cs, edit t c t' -> edits t' cs t'' -> edits t (c :: cs) t''.

(** text that the theorems about edits cover *)
Definition plain_text (s : gostr) : Prop := no_lone_cr s /\ well_encoded s /\ basic s.
