(** The text of a document and its line table: analysis/document.go. *)
From Coq Require Import String.
From Coq Require Import List Bool NArith ZArith Lia.
From Coq.Strings Require Import Byte.
From Verif Require Import Base.Bytes Base.Protocol Base.Utf8 Base.SortSearch.
Import ListNotations.
Open Scope list_scope.
Open Scope Z_scope.

Definition CR : byte := x0d.
Definition LF : byte := x0a.

(** document.go:22-29, the fields concerned with the text.  The line table is
    a Go []int. *)
Record text_doc := TextDoc { td_text : gostr; td_lines : list Z; td_eol : gostr }.

(** The loop document.go:130-161: the offsets appended after the first one, and
    whether "\r\n" was seen.  [n] is the number of bytes consumed.  (In the
    branch for '\r' the test [len(text) > 0] is always true, so its else branch
    at 149-154 is dead.)  The fuel is the length of the text. *)
Fixpoint line_loop (fuel : nat) (text : gostr) (n offset : Z) : list Z * bool :=
  match fuel, text with
  | S fuel', _ :: _ =>
      let '(r, size) := decode_rune text in
      if N.eqb r 13 then
        let '(nextR, nextSize) := decode_rune (skipn size text) in
        if N.eqb nextR 10 then
          let n' := n + Z.of_nat size + Z.of_nat nextSize in
          let '(l, _) := line_loop fuel' (skipn (size + nextSize) text) n' offset in
          (n' + offset :: l, true)
        else
          let '(l, crlf) := line_loop fuel' (skipn size text) (n + Z.of_nat size) offset in
          (n + offset :: l, crlf)
      else if N.eqb r 10 then
        let '(l, crlf) := line_loop fuel' (skipn size text) (n + Z.of_nat size) offset in
        (n + offset + Z.of_nat size :: l, crlf)
      else line_loop fuel' (skipn size text) (n + Z.of_nat size) offset
  | _, _ => ([], false)
  end.

(** document.go:121-166: the first entry (132-134 or 162-164) is always n = 0 *)
Definition calculateLineOffsets (text : gostr) (offset : Z) : list Z * gostr :=
  let '(l, crlf) := line_loop (length text) text 0 offset in
  (0 :: l, if crlf then [CR; LF] else [LF]).

(** document.go:112-115 *)
Definition SetText (text : gostr) : text_doc :=
  let '(l, eol) := calculateLineOffsets text 0 in TextDoc text l eol.

(** document.go:168-172 *)
Definition lineAt (d : text_doc) (offset : Z) : Z :=
  Z.of_nat (sort_search (length (td_lines d)) (fun i => offset <? nth i (td_lines d) 0)) - 1.

(** document.go:174-182 *)
Definition offsetAtLine (d : text_doc) (line : Z) : Z :=
  let len := Z.of_nat (length (td_lines d)) in
  if (line <=? 0) || (len <? 1) then 0
  else if len - 1 <? line then nth (Z.to_nat (len - 1)) (td_lines d) 0
  else nth (Z.to_nat line) (td_lines d) 0.

(** document.go:184-190; [None] is the panic of indexing at -1 *)
Definition positionAt (d : text_doc) (offset : Z) : option position :=
  let line := lineAt d offset in
  if line <? 0 then None
  else Some (Pos line (offset - nth (Z.to_nat line) (td_lines d) 0)).

(** the loop document.go:195-198, [n] rounds; [None] is the panic of slicing
    beyond the end or at a negative index *)
Fixpoint rune_steps (n : nat) (text : gostr) (offset : Z) : option Z :=
  match n with
  | O => Some offset
  | S n' =>
      if (offset <? 0) || (Z.of_nat (length text) <? offset) then None
      else rune_steps n' text (offset + Z.of_nat (snd (decode_rune (skipn (Z.to_nat offset) text))))
  end.

(** document.go:192-210 *)
Definition OffsetAtPosition (d : text_doc) (pos : position) : option Z :=
  match rune_steps (Z.to_nat (p_char pos)) (td_text d) (offsetAtLine d (p_line pos)) with
  | None => None
  | Some offset =>
      let min := if offset <? Z.of_nat (length (td_text d)) then offset else Z.of_nat (length (td_text d)) in
      if min <? 0 then Some 0 else Some min
  end.

(** protocol.TextDocumentContentChangeEvent; [None]: no range, the whole text *)
Record change := Change { ch_range : option range; ch_text : gostr }.

(** document.go:563-595, one round of the loop; [None] is a panic of slicing
    with a negative bound.  Line numbers are unbounded integers: the overflow
    of [Line + 1] at 2^63-1 is not modelled. *)
Definition applyChange (d : text_doc) (c : change) : option text_doc :=
  match ch_range c with
  | None => Some (SetText (ch_text c))
  | Some r =>
      let start := r_start r in
      let end_ := r_end r in
      let text := ch_text c in
      match OffsetAtPosition d start, OffsetAtPosition d end_ with
      | Some startOffset, Some endOffset =>
          let newText := firstn (Z.to_nat startOffset) (td_text d) ++ text ++ skipn (Z.to_nat endOffset) (td_text d) in
          let len := Z.of_nat (length (td_lines d)) in
          let min := if len <? p_line start + 1 then len else p_line start + 1 in
          if min <? 0 then None
          else
            let lengthDiff := Z.of_nat (length text) - (endOffset - startOffset) in
            let '(offsets, eol) := calculateLineOffsets text startOffset in
            let newLineOffsets := firstn (Z.to_nat min) (td_lines d) ++ tl offsets in
            if p_line end_ + 1 <? len then
              if p_line end_ + 1 <? 0 then None
              else Some (TextDoc newText
                           (newLineOffsets ++ map (fun o => o + lengthDiff) (skipn (Z.to_nat (p_line end_ + 1)) (td_lines d))) eol)
            else Some (TextDoc newText newLineOffsets eol)
      | _, _ => None
      end
  end.

(** document.go:558-600 without the re-analysis (Load) *)
Fixpoint ApplyChanges (d : text_doc) (cs : list change) : option text_doc :=
  match cs with
  | [] => Some d
  | c :: cs' => match applyChange d c with
                | None => None
                | Some d' => ApplyChanges d' cs'
                end
  end.
