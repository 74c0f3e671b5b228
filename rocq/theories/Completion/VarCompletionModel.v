(** Completion of variables: internal/lsp/completion.go:61-212, and the word in
    front of the cursor, analysis/document.go:19, 498-509. *)
From Coq Require Import String.
From Coq Require Import List Bool NArith ZArith.
From Coq.Strings Require Import Byte.
From Verif Require Import Base.Bytes Base.Protocol Base.Utf8 Base.SortSearch Symbols.Symbols Symbols.KeysModel Types.TypesModel Text.TextModel Text.PositionModel
  Rpc.StreamModel Words.TokeniserModel Ide.VariableModel Analyse.SyntaxModel Analyse.AnalyseModel Store.FilterModel Store.SearchModel
  Whole.CursorModel Rename.RenameModel.
Import ListNotations.
Open Scope list_scope.
Open Scope nat_scope.

(** ** The word in front of the cursor *)
(** document.go:19 wordRegex, its first class: in a Go pattern \x80-\xff are the
    characters U+0080 to U+00FF, not bytes *)
Definition first_of_word (r : N) : bool :=
  (N.eqb r 92 || (N.leb 97 r && N.leb r 122) || (N.leb 65 r && N.leb r 90) || N.eqb r 95 || (N.leb 128 r && N.leb r 255))%N.
(** its second class *)
Definition rest_of_word (r : N) : bool := (first_of_word r || (N.leb 48 r && N.leb r 57))%N.
(** wordRegex.FindString, the search: where the leftmost match that goes up to the
    end begins, after the characters read so far. Bytes that are no character are
    U+FFFD, as in range. *)
Definition word_step (found : option nat) (c : nat * N) : option nat :=
  match found with
  | Some i => if rest_of_word (snd c) then Some i else None
  | None => if first_of_word (snd c) then Some (fst c) else None
  end.
Definition FindWord (line : gostr) : gostr :=
  match fold_left word_step (range_runes line) None with
  | Some i => skipn i line
  | None => []
  end.
(** document.go:498-509 WordAtPos; [None]: a panic of slicing or indexing *)
Definition WordAtPos (d : text_doc) (pos : position) : option gostr :=
  match OffsetAtPosition d pos with
  | Some offset =>
      let lines := td_lines d in
      (* sort.SearchInts(lineOffsets, offset) - 1, at least 0 *)
      let n := Nat.pred (sort_search (length lines) (fun i => (offset <=? nth i lines 0)%Z)) in
      let n := if (S n <? length lines) && (offset =? nth (S n) lines 0)%Z then S n else n in
      match nth_error lines n with
      | Some start => option_map FindWord (go_slice (td_text d) (Z.to_nat start) (Z.to_nat offset))
      | None => None
      end
  | None => None
  end.

(** ** The items *)
(** Go's == of two ranges *)
Definition pos_eqb (a b : position) : bool := (p_line a =? p_line b)%Z && (p_char a =? p_char b)%Z.
Definition range_eqb (a b : range) : bool := pos_eqb (r_start a) (r_start b) && pos_eqb (r_end a) (r_end b).
Section Completion.
Context {TX : Text}.
(** completion.go:191-199: the variables that are left out *)
Definition left_out (symbol : option adata) (word : gostr) (v : variable) : bool :=
  str_eqb (v_name v) (B "$")
  || match symbol with Some a => range_eqb (a_range a) (v_range v) | None => false end
  || (negb (str_eqb word []) && negb (contains (v_name v) word)).
(** completion.go:181-212 variableCompletion: the labels, which are also the texts
    to insert. The types shown beside them are left out. *)
Definition variableCompletion (d : document) (s : state) (pos : position) (word : gostr) : list gostr :=
  match GetVariableTableAt (tables_of d s) pos with
  | Some i =>
      match nth_error (vd_tables (tables_of d s)) i with
      | Some t => map v_name (List.filter (fun v => negb (left_out (HasTypesAtPos (st_out s) pos) word v)) (GetVariables (vt_vars t) pos))
      | None => []
      end
  | None => []
  end.
(** the answers: variables, or any other one (no list, names, members) *)
Inductive completions := Variables (labels : list gostr) | Others.
(** completion.go:86-98: whether variables are completed, for the phrases around
    the token, the innermost first. util/traverser.go:155-174: above the root the
    type is Unknown. *)
Definition completes_variables (above : list node) : bool :=
  let above := match above with Ph PhScopedMemberName _ :: above => above | _ => above end in
  match above with
  | Ph (PhSimpleVariable | PhEncapsulatedVariableList) _ :: above => match above with Ph PhScopedMemberName _ :: _ => false | _ => true end
  | _ => false
  end.
(** completion.go:170-177: for these symbols the list is replaced *)
Definition completes_class (symbol : option adata) : bool :=
  match symbol with
  | Some a => match a_kind a with AClassTypeDesignator | AClassAccess | ATypeDeclaration => true | _ => false end
  | None => false
  end.
(** completion.go:61-179 completion, for an open document; [None]: a panic *)
Definition completion (d : document) (s : state) (pos : position) : option completions :=
  match WordAtPos (d_text d) pos, OffsetAtPosition (d_text d) pos with
  | Some word, Some offset =>
      Some (if completes_class (HasTypesAtPos (st_out s) pos) then Others
            else match NodeSpineAt d offset with
                 | Some (above, _) => if completes_variables above then Variables (variableCompletion d s pos word) else Others
                 | None => Others
                 end)
  | _, _ => None
  end.
End Completion.
