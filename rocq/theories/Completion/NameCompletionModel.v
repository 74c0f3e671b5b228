(** Which list a completion request gets: internal/lsp/completion.go:61-179.
    Variables are in Completion/VarCompletionModel.v, members in
    Members/MemberCompletionModel.v, the lists of names in
    Completion/CompletionModel.v. *)
From Coq Require Import String.
From Coq Require Import List Bool NArith ZArith.
From Coq.Strings Require Import Byte.
From Verif Require Import Base.Bytes Base.Protocol Symbols.Symbols Symbols.KeysModel Types.TypesModel Text.TextModel Text.PositionModel
  Analyse.SyntaxModel Analyse.AnalyseModel Store.FilterModel Store.StoreModel Whole.CursorModel
  Completion.VarCompletionModel Completion.CompletionModel.
Import ListNotations.
Open Scope list_scope.
Open Scope nat_scope.

(** the answers; [NoMoreThanMembers]: members, or no list *)
Inductive answer := NoList | VariableList | NoMoreThanMembers | NameList (l : completion_list).
Section Completion.
Context {TX : Text} {X : XorFilter}.
Definition names (l : option completion_list) : option answer := option_map NameList l.
(** completion.go:86-169, for the phrases around the token, the innermost first;
    [None]: a panic while searching *)
Definition by_place (st : store) (above : list node) (word : gostr) : option answer :=
  let above := match above with Ph PhScopedMemberName _ :: above => above | _ => above end in
  match above with
  | Ph (PhSimpleVariable | PhEncapsulatedVariableList) _ :: above =>
      match above with Ph PhScopedMemberName _ :: _ => Some NoMoreThanMembers | _ => Some VariableList end
  | Ph PhNamespaceName _ :: _ :: Ph ty _ :: above =>
      match ty with
      | PhConstantAccessExpression => names (nameCompletion st word)
      | PhClassBaseClause => names (classCompletion st word)
      | PhInterfaceBaseClause => names (interfaceCompletion st word)
      | PhQualifiedNameList =>
          match above with
          | Ph PhClassInterfaceClause _ :: _ => names (interfaceCompletion st word)
          | Ph PhTraitUseClause _ :: _ => names (traitCompletion st word)
          | _ => Some NoList
          end
      | _ => Some NoList
      end
  | Ph (PhErrorScopedAccessExpression | PhClassConstantAccessExpression | PhScopedCallExpression | PhScopedPropertyAccessExpression
       | PhIdentifier | PhPropertyAccessExpression | PhMemberName) _ :: _ => Some NoMoreThanMembers
  | _ => Some NoList
  end.
(** completion.go:170-177: the list of the symbol under the cursor, if it is one
    of these *)
Definition by_symbol (st : store) (symbol : option adata) (a : answer) : option answer :=
  match symbol with
  | Some x =>
      match a_kind x with
      | AClassTypeDesignator => names (classCompletion st (ts_original (a_name x)))
      | AClassAccess | ATypeDeclaration => names (typeCompletion st (ts_original (a_name x)))
      | _ => Some a
      end
  | None => Some a
  end.
(** completion.go:61-179 completion, for an open document; [None]: a panic *)
Definition completionAt (st : store) (d : document) (s : AnalyseModel.state) (pos : position) : option answer :=
  match WordAtPos (d_text d) pos, OffsetAtPosition (d_text d) pos with
  | Some word, Some offset =>
      match by_place st (match NodeSpineAt d offset with Some (above, _) => above | None => [] end) word with
      | Some a => by_symbol st (HasTypesAtPos (st_out s) pos) a
      | None => None
      end
  | _, _ => None
  end.
End Completion.
