(** What is reported about a file: analysis/diagnostic.go. *)
From Coq Require Import String.
From Coq Require Import List Bool ZArith.
From Coq.Strings Require Import Byte.
From Verif Require Import Base.Bytes Base.Protocol Symbols.Symbols Symbols.KeysModel Text.TextModel Text.PositionModel Types.TypesModel
  Types.ImportModel Rpc.StreamModel Analyse.SyntaxModel Analyse.AnalyseModel Analyse.RefModel
  Storage.KvModel Store.FilterModel Store.StoreModel Query.QueryModel Query.QueryStoreModel Whole.CursorModel Whole.DefinitionModel.
Import ListNotations.
Open Scope list_scope.
Open Scope nat_scope.

(** protocol/enums.go: the severities and tags that are used *)
Inductive severity := SeverityError | SeverityHint.
Inductive diagnostic_tag := Unnecessary | Deprecated.
(** protocol.Diagnostic, without the source, which is always "phpintel" *)
Record diagnostic := Diag { dg_range : range; dg_message : gostr; dg_severity : severity; dg_tags : list diagnostic_tag }.

(** ** Deprecated *)
(** diagnostic.go:331-347 deprecatedDescription *)
Definition deprecatedDescription (msg : gostr) (t : Symbols.tag) : gostr :=
  let description :=
    (match Symbols.tg_name t with
     | [] => []
     | _ => B "Since " ++ Symbols.tg_name t ++ match Symbols.tg_description t with [] => [] | _ => B " - " end
     end) ++ match Symbols.tg_description t with [] => [] | _ => Symbols.tg_description t end in
  match description with [] => msg | _ => msg ++ B ": " ++ description end.

Section Hints.
Context {TX : Text} {X : XorFilter}.
(** "for _, c := range q.Get...(fqn) { if c.deprecatedTag != nil { ... break } }":
    the first tag among what is found. [None]: a panic *)
Fixpoint first_tag (tags : list (option Symbols.tag)) : option Symbols.tag :=
  match tags with
  | [] => None
  | Some t :: _ => Some t
  | None :: tags => first_tag tags
  end.
Definition deprecated_in {A} (tag_of : A -> option Symbols.tag) (found : option (list A)) : option (option Symbols.tag) := option_map (fun l => first_tag (map tag_of l)) found.
(** the loops one after the other, up to the first tag; what comes behind is not looked up *)
Fixpoint first_of (loops : list (option (option Symbols.tag))) : option (option Symbols.tag) :=
  match loops with
  | [] => Some None
  | None :: _ => None
  | Some (Some t) :: _ => Some (Some t)
  | Some None :: loops => first_of loops
  end.
Definition class_tag (st : store) (fqn : gostr) := deprecated_in c_deprecated (Query_GetClasses st fqn).
Definition interface_tag (st : store) (fqn : gostr) := deprecated_in i_deprecated (GetInterfaces st fqn).
Definition function_tag (st : store) (fqn : gostr) := deprecated_in f_deprecated (GetFunctions st fqn).
Definition const_tag (st : store) (fqn : gostr) := deprecated_in k_deprecated (GetConsts st fqn).
Definition define_tag (st : store) (fqn : gostr) := deprecated_in d_deprecated (GetDefines st fqn).
(** diagnostic.go:99-211, the tag that is found for a symbol. [None]: a panic *)
Definition tag_for (st : store) (tables : list ImportTable) (a : adata) : option (option Symbols.tag) :=
  match a_kind a with
  | AFunctionCall =>
      match ImportTableAtPos tables (r_start (a_range a)), NewTypeString (ts_original (a_name a)) with
      | Some table, Some name => function_tag st (GetFunctionReferenceFQN (fun f => any (GetFunctions st f)) table name)
      | _, _ => None
      end
  | AClassTypeDesignator => first_of (map (fun t => class_tag st (ts_fqn t)) (a_types a))
  | ATypeDeclaration | AClassAccess => first_of (flat_map (fun t => [class_tag st (ts_fqn t); interface_tag st (ts_fqn t)]) (a_types a))
  | AInterfaceAccess => first_of (map (fun t => interface_tag st (ts_fqn t)) (a_types a))
  | AConstantAccess =>
      match ImportTableAtPos tables (r_start (a_range a)), NewTypeString (ts_original (a_name a)) with
      | Some table, Some name =>
          let fqn := GetConstReferenceFQN (fun f => any (GetConsts st f)) (fun f => any (GetDefines st f)) table name in
          first_of [const_tag st fqn; define_tag st fqn]
      | _, _ => None
      end
  | _ => Some None
  end.
(** diagnostic.go:87-95 create *)
Definition hint (a : adata) (t : Symbols.tag) : diagnostic :=
  Diag (a_range a) (deprecatedDescription (ts_original (a_name a) ++ B " is deprecated") t) SeverityHint [Deprecated].
(** diagnostic.go:83-329 DeprecatedDiagnostics, TraverseDocument (symbol.go:145-161).
    Simplified: nothing is reported for the uses of members (diagnostic.go:212-325), and
    for a class access through a variable the types of the variable are not known. *)
Definition hint_visit (st : store) (tables : list ImportTable) (found : option (list diagnostic)) (a : adata) : option (list diagnostic) :=
  match found, tag_for st tables a with
  | Some l, Some (Some t) => Some (l ++ [hint a t])
  | Some l, Some None => Some l
  | _, _ => None
  end.
Fixpoint hint_walk (st : store) (tables : list ImportTable) (found : option (list diagnostic)) (s : asym) : option (list diagnostic) :=
  match s with ASym a kids => fold_left (hint_walk st tables) kids (hint_visit st tables found a) end.
Definition DeprecatedDiagnostics (st : store) (s : state) : option (list diagnostic) := fold_left (hint_walk st (st_imports s)) (st_out s) (Some []).
End Hints.

(** ** Syntax errors *)
(** phrase.ParseError: the unexpected token, the expected type (its String; [None]:
    lexer.Undefined), and the tokens that were skipped *)
Record parse_error := ParseError { pe_unexpected : option token; pe_expected : option gostr; pe_children : list token }.
(** phrase.AstNode with the parse errors in full *)
Inductive tree :=
| TPhrase (ty : phrase_type) (kids : list tree)
| TToken (t : token)
| TError (e : parse_error).
(** document.go:224-238 errorRange. [None]: the panic of a nil pointer *)
Definition errorRange (d : document) (e : parse_error) : option range :=
  match pe_children e with
  | [] => option_map (fun u => Rng (pos_at d (t_offset u)) (pos_at d (t_end u))) (pe_unexpected e)
  | first :: rest => Some (Rng (pos_at d (t_offset first)) (pos_at d (t_end (last rest first))))
  end.
(** diagnostic.go:31-53 parserErrorToDiagnostic; [type_name] is TokenType.String *)
Definition parserErrorToDiagnostic (type_name : token_type -> gostr) (d : document) (e : parse_error) : option diagnostic :=
  let unexpected := match pe_unexpected e with Some u => B "Unexpected " ++ type_name (t_type u) ++ B "." | None => [] end in
  let message := match pe_expected e with
                 | Some x => (match unexpected with [] => unexpected | _ => unexpected ++ B " " end) ++ B "Expected " ++ x ++ B "."
                 | None => unexpected
                 end in
  let message := match message with [] => B "Unknown error" | _ => message end in
  option_map (fun r => Diag r message SeverityError []) (errorRange d e).
(** diagnostic.go:15-29 GetParserDiagnostics, util/traverser.go:94-114 realTraverse:
    the walk appends to the diagnostics found so far. The spine is not used. A parse
    error is not a phrase, the walk does not go below it. *)
Fixpoint parser_walk (type_name : token_type -> gostr) (d : document) (found : option (list diagnostic)) (n : tree) : option (list diagnostic) :=
  match n with
  | TPhrase PhDocumentComment _ => found
  | TPhrase _ kids => fold_left (parser_walk type_name d) kids found
  | TToken _ => found
  | TError e => match found, parserErrorToDiagnostic type_name d e with Some l, Some dg => Some (l ++ [dg]) | _, _ => None end
  end.
Definition GetParserDiagnostics (type_name : token_type -> gostr) (d : document) (root : tree) : option (list diagnostic) := parser_walk type_name d (Some []) root.
(** the tree with as much of the parse errors as the model of the analysis looks at *)
Fixpoint plain (n : tree) : node :=
  match n with
  | TPhrase ty kids => Ph ty (map plain kids)
  | TToken t => Tk t
  | TError e => Err (pe_unexpected e)
  end.
