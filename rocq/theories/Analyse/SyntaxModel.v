(** The syntax tree of a file as go-phpparser hands it to phpintel, and the
    functions of analysis/document.go and util/parser.go that read it.

    Only the types of tokens and phrases the analysis tells apart have a
    constructor of their own; [TkOther] and [PhOther] are all the others. *)
From Coq Require Import String.
From Coq Require Import List Bool ZArith.
From Coq.Strings Require Import Byte.
From Verif Require Import Base.Bytes Base.Protocol Text.TextModel.
Import ListNotations.
Open Scope list_scope.
Open Scope nat_scope.

(** lexer.TokenType. [TkTagName] is any type between
    DocumentCommentTagNameAnchorStart and -End (phpDocComment.go:325). *)
Inductive token_type :=
| TkName | TkVariableName | TkStringLiteral | TkWhitespace | TkEquals | TkDotEquals | TkAmpersand
| TkComma | TkOpenParenthesis | TkCloseParenthesis | TkComment | TkDocumentCommentStart | TkArrow
| TkDirectoryConstant | TkFunction | TkConst | TkAbstract | TkFinal | TkStatic | TkPublic | TkProtected
| TkPrivate | TkInstanceOf | TkTagName | TkOther (n : nat).

(** phrase.PhraseType. [PhDocumentCommentTag] is any type between
    DocumentCommentTagAnchorStart and -End (phpDocComment.go:433). *)
Inductive phrase_type :=
(* symbolBlock.go:20-78: scanned for children *)
| PhExpressionStatement | PhClassMemberDeclarationList | PhInterfaceMemberDeclarationList
| PhTraitMemberDeclarationList | PhCompoundStatement | PhWhileStatement | PhStatementList
| PhAdditiveExpression | PhMultiplicativeExpression | PhIfStatement | PhElseClause | PhIncludeExpression
| PhEchoIntrinsic | PhExpressionList | PhTryStatement | PhCatchClauseList | PhCatchClause
| PhReturnStatement | PhArrayCreationExpression | PhArrayInitialiserList | PhArrayElement | PhArrayValue
| PhArrayKey | PhLogicalExpression | PhRelationalExpression | PhEqualityExpression | PhForStatement
| PhUnaryOpExpression | PhThrowStatement | PhElseIfClauseList | PhElseIfClause | PhTernaryExpression
| PhSubscriptExpression | PhEmptyIntrinsic | PhUnsetIntrinsic | PhIssetIntrinsic | PhEvalIntrinsic
| PhVariableList | PhCastExpression | PhSwitchStatement | PhCaseStatementList | PhCaseStatement
| PhDefaultStatement | PhClassConstElementList | PhPostfixIncrementExpression
| PhPostfixDecrementExpression | PhPrefixIncrementExpression | PhPrefixDecrementExpression
| PhForInitialiser | PhForControl | PhForEndOfLoop | PhDoStatement | PhDoubleQuotedStringLiteral
| PhEncapsulatedVariableList | PhEncapsulatedVariable | PhRequireOnceExpression
| PhErrorControlExpression
(* symbolBlock.go:86-105: symbols *)
| PhInterfaceDeclaration | PhClassDeclaration | PhClassConstDeclaration | PhPropertyDeclaration
| PhMethodDeclaration | PhTraitUseClause | PhFunctionDeclaration | PhConstDeclaration | PhConstElement
| PhArgumentExpressionList | PhTraitDeclaration | PhFunctionCallExpression | PhGlobalDeclaration
| PhNamespaceUseDeclaration | PhAnonymousFunctionCreationExpression | PhAnonymousClassDeclaration
| PhDocumentComment | PhCatchNameList
(* expression.go:68-87: expressions *)
| PhConstantAccessExpression | PhScopedPropertyAccessExpression | PhScopedCallExpression
| PhClassConstantAccessExpression | PhErrorScopedAccessExpression | PhObjectCreationExpression
| PhSimpleVariable | PhPropertyAccessExpression | PhMethodCallExpression | PhForeachStatement
| PhEncapsulatedExpression | PhCloneExpression | PhSimpleAssignmentExpression
| PhByRefAssignmentExpression | PhCompoundAssignmentExpression | PhInstanceOfExpression
| PhInstanceofTypeDesignator
(* parts of the above *)
| PhNamespaceDefinition | PhNamespaceName | PhClassDeclarationHeader | PhClassDeclarationBody
| PhClassBaseClause | PhClassInterfaceClause | PhQualifiedNameList | PhQualifiedName
| PhFullyQualifiedName | PhInterfaceDeclarationHeader | PhInterfaceDeclarationBody
| PhInterfaceBaseClause | PhTraitDeclarationHeader | PhTraitDeclarationBody
| PhAnonymousClassDeclarationHeader | PhFunctionDeclarationHeader | PhFunctionDeclarationBody
| PhMethodDeclarationHeader | PhMethodDeclarationBody | PhAnonymousFunctionHeader
| PhAnonymousFunctionUseClause | PhClosureUseList | PhAnonymousFunctionUseVariable
| PhParameterDeclarationList | PhParameterDeclaration | PhParameterValue | PhTypeDeclaration | PhTypeUnion
| PhIdentifier | PhMemberModifierList | PhClassConstElement | PhPropertyElementList | PhPropertyElement
| PhPropertyInitialiser | PhConstElementList | PhVariableNameList | PhNamespaceUseClauseList
| PhNamespaceUseClause | PhNamespaceUseGroupClauseList | PhNamespaceUseGroupClause
| PhNamespaceAliasingClause | PhMemberName | PhScopedMemberName | PhClassTypeDesignator
| PhRelativeScope | PhForeachCollection | PhForeachValue | PhDocumentCommentDescription
| PhDocumentCommentTag
| PhOther (n : nat).

(** lexer.Token: type, offset, length *)
Record token := Tok { t_type : token_type; t_offset : nat; t_length : nat }.
Definition t_end (t : token) : nat := t_offset t + t_length t.

(** phrase.AstNode: a phrase, a token, or a parse error, of which only the
    unexpected token is kept. Simplified: no child of a phrase is nil. *)
Inductive node :=
| Ph (ty : phrase_type) (kids : list node)
| Tk (t : token)
| Err (unexpected : option token).

(** util/parser.go:9-20 FirstToken *)
Fixpoint FirstToken (n : node) : option token :=
  match n with
  | Tk t => Some t
  | Err u => u
  | Ph _ [] => None
  | Ph _ (k :: _) => FirstToken k
  end.
(** util/parser.go:23-34 LastToken *)
Fixpoint LastToken (n : node) : option token :=
  match n with
  | Tk t => Some t
  | Err u => u
  | Ph _ kids =>
      (fix last_of (ks : list node) : option token :=
         match ks with
         | [] => None
         | k :: ks => match ks with [] => LastToken k | _ :: _ => last_of ks end
         end) kids
  end.

(** a loaded document: its text, its tree, and the first six bytes of the md5
    of its URI in hexadecimal (anonymousClass.go:15) *)
Record document := Doc { d_text : text_doc; d_root : node; d_hash : gostr }.

(** document.go:184-190 positionAt. The index -1 is never used: the first line
    starts at 0 (positionAt_total in AnalyseProofs.v, for the texts documents are made of). *)
Definition pos_at (d : document) (offset : nat) : position :=
  match positionAt (d_text d) (Z.of_nat offset) with Some p => p | None => zero_pos end.

(** document.go:213-222 NodeRange; [None] for the nil node *)
Definition NodeRange (d : document) (n : node) : range :=
  match FirstToken n, LastToken n with
  | Some f, Some l => Rng (pos_at d (t_offset f)) (pos_at d (t_end l))
  | _, _ => zero_range
  end.
Definition NodeRangeOpt (d : document) (n : option node) : range :=
  match n with Some n => NodeRange d n | None => zero_range end.

(** slicing s.text[i:j]; [None] is the panic of bounds *)
Definition text_slice (d : document) (i j : nat) : option gostr :=
  if (i <=? j) && (j <=? length (td_text (d_text d))) then Some (slice (td_text (d_text d)) i j) else None.
(** document.go:253-255 getTokenText *)
Definition getTokenText (d : document) (t : token) : option gostr := text_slice d (t_offset t) (t_end t).
(** document.go:257-263 getPhraseText *)
Definition getPhraseText (d : document) (n : node) : option gostr :=
  match FirstToken n, LastToken n with
  | Some f, Some l => text_slice d (t_offset f) (t_end l)
  | _, _ => Some []
  end.
(** document.go:265-273 GetNodeText *)
Definition GetNodeText (d : document) (n : node) : option gostr :=
  match n with
  | Tk t => getTokenText d t
  | Ph _ _ => getPhraseText d n
  | Err _ => Some []
  end.

(** util/traverser.go:70-77 SkipToken on the children that are left *)
Definition token_is (f : token_type -> bool) (n : node) : bool :=
  match n with Tk t => f (t_type t) | _ => false end.
Fixpoint SkipToken (f : token_type -> bool) (ns : list node) : list node :=
  match ns with
  | n :: ns' => if token_is f n then SkipToken f ns' else ns
  | [] => []
  end.
Definition is_whitespace (t : token_type) : bool := match t with TkWhitespace => true | _ => false end.
Definition is_equals (t : token_type) : bool := match t with TkEquals => true | _ => false end.
Definition is_dot_equals (t : token_type) : bool := match t with TkDotEquals => true | _ => false end.
Definition is_ampersand (t : token_type) : bool := match t with TkAmpersand => true | _ => false end.
Definition is_instanceof (t : token_type) : bool := match t with TkInstanceOf => true | _ => false end.

(** symbolBlock.go:20-78 typesToScanForChildren *)
Definition typesToScanForChildren (ty : phrase_type) : bool :=
  match ty with
  | PhExpressionStatement | PhClassMemberDeclarationList | PhInterfaceMemberDeclarationList
  | PhTraitMemberDeclarationList | PhCompoundStatement | PhWhileStatement | PhStatementList
  | PhAdditiveExpression | PhMultiplicativeExpression | PhIfStatement | PhElseClause | PhIncludeExpression
  | PhEchoIntrinsic | PhExpressionList | PhTryStatement | PhCatchClauseList | PhCatchClause
  | PhReturnStatement | PhArrayCreationExpression | PhArrayInitialiserList | PhArrayElement | PhArrayValue
  | PhArrayKey | PhLogicalExpression | PhRelationalExpression | PhEqualityExpression | PhForStatement
  | PhUnaryOpExpression | PhThrowStatement | PhElseIfClauseList | PhElseIfClause | PhTernaryExpression
  | PhSubscriptExpression | PhEmptyIntrinsic | PhUnsetIntrinsic | PhIssetIntrinsic | PhEvalIntrinsic
  | PhVariableList | PhCastExpression | PhSwitchStatement | PhCaseStatementList | PhCaseStatement
  | PhDefaultStatement | PhClassConstElementList | PhPostfixIncrementExpression
  | PhPostfixDecrementExpression | PhPrefixIncrementExpression | PhPrefixDecrementExpression
  | PhForInitialiser | PhForControl | PhForEndOfLoop | PhDoStatement | PhDoubleQuotedStringLiteral
  | PhEncapsulatedVariableList | PhEncapsulatedVariable | PhRequireOnceExpression
  | PhErrorControlExpression => true
  | _ => false
  end.

(** the keys of expression.go:68-87 nodeTypeToExprConstructor *)
Definition is_expr_type (ty : phrase_type) : bool :=
  match ty with
  | PhFunctionCallExpression | PhConstantAccessExpression | PhScopedPropertyAccessExpression
  | PhScopedCallExpression | PhClassConstantAccessExpression | PhErrorScopedAccessExpression
  | PhObjectCreationExpression | PhSimpleVariable | PhPropertyAccessExpression | PhMethodCallExpression
  | PhForeachStatement | PhEncapsulatedExpression | PhCloneExpression | PhSimpleAssignmentExpression
  | PhByRefAssignmentExpression | PhCompoundAssignmentExpression | PhInstanceOfExpression
  | PhInstanceofTypeDesignator => true
  | _ => false
  end.
