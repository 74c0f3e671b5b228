(** What it means that the uses of functions, classes, members and constants in
    a file are found. *)
From Coq Require Import String.
From Coq Require Import List Bool ZArith.
From Coq.Strings Require Import Byte.
From Verif Require Import Base.Bytes Base.Protocol Symbols.Symbols Symbols.KeysModel Text.TextModel
  Types.TypesModel Analyse.SyntaxModel Analyse.AnalyseModel Analyse.AnalyseSpec Analyse.DeclareSpec.
Import ListNotations.
Open Scope list_scope.
Open Scope nat_scope.

(** ** Where the analysis looks *)
(** phrases all of whose parts are read *)
Definition all_parts_read (ty : phrase_type) : bool :=
  match ty with
  (* statements *)
  | PhStatementList | PhCompoundStatement | PhExpressionStatement | PhIfStatement | PhElseIfClauseList | PhElseIfClause
  | PhElseClause | PhWhileStatement | PhDoStatement | PhForStatement | PhForInitialiser | PhForControl | PhForEndOfLoop
  | PhSwitchStatement | PhCaseStatementList | PhCaseStatement | PhDefaultStatement
  | PhTryStatement | PhCatchClauseList | PhCatchClause | PhThrowStatement | PhReturnStatement
  | PhEchoIntrinsic | PhExpressionList | PhUnsetIntrinsic | PhVariableList
  (* members *)
  | PhClassMemberDeclarationList | PhInterfaceMemberDeclarationList | PhTraitMemberDeclarationList
  (* expressions *)
  | PhAdditiveExpression | PhMultiplicativeExpression | PhLogicalExpression | PhRelationalExpression | PhEqualityExpression
  | PhUnaryOpExpression | PhCastExpression | PhTernaryExpression | PhErrorControlExpression
  | PhPostfixIncrementExpression | PhPostfixDecrementExpression | PhPrefixIncrementExpression | PhPrefixDecrementExpression
  | PhIncludeExpression | PhRequireOnceExpression | PhSubscriptExpression
  | PhEmptyIntrinsic | PhIssetIntrinsic | PhEvalIntrinsic
  | PhArrayCreationExpression | PhArrayInitialiserList | PhArrayElement | PhArrayKey | PhArrayValue
  | PhDoubleQuotedStringLiteral | PhEncapsulatedVariableList | PhEncapsulatedVariable => true
  | _ => false
  end.
(** expressions the analysis makes something of; in some places only these are
    looked at *)
Definition is_expression (n : node) : bool :=
  match n with
  | Ph (PhFunctionCallExpression | PhMethodCallExpression | PhScopedCallExpression | PhObjectCreationExpression
       | PhPropertyAccessExpression | PhScopedPropertyAccessExpression | PhClassConstantAccessExpression
       | PhErrorScopedAccessExpression | PhConstantAccessExpression | PhSimpleVariable | PhEncapsulatedExpression
       | PhCloneExpression | PhSimpleAssignmentExpression | PhByRefAssignmentExpression | PhCompoundAssignmentExpression
       | PhInstanceOfExpression | PhInstanceofTypeDesignator | PhForeachStatement) _ => true
  | _ => false
  end.
Definition is_phrase (n : node) : Prop := node_type n <> None.
(** the parts [n] of type [part] in a phrase of type [ty] that are lists of
    nodes which are read *)
Definition has_body (ty part : phrase_type) : bool :=
  match ty, part with
  | PhNamespaceDefinition, PhStatementList
  | PhClassDeclaration, PhClassDeclarationBody | PhAnonymousClassDeclaration, PhClassDeclarationBody
  | PhInterfaceDeclaration, PhInterfaceDeclarationBody | PhTraitDeclaration, PhTraitDeclarationBody
  | PhFunctionDeclaration, PhFunctionDeclarationBody | PhMethodDeclaration, PhMethodDeclarationBody
  | PhAnonymousFunctionCreationExpression, PhFunctionDeclarationBody
  | PhConstDeclaration, PhConstElementList => true
  | _, _ => false
  end.
Definition argument_lists_of (kids : list node) : list (list node) :=
  flat_map (fun k => match k with Ph PhArgumentExpressionList ks => [ks] | _ => [] end) kids.
Definition is_token (P : token_type -> Prop) (n : node) : Prop := exists t, n = Tk t /\ P (t_type t).
Definition space (n : node) : Prop := is_token (fun t => t = TkWhitespace) n.
Definition arrow_or_space (n : node) : Prop := is_token (fun t => t = TkArrow \/ t = TkWhitespace) n.
(** [kids] is an expression, an arrow and the node [name], with [rest] behind it *)
Definition behind_arrow (kids : list node) (name : node) (rest : list node) : Prop :=
  exists receiver mid, kids = receiver :: mid ++ name :: rest /\ mid <> [] /\ Forall arrow_or_space mid /\ ~ arrow_or_space name.
(** [kids] is a variable or anything else, the sign of the assignment and what is assigned *)
Definition assigns (sign : token_type) (kids : list node) (left : node) (right : node) : Prop :=
  exists w1 eq w2 rest, kids = left :: w1 ++ eq :: w2 ++ right :: rest /\ Forall space w1 /\ Forall space w2 /\
    is_token (fun t => t = sign) eq /\ is_phrase right.
Definition assigns_by_ref (kids : list node) (left : node) (right : node) : Prop :=
  exists w1 eq w2 amp w3 rest, kids = left :: w1 ++ eq :: w2 ++ amp :: w3 ++ right :: rest /\ Forall space w1 /\ Forall space w2 /\ Forall space w3 /\
    is_token (fun t => t = TkEquals) eq /\ is_token (fun t => t = TkAmpersand) amp /\ is_phrase right.

(** [reads d n c]: if the analysis reads [n] it also reads [c], a part of [n].
    An expression with a name in it that is "define" is taken for a call of define. *)
Inductive reads {TX : Text} (d : document) : node -> node -> Prop :=
| reads_part : forall ty kids c, all_parts_read ty = true -> In c kids -> reads d (Ph ty kids) c
| reads_body : forall ty part kids ks c, has_body ty part = true -> In (Ph part ks) kids -> In c ks -> reads d (Ph ty kids) c
| reads_initial_value : forall kids es ps vs c, In (Ph PhPropertyElementList es) kids -> In (Ph PhPropertyElement ps) es ->
    In (Ph PhPropertyInitialiser vs) ps -> In c vs -> reads d (Ph PhPropertyDeclaration kids) c
| reads_constant_value : forall kids es before eq after c, In (Ph PhClassConstElementList es) kids ->
    In (Ph PhClassConstElement (before ++ eq :: after)) es -> is_token (fun t => t = TkEquals) eq -> In c after -> is_phrase c ->
    reads d (Ph PhClassConstDeclaration kids) c
(* arguments *)
| reads_argument : forall kids c, In c kids -> is_phrase c -> reads d (Ph PhArgumentExpressionList kids) c
| reads_call : forall kids args c, hd_error (argument_lists_of kids) = Some args -> In c args -> is_phrase c ->
    reads d (Ph PhFunctionCallExpression kids) c
| reads_static_call : forall kids args c, ~ calls_define d kids -> hd_error (argument_lists_of (skipn 3 kids)) = Some args ->
    In c args -> is_phrase c -> reads d (Ph PhScopedCallExpression kids) c
| reads_method_call : forall kids name rest args c, ~ calls_define d kids -> behind_arrow kids name rest ->
    In args (argument_lists_of rest) -> In c args -> is_phrase c -> reads d (Ph PhMethodCallExpression kids) c
| reads_new : forall kids args c, ~ calls_define d kids -> In args (argument_lists_of kids) -> In c args -> is_phrase c ->
    reads d (Ph PhObjectCreationExpression kids) c
| reads_new_class : forall kids ks, ~ calls_define d kids -> In (Ph PhAnonymousClassDeclaration ks) kids ->
    reads d (Ph PhObjectCreationExpression kids) (Ph PhAnonymousClassDeclaration ks)
| reads_new_class_arguments : forall kids hs args, In (Ph PhAnonymousClassDeclarationHeader hs) kids ->
    In (Ph PhArgumentExpressionList args) hs -> reads d (Ph PhAnonymousClassDeclaration kids) (Ph PhArgumentExpressionList args)
(* expressions *)
| reads_receiver : forall ty c kids, ~ calls_define d (c :: kids) -> ty = PhMethodCallExpression \/ ty = PhPropertyAccessExpression ->
    is_expression c = true -> reads d (Ph ty (c :: kids)) c
| reads_inner : forall ty before c after, ~ calls_define d (before ++ c :: after) -> ty = PhEncapsulatedExpression \/ ty = PhCloneExpression ->
    (forall b, In b before -> is_expression b = false) -> reads d (Ph ty (before ++ c :: after)) c
| reads_assigned : forall kids left right, ~ calls_define d kids -> assigns TkEquals kids left right -> is_phrase left ->
    reads d (Ph PhSimpleAssignmentExpression kids) right
| reads_assigned_to : forall kids left right, ~ calls_define d kids -> assigns TkEquals kids left right -> is_phrase left ->
    node_type left <> Some PhSimpleVariable -> reads d (Ph PhSimpleAssignmentExpression kids) left
| reads_appended : forall kids vs right, ~ calls_define d kids -> assigns TkDotEquals kids (Ph PhSimpleVariable vs) right ->
    reads d (Ph PhCompoundAssignmentExpression kids) right
| reads_referenced : forall kids vs right, ~ calls_define d kids -> assigns_by_ref kids (Ph PhSimpleVariable vs) right ->
    reads d (Ph PhByRefAssignmentExpression kids) right
| reads_instanceof : forall left w1 i w2 right rest c, ~ calls_define d (left :: w1 ++ i :: w2 ++ right :: rest) ->
    Forall space w1 -> Forall space w2 -> is_token (fun t => t = TkInstanceOf) i -> is_phrase left -> is_phrase right ->
    c = left \/ c = right -> is_expression c = true ->
    reads d (Ph PhInstanceOfExpression (left :: w1 ++ i :: w2 ++ right :: rest)) c
| reads_collection : forall kids ks c, ~ calls_define d kids -> In (Ph PhForeachCollection ks) kids -> In c ks -> is_expression c = true ->
    reads d (Ph PhForeachStatement kids) c
| reads_loop : forall kids ty ks c, ~ calls_define d kids -> ty = PhCompoundStatement \/ ty = PhStatementList -> In (Ph ty ks) kids -> In c ks ->
    reads d (Ph PhForeachStatement kids) c.
(** the nodes that are read when [m] is *)
Inductive reads_in {TX : Text} (d : document) (m : node) : node -> Prop :=
| reads_it : reads_in d m m
| reads_more : forall n c, reads_in d m n -> reads d n c -> reads_in d m c.
(** the nodes of a file that are read *)
Definition is_read {TX : Text} (d : document) (n : node) : Prop := exists m, In m (node_kids (d_root d)) /\ reads_in d m n.

(** ** Uses *)
Definition qualified_name (n : node) : bool := match n with Ph (PhQualifiedName | PhFullyQualifiedName) _ => true | _ => false end.
(** a name behind an arrow *)
Definition arrow_name (d : document) (n : node) (name : gostr) : Prop :=
  exists t, t_type t = TkName /\ (n = Tk t \/ n = Ph PhMemberName [Tk t]) /\ getTokenText d t = Some name.
(** the expressions with "::" and what they use *)
Definition static_use (ty : phrase_type) (k : akind) : Prop :=
  match ty with
  | PhScopedCallExpression => k = AScopedMethodAccess
  | PhScopedPropertyAccessExpression => k = AScopedPropertyAccess
  | PhClassConstantAccessExpression | PhErrorScopedAccessExpression => k = AScopedConstantAccess
  | _ => False
  end.
Definition is_function_like (ty header : phrase_type) : bool :=
  match ty, header with
  | PhFunctionDeclaration, PhFunctionDeclarationHeader | PhMethodDeclaration, PhMethodDeclarationHeader
  | PhAnonymousFunctionCreationExpression, PhAnonymousFunctionHeader => true
  | _, _ => false
  end.
Definition is_class_header (ty header : phrase_type) : bool :=
  match ty, header with
  | PhClassDeclaration, PhClassDeclarationHeader | PhAnonymousClassDeclaration, PhAnonymousClassDeclarationHeader => true
  | _, _ => false
  end.
(** [uses d n k name at]: in [n] the name [name], written at [at], is used; [k]
    is the way it is used. *)
Inductive uses {TX : Text} (d : document) : node -> akind -> gostr -> node -> Prop :=
| uses_function : forall c kids name, ~ calls_define d (c :: kids) -> named d c name ->
    uses d (Ph PhFunctionCallExpression (c :: kids)) AFunctionCall name c
| uses_method : forall kids c rest name, ~ calls_define d kids -> behind_arrow kids c rest -> arrow_name d c name ->
    uses d (Ph PhMethodCallExpression kids) AMethodAccess name c
| uses_property : forall kids c rest name, ~ calls_define d kids -> behind_arrow kids c rest -> arrow_name d c name ->
    uses d (Ph PhPropertyAccessExpression kids) APropertyAccess name c
| uses_static : forall ty k kids ks name, ~ calls_define d kids -> static_use ty k -> nth_error kids 2 = Some (Ph PhScopedMemberName ks) ->
    named d (Ph PhScopedMemberName ks) name -> uses d (Ph ty kids) k name (Ph PhScopedMemberName ks)
| uses_static_class : forall ty k c kids name, ~ calls_define d (c :: kids) -> static_use ty k -> is_phrase c -> named d c name ->
    uses d (Ph ty (c :: kids)) AClassAccess name c
| uses_new : forall kids q s name, ~ calls_define d kids -> In (Ph PhClassTypeDesignator [q]) kids -> qualified_name q = true ->
    named d q s -> type_name s name -> uses d (Ph PhObjectCreationExpression kids) AClassTypeDesignator name (Ph PhClassTypeDesignator [q])
| uses_instanceof : forall before q after name, ~ calls_define d (before ++ q :: after) ->
    (forall b, In b before -> qualified_name b = false) -> qualified_name q = true -> named d q name ->
    uses d (Ph PhInstanceofTypeDesignator (before ++ q :: after)) AClassAccess name q
| uses_catch : forall kids q name, In q kids -> qualified_name q = true -> named d q name -> uses d (Ph PhCatchNameList kids) AClassAccess name q
| uses_trait : forall kids ks q name, In (Ph PhQualifiedNameList ks) kids -> In q ks -> qualified_name q = true -> named d q name ->
    uses d (Ph PhTraitUseClause kids) ATraitAccess name q
| uses_extends : forall ty header kids hs before q after name, is_class_header ty header = true -> In (Ph header hs) kids ->
    In (Ph PhClassBaseClause (before ++ q :: after)) hs -> (forall a, In a after -> qualified_name a = false) -> qualified_name q = true -> named d q name ->
    uses d (Ph ty kids) AClassAccess name q
| uses_implements : forall ty header kids hs before ks after q name, is_class_header ty header = true -> In (Ph header hs) kids ->
    In (Ph PhClassInterfaceClause (before ++ Ph PhQualifiedNameList ks :: after)) hs ->
    (forall b, In b before -> node_type b <> Some PhQualifiedNameList) -> In q ks -> qualified_name q = true -> named d q name ->
    uses d (Ph ty kids) AInterfaceAccess name q
| uses_parameter_type : forall ty header kids hs ps qs ts s name, is_function_like ty header = true -> In (Ph header hs) kids ->
    In (Ph PhParameterDeclarationList ps) hs -> In (Ph PhParameterDeclaration qs) ps -> In (Ph PhTypeDeclaration ts) qs ->
    named d (Ph PhTypeDeclaration ts) s -> type_name s name -> uses d (Ph ty kids) ATypeDeclaration name (Ph PhTypeDeclaration ts)
| uses_constant : forall kids name, ~ calls_define d kids -> named d (Ph PhConstantAccessExpression kids) name ->
    uses d (Ph PhConstantAccessExpression kids) AConstantAccess name (Ph PhConstantAccessExpression kids)
| uses_variable : forall kids name, ~ calls_define d kids -> named d (Ph PhSimpleVariable kids) name ->
    uses d (Ph PhSimpleVariable kids) AVariable name (Ph PhSimpleVariable kids).

(** the symbols of a symbol: itself and those inside it *)
Fixpoint symbols_in (s : asym) : list adata := match s with ASym a kids => a :: flat_map symbols_in kids end.
(** the use is among the symbols *)
Definition use_reported (d : document) (k : akind) (name : gostr) (at_ : node) (syms : list asym) : Prop :=
  exists a, In a (flat_map symbols_in syms) /\ a_kind a = k /\ ts_original (a_name a) = name /\ sits_at d at_ a.
