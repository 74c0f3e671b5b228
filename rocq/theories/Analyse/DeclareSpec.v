(** What it means that the declarations of a file are found. *)
From Coq Require Import String.
From Coq Require Import List Bool ZArith.
From Coq.Strings Require Import Byte.
From Verif Require Import Base.Bytes Base.Protocol Symbols.Symbols Symbols.KeysModel Text.TextModel
  Types.TypesModel Analyse.SyntaxModel Analyse.AnalyseModel Analyse.AnalyseSpec.
Import ListNotations.
Open Scope list_scope.
Open Scope nat_scope.

(** ** Statements and the namespaces they are in *)
(** phrases that are made of statements; "finally", "declare" and "foreach"
    would belong here *)
Definition is_block (ty : phrase_type) : bool :=
  match ty with
  | PhStatementList | PhCompoundStatement | PhExpressionStatement | PhIfStatement | PhElseIfClauseList | PhElseIfClause
  | PhElseClause | PhWhileStatement | PhDoStatement | PhForStatement | PhTryStatement | PhCatchClauseList | PhCatchClause
  | PhSwitchStatement | PhCaseStatementList | PhCaseStatement | PhDefaultStatement => true
  | _ => false
  end.
Definition text_or_nothing (d : document) (n : node) : gostr := match GetNodeText d n with Some s => s | None => [] end.
(** [walk d ns n]: the statements in [n], each with the namespace it is in, and
    the namespace behind [n]; [ns] is the namespace in front of [n].  A namespace
    holds until the next one begins. *)
Fixpoint walk (d : document) (ns : gostr) (n : node) : list (gostr * node) * gostr :=
  let all := fix all (ns : gostr) (kids : list node) : list (gostr * node) * gostr :=
    match kids with
    | [] => ([], ns)
    | k :: kids => let (l, ns) := walk d ns k in let (l', ns) := all ns kids in (l ++ l', ns)
    end in
  match n with
  | Ph PhNamespaceDefinition kids =>
      (fix block (ns : gostr) (kids : list node) : list (gostr * node) * gostr :=
         match kids with
         | [] => ([], ns)
         | Ph PhNamespaceName _ as k :: kids => block (text_or_nothing d k) kids
         | Ph PhStatementList _ as k :: kids => let (l, ns) := walk d ns k in let (l', ns) := block ns kids in (l ++ l', ns)
         | _ :: kids => block ns kids
         end) [] kids
  | Ph PhConstDeclaration kids =>
      (flat_map (fun k => match k with Ph PhConstElementList ks => map (pair ns) ks | _ => [] end) kids, ns)
  | Ph ty kids => if is_block ty then all ns kids else ([(ns, n)], ns)
  | _ => ([(ns, n)], ns)
  end.
Fixpoint walk_all (d : document) (ns : gostr) (kids : list node) : list (gostr * node) * gostr :=
  match kids with
  | [] => ([], ns)
  | k :: kids => let (l, ns) := walk d ns k in let (l', ns) := walk_all d ns kids in (l ++ l', ns)
  end.
Definition statements (d : document) : list (gostr * node) := fst (walk_all d [] (node_kids (d_root d))).

(** ** Names *)
Definition qualify (ns name : gostr) : gostr := BSL :: match ns with [] => name | _ => ns ++ BSL :: name end.
(** not the name of a type, nor anything but a name *)
Definition plain_name (name : gostr) : Prop :=
  name <> [] /\ ~ In x5d name /\ ~ In BSL name /\
  ~ In name (map B ["boolean"; "integer"; "mixed"; "null"; "bool"; "true"; "false"; "int"; "float"; "real"; "double"; "string";
                    "binary"; "array"; "object"; "callable"; "void"; "static"; "$this"; "__DIR__"; "__FILE__"]%string).
(** the last of the nodes that can be a name *)
Definition last_of (can_be : node -> bool) (kids : list node) : option node := nth_error (rev (List.filter can_be kids)) 0.
Definition name_token (n : node) : bool := match n with Tk (Tok TkName _ _) => true | _ => false end.
Definition variable_token (n : node) : bool := match n with Tk (Tok TkVariableName _ _) => true | _ => false end.
Definition identifier (n : node) : bool := match n with Ph PhIdentifier _ => true | _ => false end.
Definition name_or_identifier (n : node) : bool := name_token n || identifier n.
Definition text_at (d : document) (n : option node) : option gostr := match n with Some n => GetNodeText d n | None => None end.
Fixpoint before_equals (kids : list node) : list node :=
  match kids with
  | [] => []
  | k :: kids => if token_is is_equals k then [] else k :: before_equals kids
  end.
(** the name written in a declaration *)
Definition name_of (d : document) (n : node) : option gostr :=
  match n with
  | Ph PhClassDeclaration kids => text_at d (last_of name_token (header_kids class_header_type kids))
  | Ph PhInterfaceDeclaration kids => text_at d (last_of name_token (header_kids interface_header_type kids))
  | Ph PhTraitDeclaration kids => text_at d (last_of name_token (header_kids trait_header_type kids))
  | Ph PhFunctionDeclaration kids => text_at d (last_of name_or_identifier (header_kids function_header_type kids))
  | Ph PhMethodDeclaration kids => text_at d (last_of name_or_identifier (header_kids method_header_type kids))
  | Ph PhConstElement kids => text_at d (last_of name_token kids)
  | Ph PhPropertyElement kids => text_at d (last_of variable_token kids)
  | Ph PhClassConstElement kids => text_at d (last_of identifier (before_equals kids))
  | _ => None
  end.
Definition declares_kind (n : node) (k : akind) : Prop :=
  match node_type n with
  | Some PhClassDeclaration => k = AClass
  | Some PhInterfaceDeclaration => k = AInterface
  | Some PhTraitDeclaration => k = ATrait
  | Some PhFunctionDeclaration => k = AFunction
  | Some PhConstElement => k = AConst
  | _ => False
  end.

(** ** Classes *)
Definition is_class_like (n : node) : Prop :=
  match node_type n with
  | Some (PhClassDeclaration | PhInterfaceDeclaration | PhTraitDeclaration | PhAnonymousClassDeclaration) => True
  | _ => False
  end.
(** no class is declared inside *)
Definition no_class_inside (n : node) : Prop := forall k m, In k (node_kids n) -> below m k -> ~ is_class_like m.
(** the members of a class, in lists or not *)
Fixpoint member_nodes (n : node) : list node :=
  match n with
  | Ph (PhClassMemberDeclarationList | PhInterfaceMemberDeclarationList | PhTraitMemberDeclarationList) kids => flat_map member_nodes kids
  | _ => [n]
  end.
(** the header of a class and its members *)
Definition class_parts (is_header is_body : phrase_type -> bool) (kids : list node) : list node :=
  flat_map (fun k => match k with
    | Ph ty ks => if is_header ty then [k] else if is_body ty then flat_map member_nodes ks else []
    | _ => []
    end) kids.
Definition class_body_type (ty : phrase_type) : bool := match ty with PhClassDeclarationBody => true | _ => false end.
Definition interface_body_type (ty : phrase_type) : bool := match ty with PhInterfaceDeclarationBody => true | _ => false end.
Definition trait_body_type (ty : phrase_type) : bool := match ty with PhTraitDeclarationBody => true | _ => false end.
Definition parts (n : node) : list node :=
  match n with
  | Ph PhClassDeclaration kids => class_parts class_header_type class_body_type kids
  | Ph PhInterfaceDeclaration kids => class_parts interface_header_type interface_body_type kids
  | Ph PhTraitDeclaration kids => class_parts trait_header_type trait_body_type kids
  | _ => []
  end.
(** the properties or constants of one declaration, each with the modifiers in
    front of its list *)
Fixpoint elements (is_list is_element : phrase_type -> bool) (mods : list node) (kids : list node) : list (list node * node) :=
  match kids with
  | [] => []
  | Ph ty ks :: kids =>
      if is_list ty then
        map (pair mods) (List.filter (fun e => match e with Ph ty _ => is_element ty | _ => false end) ks) ++ elements is_list is_element mods kids
      else elements is_list is_element (match ty with PhMemberModifierList => ks | _ => mods end) kids
  | _ :: kids => elements is_list is_element mods kids
  end.
Definition properties (kids : list node) : list (list node * node) :=
  elements (fun ty => match ty with PhPropertyElementList => true | _ => false end)
           (fun ty => match ty with PhPropertyElement => true | _ => false end) [] kids.
Definition class_consts (kids : list node) : list (list node * node) :=
  elements (fun ty => match ty with PhClassConstElementList => true | _ => false end)
           (fun ty => match ty with PhClassConstElement => true | _ => false end) [] kids.

(** the symbols [syms] are the property, constant: what its value contains, then
    the member itself *)
Definition element_reported (d : document) (k : akind) (static : bool) (scope_ok : type_string -> Prop) (vis : Z) (e : node) (syms : list asym) : Prop :=
  exists value a, syms = value ++ [ASym a []] /\ Forall (comes_from d e) value /\
    a_kind a = k /\ sits_at d e a /\ a_vis a = vis /\ a_static a = static /\
    (forall name, name_of d e = Some name -> a_name a = TS name name 0) /\ scope_ok (a_scope a).
(** its header is in front of its body, and no class is inside it *)
Definition simple_class (cls : node) : Prop :=
  no_class_inside cls /\
  (forall before b after k, node_kids cls = before ++ b :: after -> In k after ->
     match node_type b with Some (PhClassDeclarationBody | PhInterfaceDeclarationBody | PhTraitDeclarationBody) => True | _ => False end ->
     match node_type k with Some (PhClassDeclarationHeader | PhInterfaceDeclarationHeader | PhTraitDeclarationHeader) => False | _ => True end).
(** [member_reported d cls fqn m syms]: [syms] is what the member [m] of the
    class [cls], which is called [fqn], is reported as.  If there is a class inside
    [cls] the members may belong to that (see the refutation). *)
Definition member_reported (d : document) (cls : node) (fqn : gostr) (m : node) (syms : list asym) : Prop :=
  let of_class := fun scope => simple_class cls -> ts_fqn scope = fqn in
  match m with
  | Ph PhMethodDeclaration kids => exists a inside, syms = [ASym a inside] /\ Forall (comes_from d m) inside /\
      a_kind a = AMethod /\ sits_at d m a /\
      a_vis a = visibility_of (modifiers (header_kids method_header_type kids)) /\
      a_static a = static_of (modifiers (header_kids method_header_type kids)) /\
      (forall name, name_of d m = Some name -> a_name a = TS name name 0) /\ of_class (a_scope a)
  | Ph PhPropertyDeclaration kids => exists segs, syms = concat segs /\
      Forall2 (fun e => element_reported d AProperty (static_of (fst e))
                 (fun scope => node_type cls <> Some PhInterfaceDeclaration -> of_class scope) (visibility_of (fst e)) (snd e))
        (properties kids) segs
  | Ph PhClassConstDeclaration kids => exists segs, syms = concat segs /\
      Forall2 (fun e => element_reported d AClassConst true of_class (visibility_of (fst e)) (snd e)) (class_consts kids) segs
  | _ => Forall (comes_from d m) syms
  end.

(** ** What a statement is reported as *)
(** a call of define *)
Definition calls_define {TX : Text} (d : document) (kids : list node) : Prop :=
  exists ty ks s, In (Ph ty ks) kids /\ (ty = PhQualifiedName \/ ty = PhFullyQualifiedName) /\ named d (Ph ty ks) s /\
    (to_lower s = B "define" \/ to_lower s = BSL :: B "define").
(** the text in quotes that is the first argument *)
Definition first_argument (kids : list node) : option node :=
  match flat_map (fun k => match k with Ph PhArgumentExpressionList ks => [ks] | _ => [] end) kids with
  | [ks] => hd_error (List.filter is_argument ks)
  | _ => None
  end.
Definition quoted (d : document) (n : option node) (s : gostr) : Prop :=
  exists o l q1 q2, n = Some (Tk (Tok TkStringLiteral o l)) /\ getTokenText d (Tok TkStringLiteral o l) = Some (q1 :: s ++ [q2]).

(** [reported d ns n syms]: [syms] is what the statement [n] in the namespace
    [ns] is reported as. *)
Definition reported {TX : Text} (d : document) (ns : gostr) (n : node) (syms : list asym) : Prop :=
  Forall (comes_from d n) syms /\
  match n with
  | Ph (PhClassDeclaration | PhInterfaceDeclaration | PhTraitDeclaration) _ =>
      exists a inside, syms = [ASym a inside] /\ declares_kind n (a_kind a) /\ sits_at d n a /\
        forall name, name_of d n = Some name -> plain_name name ->
          a_name a = TS (qualify ns name) name 0 /\
          exists segs, inside = concat segs /\ Forall2 (member_reported d n (qualify ns name)) (parts n) segs
  | Ph PhFunctionDeclaration _ | Ph PhConstElement _ =>
      exists a inside, syms = [ASym a inside] /\ declares_kind n (a_kind a) /\ sits_at d n a /\
        forall name, name_of d n = Some name -> plain_name name -> a_name a = TS (qualify ns name) name 0
  | Ph PhFunctionCallExpression kids => calls_define d kids ->
      exists a inside, syms = [ASym a inside] /\ a_kind a = ADefine /\ sits_at d n a /\
        forall name, quoted d (first_argument kids) name -> plain_name name -> a_name a = TS (qualify ns name) name 0
  | _ => True
  end.
(** No namespace begins inside a statement, and the name of a namespace is in
    front of its statements. *)
Definition is_namespace_node (n : node) : Prop := node_type n = Some PhNamespaceDefinition.
Definition namespaces_outside (d : document) : Prop :=
  (forall ns n m, In (ns, n) (statements d) -> below m n -> ~ is_namespace_node m) /\
  (forall n before l after k, below n (d_root d) -> is_namespace_node n ->
     node_kids n = before ++ Ph PhStatementList l :: after -> In k after -> node_type k <> Some PhNamespaceName).
