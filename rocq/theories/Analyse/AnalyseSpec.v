(** What it means that the symbols of a file are those of its syntax tree. *)
From Coq Require Import String.
From Coq Require Import List Bool ZArith Sorting.Sorted.
From Coq.Strings Require Import Byte.
From Verif Require Import Base.Bytes Base.Protocol Symbols.Symbols Symbols.KeysModel Text.TextModel Text.PositionSpec
  Types.TypesModel Rpc.StreamModel Analyse.SyntaxModel Analyse.AnalyseModel.
Import ListNotations.
Open Scope list_scope.
Open Scope nat_scope.

(** ** Trees *)
Definition node_kids (n : node) : list node := match n with Ph _ kids => kids | _ => [] end.
(** [below m n]: [m] is [n] or somewhere in the tree under it *)
Inductive below : node -> node -> Prop :=
| below_here : forall n, below n n
| below_kid : forall m k n, In k (node_kids n) -> below m k -> below m n.

(** the leaves, from left to right; for a parse error the token it stumbled over *)
Fixpoint tokens (n : node) : list token :=
  match n with
  | Ph _ kids => flat_map tokens kids
  | Tk t => [t]
  | Err (Some t) => [t]
  | Err None => []
  end.
Definition text_of (d : document) : gostr := td_text (d_text d).

(** ** Names the analysis can read *)
(** A text is no type if it is a closing bracket before nothing but "[]"s. *)
Definition is_type_text (s : gostr) : Prop := NewTypeString s <> None.
Definition name_text (TR : TrimSpace) (s : gostr) : Prop :=
  is_type_text s /\ Forall (fun part => is_type_text (trim_space part)) (split_byte s x7c).
(** What a parser has to guarantee about one node for the analysis not to crash
    on it. *)
Definition node_safe (TR : TrimSpace) (d : document) (n : node) : Prop :=
  (forall s, GetNodeText d n = Some s -> name_text TR s) /\
  match n with
  (* a function's or method's header ends with a token *)
  | Ph (PhFunctionDeclarationHeader | PhMethodDeclarationHeader) _ => LastToken n <> None
  (* an element of a group use ends with a name or an alias *)
  | Ph PhNamespaceUseGroupClause kids =>
      forall k, nth_error (rev kids) 0 = Some k -> match k with Ph _ _ => True | _ => False end
  (* a string literal has two quotes *)
  | Tk (Tok TkStringLiteral o l) =>
      2 <= l /\ forall s, text_slice d (o + 1) (o + l - 1) = Some s -> is_type_text s
  | _ => True
  end.
(** The tokens lie in the text, from left to right (a parse error may repeat the
    token behind it), and every node is safe. *)
Definition well_parsed (TR : TrimSpace) (d : document) : Prop :=
  StronglySorted (fun a b => t_offset a <= t_offset b) (tokens (d_root d)) /\
  Forall (fun t => t_end t <= length (text_of d)) (tokens (d_root d)) /\
  forall n, below n (d_root d) -> node_safe TR d n.

(** ** What a symbol says about the node it comes from *)
Definition node_type (n : node) : option phrase_type := match n with Ph ty _ => Some ty | _ => None end.
(** the last of the modifiers written in front of a member, among those given *)
Fixpoint last_modifier {A} (f : token_type -> option A) (mods : list node) (otherwise : A) : A :=
  match mods with
  | [] => otherwise
  | Tk t :: mods => last_modifier f mods (match f (t_type t) with Some a => a | None => otherwise end)
  | _ :: mods => last_modifier f mods otherwise
  end.
Definition visibility_token (t : token_type) : option Z :=
  match t with TkPublic => Some Public | TkProtected => Some Protected | TkPrivate => Some Private | _ => None end.
Definition static_token (t : token_type) : option bool := match t with TkStatic => Some true | _ => None end.
Definition visibility_of (mods : list node) : Z := last_modifier visibility_token mods Public.
Definition static_of (mods : list node) : bool := last_modifier static_token mods false.
(** the lists of modifiers among some nodes, and the last of them *)
Definition modifier_lists (kids : list node) : list (list node) :=
  flat_map (fun k => match k with Ph PhMemberModifierList mods => [mods] | _ => [] end) kids.
Definition modifiers (kids : list node) : list node := last (modifier_lists kids) [].
(** the children of the headers of a declaration *)
Definition header_kids (is_header : phrase_type -> bool) (kids : list node) : list node :=
  flat_map (fun k => match k with Ph ty hs => if is_header ty then hs else [] | _ => [] end) kids.
Definition method_header_type (ty : phrase_type) : bool := match ty with PhMethodDeclarationHeader => true | _ => false end.
Definition function_header_type (ty : phrase_type) : bool := match ty with PhFunctionDeclarationHeader => true | _ => false end.
Definition class_header_type (ty : phrase_type) : bool := match ty with PhClassDeclarationHeader => true | _ => false end.
Definition anonymous_header_type (ty : phrase_type) : bool := match ty with PhAnonymousClassDeclarationHeader => true | _ => false end.
Definition interface_header_type (ty : phrase_type) : bool := match ty with PhInterfaceDeclarationHeader => true | _ => false end.
Definition trait_header_type (ty : phrase_type) : bool := match ty with PhTraitDeclarationHeader => true | _ => false end.
Definition is_name_token (n : node) : Prop := exists t, n = Tk t /\ t_type t = TkName.
Definition is_variable_token (n : node) : Prop := exists t, n = Tk t /\ t_type t = TkVariableName.

Definition named (d : document) (n : node) (name : gostr) : Prop := GetNodeText d n = Some name.
Definition sits_at (d : document) (n : node) (a : adata) : Prop := a_range a = NodeRange d n.
(** the name is that of one of the nodes that can be one; none has the empty name *)
Definition name_among (d : document) (can_be : node -> Prop) (kids : list node) (name : gostr) : Prop :=
  name = [] \/ exists k, In k kids /\ can_be k /\ named d k name.
(** the same for names that are read as types: "[]"s at the end are cut off and
    aliases replaced *)
Definition type_name (s name : gostr) : Prop := exists t, NewTypeString s = Some t /\ name = ts_original t.
Definition type_name_among (d : document) (can_be : node -> Prop) (kids : list node) (name : gostr) : Prop :=
  name = [] \/ exists k s, In k kids /\ can_be k /\ named d k s /\ type_name s name.
(** the name behind "::" *)
Definition member_named (d : document) (n : option node) (name : gostr) : Prop :=
  match n with Some (Ph PhScopedMemberName _ as c) => named d c name | _ => name = [] end.
(** the name behind "->": a child or a child of a child *)
Definition arrow_named (d : document) (kids : list node) (name : gostr) : Prop :=
  name_among d (fun _ => True) (kids ++ flat_map node_kids kids) name.
(** where the name of a member access is: at the name behind the arrow, or if
    there is none the empty range behind the arrow (nowhere without an arrow) *)
Definition member_place (d : document) (kids : list node) (r : range) : Prop :=
  (exists k, In k kids /\ r = NodeRange d k) \/
  (exists t, In (Tk t) kids /\ t_type t = TkArrow /\ r = Rng (pos_at d (t_end t)) (pos_at d (t_end t))) \/
  r = zero_range.

(** [says d a n]: the symbol [a] is a symbol of the kind, at the place and with
    the properties written in [n]. *)
Definition says (d : document) (a : adata) (n : node) : Prop :=
  match a_kind a with
  | AClass => sits_at d n a /\
      (node_type n = Some PhClassDeclaration /\
       type_name_among d is_name_token (header_kids class_header_type (node_kids n)) (ts_original (a_name a)) \/
       node_type n = Some PhAnonymousClassDeclaration /\
       (type_name (anonymous_name d (a_range a)) (ts_original (a_name a)) \/
        type_name_among d is_name_token (header_kids anonymous_header_type (node_kids n)) (ts_original (a_name a))))
  | AInterface => node_type n = Some PhInterfaceDeclaration /\ sits_at d n a /\
      type_name_among d is_name_token (header_kids interface_header_type (node_kids n)) (ts_original (a_name a))
  | ATrait => node_type n = Some PhTraitDeclaration /\ sits_at d n a /\
      type_name_among d is_name_token (header_kids trait_header_type (node_kids n)) (ts_original (a_name a))
  | AFunction => node_type n = Some PhFunctionDeclaration /\ sits_at d n a /\
      type_name_among d (fun k => is_name_token k \/ node_type k = Some PhIdentifier) (header_kids function_header_type (node_kids n)) (ts_original (a_name a))
  | AMethod => node_type n = Some PhMethodDeclaration /\ sits_at d n a /\
      a_vis a = visibility_of (modifiers (header_kids method_header_type (node_kids n))) /\
      a_static a = static_of (modifiers (header_kids method_header_type (node_kids n))) /\
      name_among d (fun k => is_name_token k \/ node_type k = Some PhIdentifier) (header_kids method_header_type (node_kids n)) (ts_original (a_name a))
  | AProperty => exists before elements after e es,
      n = Ph PhPropertyDeclaration (before ++ Ph PhPropertyElementList elements :: after) /\
      e = Ph PhPropertyElement es /\ In e elements /\ sits_at d e a /\
      a_vis a = visibility_of (modifiers before) /\ a_static a = static_of (modifiers before) /\
      name_among d is_variable_token es (ts_original (a_name a))
  | AClassConst => exists before elements after e es,
      n = Ph PhClassConstDeclaration (before ++ Ph PhClassConstElementList elements :: after) /\
      e = Ph PhClassConstElement es /\ In e elements /\ sits_at d e a /\
      a_vis a = visibility_of (modifiers before) /\ a_static a = true /\
      name_among d (fun k => node_type k = Some PhIdentifier) es (ts_original (a_name a))
  | AConst => node_type n = Some PhConstElement /\ sits_at d n a /\
      type_name_among d is_name_token (node_kids n) (ts_original (a_name a))
  | ADefine => node_type n = Some PhFunctionCallExpression /\ sits_at d n a
  | AAnonymousFunction => node_type n = Some PhAnonymousFunctionCreationExpression /\ sits_at d n a
  | AArgumentList => node_type n = Some PhArgumentExpressionList /\ sits_at d n a
  | ADerived => (node_type n = Some PhEncapsulatedExpression \/ node_type n = Some PhCloneExpression) /\ sits_at d n a
  | AGlobalVariable => node_type n = Some PhSimpleVariable /\ sits_at d n a /\ named d n (ts_original (a_name a))
  | AVariable => (node_type n = Some PhSimpleVariable \/ node_type n = Some PhAnonymousFunctionUseVariable) /\
      sits_at d n a /\ named d n (ts_original (a_name a))
  | AConstantAccess =>
      (node_type n = Some PhConstantAccessExpression \/ exists t, n = Tk t /\ t_type t = TkDirectoryConstant) /\
      sits_at d n a /\ named d n (ts_original (a_name a))
  | AClassAccess => node_type n <> None /\ sits_at d n a /\ named d n (ts_original (a_name a))
  | AInterfaceAccess | ATraitAccess =>
      (node_type n = Some PhQualifiedName \/ node_type n = Some PhFullyQualifiedName) /\
      sits_at d n a /\ named d n (ts_original (a_name a))
  | ATypeDeclaration => node_type n = Some PhTypeDeclaration /\ sits_at d n a /\
      exists s t, named d n s /\ NewTypeString s = Some t /\ ts_original (a_name a) = ts_original t
  | AFunctionCall => node_type n = Some PhFunctionCallExpression /\
      a_range a = NodeRangeOpt d (nth_error (node_kids n) 0) /\
      match nth_error (node_kids n) 0 with Some c => named d c (ts_original (a_name a)) | None => a_name a = empty_ts end
  | AScopedPropertyAccess => node_type n = Some PhScopedPropertyAccessExpression /\
      a_range a = NodeRangeOpt d (nth_error (node_kids n) 2) /\ member_named d (nth_error (node_kids n) 2) (ts_original (a_name a))
  | AScopedMethodAccess => node_type n = Some PhScopedCallExpression /\
      a_range a = NodeRangeOpt d (nth_error (node_kids n) 2) /\ member_named d (nth_error (node_kids n) 2) (ts_original (a_name a))
  | AScopedConstantAccess =>
      (node_type n = Some PhClassConstantAccessExpression \/ node_type n = Some PhErrorScopedAccessExpression) /\
      a_range a = NodeRangeOpt d (nth_error (node_kids n) 2) /\ member_named d (nth_error (node_kids n) 2) (ts_original (a_name a))
  | APropertyAccess => node_type n = Some PhPropertyAccessExpression /\ member_place d (node_kids n) (a_range a) /\
      arrow_named d (node_kids n) (ts_original (a_name a))
  | AMethodAccess => node_type n = Some PhMethodCallExpression /\ member_place d (node_kids n) (a_range a) /\
      arrow_named d (node_kids n) (ts_original (a_name a))
  | AClassTypeDesignator => node_type n = Some PhObjectCreationExpression /\
      exists k, In k (node_kids n) /\ sits_at d k a /\
        (node_type k = Some PhClassTypeDesignator \/ node_type k = Some PhAnonymousClassDeclaration)
  end.
(** A comment in the file whose last line is directly above the line on which
    the symbol starts. *)
Definition directly_above (d : document) (r : range) (a : adata) : Prop :=
  (exists n, below n (d_root d) /\ node_type n = Some PhDocumentComment /\ r = NodeRange d n) /\
  (p_line (r_start (a_range a)) = p_line (r_end r) + 1)%Z.
(** A member that a comment declares (@property, @method) is where the comment is. *)
Definition declared_by_comment (d : document) (a : adata) : Prop :=
  (a_kind a = AProperty \/ a_kind a = AMethod) /\ a_vis a = Public /\
  exists n, below n (d_root d) /\ node_type n = Some PhDocumentComment /\ sits_at d n a.

(** [comes_from d n s]: the symbol and all its children come from nodes in the
    tree [n], the children from nodes inside that of the symbol. *)
Inductive comes_from (d : document) : node -> asym -> Prop :=
| comes_from_node : forall n m a kids,
    below m n -> says d a m ->
    (forall r, a_doc a = Some r -> directly_above d r a) ->
    Forall (comes_from d m) kids -> comes_from d n (ASym a kids)
| comes_from_comment : forall n a, declared_by_comment d a -> a_doc a = None -> comes_from d n (ASym a []).
