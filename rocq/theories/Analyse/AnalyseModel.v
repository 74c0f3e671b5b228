(** From the syntax tree of a file to its symbols: analysis/symbolBlock.go,
    analysis/expression.go and the constructors they call.

    A run threads a [state]. Go adds a symbol to the children of the block on
    top of a stack of blocks; here a block collects what is added while it is
    open and is itself one symbol of the block around it. That is the same
    because every pushBlock has its popBlock in the same function, with nothing
    added to the outer block in between.

    Left out everywhere: the types a variable, a property, a global variable or
    an expression gets from other expressions (Scope, mergeTypesWithVariable,
    findProp, getGlobalVariable, instanceof), descriptions and deprecated tags,
    the types of parameters, setReferenceGlobal, and the ranges between the commas
    of an argument list. [a_doc] is the comment found valid for the symbol; Go
    reads its description only where the declaration has a header or a name. *)
From Coq Require Import String.
From Coq Require Import List Bool ZArith.
From Coq.Strings Require Import Byte.
From Verif Require Import Base.Bytes Base.Protocol Symbols.Symbols Symbols.KeysModel Text.TextModel Text.PositionModel
  Types.TypesModel Types.ImportModel Ide.VariableModel Rpc.StreamModel Analyse.SyntaxModel.
Import ListNotations.
Open Scope list_scope.
Open Scope nat_scope.

(** ** What the analysis produces *)
(** the Go type of a symbol *)
Inductive akind :=
| AClass | AInterface | ATrait | AFunction | AMethod | AProperty | AConst | AClassConst | ADefine
| AGlobalVariable | AAnonymousFunction | AArgumentList | AClassTypeDesignator | AFunctionCall
| AConstantAccess | AScopedPropertyAccess | AScopedMethodAccess | AScopedConstantAccess | AClassAccess
| AInterfaceAccess | ATraitAccess | ATypeDeclaration | AVariable | APropertyAccess | AMethodAccess | ADerived.

(** A symbol without its children: its name (as written and, where the Go type
    has one, with its namespace), its range, the types it refers to (for a
    function or method: those of its @return tags), the class it is a member of,
    visibility, static, the names of the parameters, the source of the value,
    the comment it takes its description from, and for a class, interface or
    trait its place on the class stack. *)
Record adata := AData {
  a_kind : akind; a_name : type_string; a_range : range; a_types : type_composite;
  a_scope : type_string; a_vis : Z; a_static : bool; a_params : list gostr; a_value : gostr;
  a_doc : option range; a_class : option nat }.
Inductive asym := ASym (data : adata) (kids : list asym).
Definition as_data (s : asym) : adata := match s with ASym d _ => d end.
Definition as_kids (s : asym) : list asym := match s with ASym _ k => k end.

Definition empty_ts : type_string := TS [] [] 0.
(** a reference: an Expression with a name, types and a location *)
Definition reference (k : akind) (name : gostr) (r : range) (types : type_composite) : adata :=
  AData k (TS name name 0) r types empty_ts Public false [] [] None None.

(** Class, Interface and Trait, as far as members and references need them. A
    class has at most one element in [c_extends]. *)
Record class_info := Cls {
  c_kind : akind; c_name : type_string; c_range : range;
  c_extends : list type_string; c_interfaces : list type_string; c_uses : list type_string;
  c_modifier : Z }.

(** phpDocComment.go:15-30, 301-314; the parameters of a @method tag are their
    names and their types *)
Record tag := Tag { tg_tag : gostr; tg_name : gostr; tg_types : gostr; tg_static : bool; tg_params : list (gostr * gostr) }.
Record php_doc := PhpDoc { pd_range : range; pd_tags : list tag }.

Record state := St {
  st_out : list asym;              (* what was added to the current block *)
  st_block : option gostr;         (* the name of the current block, if it is a method *)
  st_classes : list class_info;    (* document.go classStack *)
  st_imports : list ImportTable;   (* document.go importTables *)
  st_doc : option php_doc;         (* document.go lastPhpDoc *)
  st_vars : list var_op }.         (* what was done to the variable tables *)

Inductive result (A : Type) := Done (a : A) (s : state) | Panic | OutOfFuel.
Arguments Done {A}. Arguments Panic {A}. Arguments OutOfFuel {A}.
Definition M (A : Type) := state -> result A.
Definition ret {A} (a : A) : M A := fun s => Done a s.
Definition bind {A B} (m : M A) (f : A -> M B) : M B :=
  fun s => match m s with Done a s => f a s | Panic => Panic | OutOfFuel => OutOfFuel end.
Definition panic {A} : M A := fun _ => Panic.
Notation "x <- m ;; k" := (bind m (fun x => k)) (at level 61, m at next level, right associativity).
Notation "m ;;; k" := (bind m (fun _ => k)) (at level 61, right associativity).
Definition get {A} (f : state -> A) : M A := fun s => Done (f s) s.
(** a Go panic where the option is [None] *)
Definition lift {A} (o : option A) : M A := match o with Some a => ret a | None => panic end.
Fixpoint forM {A} (l : list A) (f : A -> M unit) : M unit :=
  match l with [] => ret tt | x :: l => f x ;;; forM l f end.
(** a loop that keeps local variables *)
Fixpoint foldM {A B} (l : list A) (f : B -> A -> M B) (b : B) : M B :=
  match l with [] => ret b | x :: l => b <- f b x ;; foldM l f b end.

(** ** The state *)
(** document.go:275-285 addSymbol, for symbols other than comments *)
Definition emit (s : asym) : M unit := fun st =>
  Done tt (St (st_out st ++ [s]) (st_block st) (st_classes st) (st_imports st) (st_doc st) (st_vars st)).
Definition emit1 (d : adata) : M unit := emit (ASym d []).
(** document.go:287-293 pushBlock ... popBlock: run [m] in a block; what it adds *)
Definition in_block {A} (name : option gostr) (m : M A) : M (A * list asym) := fun st =>
  match m (St [] name (st_classes st) (st_imports st) (st_doc st) (st_vars st)) with
  | Done a st' => Done (a, st_out st') (St (st_out st) (st_block st) (st_classes st') (st_imports st') (st_doc st') (st_vars st'))
  | Panic => Panic
  | OutOfFuel => OutOfFuel
  end.
(** the name of the open method, once it is read *)
Definition set_block (name : option gostr) : M unit := fun st =>
  Done tt (St (st_out st) name (st_classes st) (st_imports st) (st_doc st) (st_vars st)).
(** document.go:385-394 addClass; the place on the stack *)
Definition addClass (c : class_info) : M nat := fun st =>
  Done (length (st_classes st)) (St (st_out st) (st_block st) (st_classes st ++ [c]) (st_imports st) (st_doc st) (st_vars st)).
Fixpoint update_nth {A} (l : list A) (i : nat) (f : A -> A) : list A :=
  match l, i with
  | [], _ => []
  | x :: l, O => f x :: l
  | x :: l, S i => x :: update_nth l i f
  end.
(** a change of the class object on the stack *)
Definition change_class (i : nat) (f : class_info -> class_info) : M unit := fun st =>
  Done tt (St (st_out st) (st_block st) (update_nth (st_classes st) i f) (st_imports st) (st_doc st) (st_vars st)).
(** document.go:357-362 getLastClass *)
Definition getLastClass : M (option class_info) := get (fun st => nth_error (st_classes st) (length (st_classes st) - 1)).
(** document.go:276-279 *)
Definition set_doc (p : php_doc) : M unit := fun st =>
  Done tt (St (st_out st) (st_block st) (st_classes st) (st_imports st) (Some p) (st_vars st)).
Definition var_do (op : var_op) : M unit := fun st =>
  Done tt (St (st_out st) (st_block st) (st_classes st) (st_imports st) (st_doc st) (st_vars st ++ [op])).
Definition set_imports (l : list ImportTable) : M unit := fun st =>
  Done tt (St (st_out st) (st_block st) (st_classes st) l (st_doc st) (st_vars st)).

Section Document.
Context {TX : Text} {TR : TrimSpace} (d : document).

(** document.go:117-119 pushImportTable, importTable.go:25-38; the place of the table *)
Definition pushImportTable (n : node) : M nat :=
  l <- get st_imports ;;
  set_imports (l ++ [newImportTable (pos_at d (match FirstToken n with Some t => t_offset t | None => 0 end))]) ;;;
  ret (length l).
(** document.go:652-657 currImportTable: the place of the current table *)
Definition currImportTable : M nat :=
  l <- get st_imports ;;
  match l with [] => pushImportTable (d_root d) | _ => ret (length l - 1) end.
Definition get_table (i : nat) : M ImportTable :=
  l <- get st_imports ;; lift (nth_error l i).
Definition change_table (i : nat) (f : ImportTable -> ImportTable) : M unit :=
  l <- get st_imports ;; set_imports (update_nth l i f).
(** document.currImportTable().GetNamespace() *)
Definition currNamespace : M gostr := i <- currImportTable ;; t <- get_table i ;; ret (GetNamespace t).
(** typeString.SetFQN(document.currImportTable().GetClassReferenceFQN(typeString)) *)
Definition resolveClass (t : type_string) : M type_string :=
  i <- currImportTable ;; table <- get_table i ;;
  let '(fqn, table) := GetClassReferenceFQN table t in
  change_table i (fun _ => table) ;;; ret (SetFQN t fqn).

Definition tokenText (t : token) : M gostr := lift (getTokenText d t).
Definition phraseText (n : node) : M gostr := lift (getPhraseText d n).
Definition nodeText (n : node) : M gostr := lift (GetNodeText d n).
Definition newTypeString (s : gostr) : M type_string := lift (NewTypeString s).
(** symbol.go:98-100 transformQualifiedName *)
Definition transformQualifiedName (n : node) : M type_string := t <- nodeText n ;; newTypeString t.
(** the FQN of the class a name refers to (class.go:150-151 and others) *)
Definition classReference (n : node) : M type_string := t <- transformQualifiedName n ;; resolveClass t.

(** document.go:626-636 getValidPhpDoc *)
Definition getValidPhpDoc (r : range) : M (option php_doc) :=
  l <- get st_doc ;;
  ret (match l with
       | Some p =>
           let e := p_line (r_end (pd_range p)) in let s := p_line (r_start r) in
           if (e <? s)%Z && (e =? s - 1)%Z then Some p else None
       | None => None
       end).

(** symbolType.go:193-218 typesFromPhpDoc *)
Definition typesFromPhpDoc (text : gostr) : M type_composite :=
  foldM (split_byte text x7c) (fun types part =>
    let part := trim_space part in
    if str_eqb part [] then ret types
    else if str_eqb part (B "self") then
      c <- getLastClass ;; ret (match c with Some c => tc_add types (c_name c) | None => types end)
    else t <- newTypeString part ;; t <- resolveClass t ;; ret (tc_add types t)) [].
(** phpDocComment.go:355-365 findTagsByTagName, :383-392 *)
Definition findTags (p : php_doc) (name : gostr) : list tag := List.filter (fun t => str_eqb (tg_tag t) name) (pd_tags p).
(** phpDocComment.go:367-374 *)
Definition findParamTag (p : php_doc) (name : gostr) : option tag :=
  find (fun t => str_eqb (tg_tag t) (B "@param") && str_eqb (tg_name t) name) (pd_tags p).
Definition merge_tags (types : type_composite) (tags : list tag) : M type_composite :=
  foldM tags (fun types t => ts <- typesFromPhpDoc (tg_types t) ;; ret (tc_merge types ts)) types.

(** ** References *)
(** typeDeclaration.go:14-25, for a TypeDeclaration (its only callers) *)
Definition newTypeDeclaration (n : node) : M adata :=
  t <- transformQualifiedName n ;; r <- resolveClass t ;;
  ret (reference ATypeDeclaration (ts_original t) (NodeRange d n) [r]).
(** constantAccess.go:14-22 *)
Definition newDirectoryConstantAccess (t : token) : M adata :=
  name <- tokenText t ;; ret (reference AConstantAccess name (NodeRange d (Tk t)) []).
(** constantAccess.go:24-33, :39-41 *)
Definition newConstantAccess (n : node) : M adata :=
  name <- nodeText n ;; i <- currImportTable ;; t <- newTypeString name ;;
  change_table i (fun table => useConstOrClass table t) ;;;
  ret (reference AConstantAccess name (NodeRange d n) []).
(** relativeScope.go:10-16 *)
Definition IsNameRelative (name : gostr) : bool := str_eqb name (B "static") || str_eqb name (B "self") || str_eqb name (B "$this").
Definition IsNameParent (name : gostr) : bool := str_eqb name (B "parent").
(** relativeScope.go:30-45 newRelativeScope *)
Definition relativeTypes : M type_composite :=
  c <- getLastClass ;; ret (match c with Some c => [c_name c] | None => [] end).
(** relativeScope.go:47-62 newParentScope; a class always has an Extends, empty
    if nothing is declared *)
Definition parentTypes : M type_composite :=
  c <- getLastClass ;;
  ret (match c with
       | Some c => match c_kind c with
                   | AClass => [match c_extends c with t :: _ => t | [] => empty_ts end]
                   | AInterface => fold_left tc_add (c_extends c) []
                   | _ => []
                   end
       | None => []
       end).
(** variable.go:28-47 newVariableWithoutPushing, :63-67 applyPhpDoc *)
Definition newVariableWithoutPushing (n : node) : M adata :=
  name <- nodeText n ;;
  let r := NodeRange d n in
  doc <- getValidPhpDoc r ;;
  types <- (match doc with Some p => merge_tags [] (findTags p (B "@var")) | None => ret [] end) ;;
  ret (reference AVariable name r types).
(** document.go:343-353 pushVariable *)
Definition pushVariable (v : adata) (pos : position) (is_declaration : bool) : M unit :=
  var_do (RecordVar (MkVar (ts_original (a_name v)) (a_range v)) pos is_declaration).
(** variable.go:22-26 newVariable (always to be added) *)
Definition newVariable (n : node) (is_declaration : bool) : M adata :=
  v <- newVariableWithoutPushing n ;; pushVariable v (r_end (a_range v)) is_declaration ;;; ret v.
(** interfaceAccess.go:13-28 and traitAccess.go:51-66, for a (fully) qualified name *)
Definition newNameAccess (k : akind) (n : node) : M adata :=
  name <- phraseText n ;; t <- classReference n ;; ret (reference k name (NodeRange d n) [t]).

(** parameter.go:23-76 newParameter: its name, the range of the variable,
    whether it has a default value and the source of that. [skip]: the
    whitespace behind the equals sign is skipped. *)
Record param := Param { pm_name : gostr; pm_range : range; pm_has_value : bool; pm_value : gostr }.
Definition add_value (p : param) (v : gostr) : param := Param (pm_name p) (pm_range p) true (pm_value p ++ v).
Fixpoint parameter_loop (kids : list node) (p : param) (has_equal skip : bool) : M param :=
  match kids with
  | [] => ret p
  | (Ph ty _ as c) :: kids =>
      match ty with
      | PhTypeDeclaration => t <- newTypeDeclaration c ;; emit1 t ;;; parameter_loop kids p has_equal false
      | PhConstantAccessExpression =>
          a <- newConstantAccess c ;; emit1 a ;;;
          if has_equal then v <- phraseText c ;; parameter_loop kids (add_value p v) has_equal false
          else parameter_loop kids p has_equal false
      | _ => if has_equal then v <- phraseText c ;; parameter_loop kids (add_value p v) has_equal false
             else parameter_loop kids p has_equal false
      end
  | Tk t :: kids =>
      match t_type t with
      | TkEquals => parameter_loop kids p true true
      | TkVariableName =>
          name <- tokenText t ;;
          parameter_loop kids (Param name (NodeRange d (Tk t)) (pm_has_value p) (pm_value p)) has_equal false
      | ty => if skip && is_whitespace ty then parameter_loop kids p has_equal true
              else if has_equal then v <- tokenText t ;; parameter_loop kids (add_value p v) has_equal false
              else parameter_loop kids p has_equal false
      end
  | Err _ :: kids => parameter_loop kids p has_equal false
  end.
Definition newParameter (n : node) : M param :=
  match n with
  | Ph _ kids => parameter_loop kids (Param [] (NodeRange d n) false []) false false
  | _ => ret (Param [] (NodeRange d n) false [])
  end.
(** function.go:86-96, method.go:117-127, anonymousFunction.go:66-76 *)
Definition analyseParameterDeclarationList (kids : list node) : M (list param) :=
  foldM kids (fun ps c => match c with
                          | Ph PhParameterDeclaration _ => p <- newParameter c ;; ret (ps ++ [p])
                          | _ => ret ps
                          end) [].
(** the parameters become variables (function.go:48-51, method.go:79-82): a
    header without a last token is a nil pointer there *)
Definition declare_params (header : node) (ps : list param) : M unit :=
  forM ps (fun p =>
    match LastToken header with
    | Some t => var_do (RecordVar (MkVar (pm_name p) (pm_range p)) (pos_at d (t_end t)) true)
    | None => panic
    end).
(** applyPhpDoc of function.go:98-112 and method.go:156-170: the types of the
    @return tags; the @param tags only mark imports as used here *)
Definition apply_function_doc (doc : option php_doc) (ps : list param) : M type_composite :=
  match doc with
  | None => ret []
  | Some p =>
      types <- merge_tags [] (findTags p (B "@return")) ;;
      forM ps (fun q => match findParamTag p (pm_name q) with
                        | Some t => ts <- typesFromPhpDoc (tg_types t) ;; ret tt
                        | None => ret tt
                        end) ;;;
      ret types
  end.

(** class.go:34-61 getMemberModifier *)
Definition getMemberModifier (kids : list node) : Z * bool * Z :=
  fold_left (fun '(v, s, m) c =>
    match c with
    | Tk t => match t_type t with
              | TkAbstract => (v, s, 1%Z)
              | TkFinal => (v, s, 2%Z)
              | TkStatic => (v, true, m)
              | TkPublic => (Public, s, m)
              | TkProtected => (Protected, s, m)
              | TkPrivate => (Private, s, m)
              | _ => (v, s, m)
              end
    | _ => (v, s, m)
    end) kids (Public, false, 0%Z).

(** ** Comments (phpDocComment.go) *)
(** 34-47 processTypeNode; [None] for the empty text *)
Definition processTypeNode (n : node) : M gostr :=
  text <- nodeText n ;;
  if str_eqb text [] then ret text
  else match n with
       | Ph _ (Ph (PhQualifiedName | PhFullyQualifiedName) _ :: _) =>
           t <- newTypeDeclaration n ;; emit1 t ;;; ret text
       | _ => ret text
       end.
(** 49-60 processTypeUnionNode *)
Definition processTypeUnionNode (kids : list node) : M (list gostr) :=
  foldM kids (fun ts c => match c with
                          | Ph PhTypeDeclaration _ => t <- processTypeNode c ;; ret (ts ++ [t])
                          | _ => ret ts
                          end) [].
(** what all tags do with their types (62-83, 96-117, 126-143, 184-196, 249-268):
    the texts of the types so far *)
Definition tag_type (ts : list gostr) (c : node) : M (list gostr) :=
  match c with
  | Ph PhTypeDeclaration _ => t <- processTypeNode c ;; ret (if str_eqb t [] then ts else ts ++ [t])
  | Ph PhTypeUnion kids => us <- processTypeUnionNode kids ;; ret (ts ++ us)
  | _ => ret ts
  end.
(** 62-94 paramOrPropTypeTag, 96-124 varTag, 249-275 globalTag: the types and
    the variable; 126-152 returnTag does not look for a variable *)
Definition typeTag (tag_name : gostr) (with_variable : bool) (kids : list node) : M tag :=
  r <- foldM kids (fun '(ts, name) c =>
         match c with
         | Tk t => match t_type t with
                   | TkVariableName => if with_variable then n <- tokenText t ;; ret (ts, n) else ret (ts, name)
                   | _ => ret (ts, name)
                   end
         | _ => ts <- tag_type ts c ;; ret (ts, name)
         end) ([], []) ;;
  let '(ts, name) := r in ret (Tag tag_name name (join ts (B "|")) false []).
(** 220-247 methodParam: the name and the types *)
Definition methodParam (kids : list node) : M (gostr * gostr) :=
  r <- foldM kids (fun '(ts, name) c =>
         match c with
         | Tk t => match t_type t with TkVariableName => n <- tokenText t ;; ret (ts, n) | _ => ret (ts, name) end
         | Ph PhParameterValue _ => v <- phraseText c ;; ret (ts, name)
         | _ => ts <- tag_type ts c ;; ret (ts, name)
         end) ([], []) ;;
  let '(ts, name) := r in ret (name, join ts (B "|")).
(** 154-168 processParamList *)
Definition processParamList (kids : list node) : M (list (gostr * gostr)) :=
  foldM kids (fun ps c => match c with
                          | Ph PhParameterDeclaration ks => p <- methodParam ks ;; ret (ps ++ [p])
                          | _ => ret ps
                          end) [].
(** 170-218 methodTag *)
Definition methodTag (tag_name : gostr) (kids : list node) : M tag :=
  t <- foldM kids (fun '(ts, name, static, ps) c =>
         match c with
         | Ph PhIdentifier _ => n <- phraseText c ;; ret (ts, n, static, ps)
         | Ph PhParameterDeclarationList ks => ps <- processParamList ks ;; ret (ts, name, static, ps)
         | Tk t => match t_type t with TkStatic => ret (ts, name, true, ps) | _ => ret (ts, name, static, ps) end
         | _ => ts <- tag_type ts c ;; ret (ts, name, static, ps)
         end) ([], [], false, []) ;;
  let '(ts, name, static, ps) := t in
  ret (Tag tag_name name (if str_eqb (join ts (B "|")) [] then B "void" else join ts (B "|")) static ps).
(** 321-330 getTagName *)
Fixpoint getTagName (kids : list node) : M gostr :=
  match kids with
  | [] => ret []
  | Tk t :: kids => match t_type t with TkTagName => tokenText t | _ => getTagName kids end
  | _ :: kids => getTagName kids
  end.
(** 332-353 parseTag; [None] is an error. The texts of @deprecated (277-300)
    are left out. *)
Definition parseTag (kids : list node) : M (option tag) :=
  name <- getTagName kids ;;
  if str_eqb name (B "@param") then t <- typeTag name true kids ;; ret (Some t)
  else if str_eqb name (B "@property") || str_eqb name (B "@property-read") || str_eqb name (B "@property-write") then
    t <- typeTag name true kids ;; ret (if str_eqb (tg_name t) [] then None else Some t)
  else if str_eqb name (B "@var") then t <- typeTag name true kids ;; ret (Some t)
  else if str_eqb name (B "@return") then t <- typeTag name false kids ;; ret (Some t)
  else if str_eqb name (B "@method") then t <- methodTag name kids ;; ret (Some t)
  else if str_eqb name (B "@global") then t <- typeTag name true kids ;; ret (Some t)
  else if str_eqb name (B "@deprecated") then ret (Some (Tag name [] [] false []))
  else ret None.
(** 419-443 newPhpDocFromNode, and document.go:276-279: adding it makes it the
    last comment *)
Definition newPhpDocFromNode (n : node) (kids : list node) : M unit :=
  tags <- foldM kids (fun tags c => match c with
            | Ph PhDocumentCommentTag ks => t <- parseTag ks ;; ret (match t with Some t => tags ++ [t] | None => tags end)
            | _ => ret tags
            end) [] ;;
  set_doc (PhpDoc (NodeRange d n) tags).

(** ** Imports (use.go) *)
Inductive use_type := UseClass | UseFunction | UseConst.
(** 136-145 addUseToImportTable *)
Definition addUseToImportTable (u : use_type) (alias name : gostr) (r : range) : M unit :=
  i <- currImportTable ;;
  change_table i (fun t => match u with
                           | UseClass => addClassName t alias name r
                           | UseFunction => addFunctionName t alias name r
                           | UseConst => addConstName t alias name r
                           end).
(** 124-134 getAliasFromNode *)
Fixpoint getAliasFromNode (kids : list node) : M gostr :=
  match kids with
  | [] => ret []
  | Tk t :: kids => match t_type t with TkName => tokenText t | _ => getAliasFromNode kids end
  | _ :: kids => getAliasFromNode kids
  end.
(** the name and the alias of a clause (58-69, 96-107) *)
Definition use_clause (kids : list node) : M (gostr * gostr) :=
  foldM kids (fun '(name, alias) c => match c with
    | Ph PhNamespaceName _ => n <- phraseText c ;; ret (n, alias)
    | Ph PhNamespaceAliasingClause ks => a <- getAliasFromNode ks ;; ret (name, a)
    | _ => ret (name, alias)
    end) ([], []).
(** 46-81 *)
Definition processNamespaceUseClauseList (u : use_type) (kids : list node) : M unit :=
  forM kids (fun c => match c with
    | Ph PhNamespaceUseClause ks => r <- use_clause ks ;; addUseToImportTable u (snd r) (fst r) (NodeRange d c)
    | _ => ret tt
    end).
(** 83-122. The variable p is assigned again for every child of the clause
    (100), so the range (111) is that of the last child; if that is not a phrase
    p is a nil pointer, which FirstToken (util/parser.go:16) dereferences. *)
Definition group_range (kids : list node) (clause : node) : option range :=
  match rev kids with
  | [] => Some (NodeRange d clause)
  | (Ph _ _ as c) :: _ => Some (NodeRange d c)
  | _ => None
  end.
Definition processNamespaceUseGroupClauseList (prefix : gostr) (u : use_type) (kids : list node) : M unit :=
  forM kids (fun c => match c with
    | Ph PhNamespaceUseGroupClause ks =>
        r <- use_clause ks ;; rg <- lift (group_range ks c) ;; addUseToImportTable u (snd r) (prefix ++ BSL :: fst r) rg
    | _ => ret tt
    end).
(** 18-44 *)
Definition processNamespaceUseDeclaration (kids : list node) : M unit :=
  foldM kids (fun '(u, prefix) c => match c with
    | Ph PhNamespaceUseClauseList ks => processNamespaceUseClauseList u ks ;;; ret (u, prefix)
    | Ph PhNamespaceUseGroupClauseList ks => processNamespaceUseGroupClauseList prefix u ks ;;; ret (u, prefix)
    | Ph PhNamespaceName _ => p <- phraseText c ;; ret (u, p)
    | Tk t => match t_type t with
              | TkFunction => ret (UseFunction, prefix)
              | TkConst => ret (UseConst, prefix)
              | _ => ret (u, prefix)
              end
    | _ => ret (u, prefix)
    end) (UseClass, []) ;;; ret tt.

(** ** Constants *)
(** const.go:32-67 newConst: its name and the source of its value. [value]
    collects the text behind the equals sign and the whitespace after it. *)
Fixpoint const_loop (kids : list node) (name : type_string) (named has_equals skip : bool) (value : gostr) : M (type_string * bool * gostr) :=
  match kids with
  | [] => ret (name, named, value)
  | Tk t :: kids =>
      match t_type t with
      | TkName => n <- tokenText t ;; n <- newTypeString n ;; const_loop kids n true has_equals false value
      | TkEquals => const_loop kids name named true true value
      | TkWhitespace =>
          if skip then const_loop kids name named has_equals true value
          else if has_equals then v <- tokenText t ;; const_loop kids name named has_equals false (value ++ v)
          else const_loop kids name named has_equals false value
      | _ => if has_equals then v <- tokenText t ;; const_loop kids name named has_equals false (value ++ v)
             else const_loop kids name named has_equals false value
      end
  | (Ph _ _ as c) :: kids =>
      if has_equals then v <- phraseText c ;; const_loop kids name named has_equals false (value ++ v)
      else const_loop kids name named has_equals false value
  | Err _ :: kids => const_loop kids name named has_equals false value
  end.
Definition doc_range (doc : option php_doc) : option range := option_map pd_range doc.
Definition newConst (n : node) (kids : list node) : M unit :=
  let r := NodeRange d n in
  doc <- getValidPhpDoc r ;;
  c <- const_loop kids empty_ts false false false [] ;;
  let '(name, named, value) := c in
  ns <- currNamespace ;;
  emit1 (AData AConst (SetNamespace name ns) r [] empty_ts Public false [] value (if named : bool then doc_range doc else None) None).

(** globalVariable.go:45-70 newGlobalVariable; the declarations, :18-43, are below *)
Definition newGlobalVariable (n : node) : M unit :=
  let r := NodeRange d n in
  name <- phraseText n ;;
  doc <- getValidPhpDoc r ;;
  types <- (match doc with
            | Some p => match find (fun t => str_eqb (tg_name t) name) (findTags p (B "@global")) with
                        | Some t => ts <- typesFromPhpDoc (tg_types t) ;; ret (tc_merge [] ts)
                        | None => ret []
                        end
            | None => ret []
            end) ;;
  var_do (RecordVar (MkVar name r) (r_end r) true) ;;;
  emit1 (reference AGlobalVariable name r types).
Definition newGlobalDeclaration (kids : list node) : M unit :=
  forM kids (fun c => match c with
    | Ph PhVariableNameList ks =>
        forM ks (fun v => match v with Ph PhSimpleVariable _ => newGlobalVariable v | _ => ret tt end)
    | _ => ret tt
    end).

(** functionCall.go:17-33 isDefine *)
Fixpoint isDefine_loop (kids : list node) : M bool :=
  match kids with
  | [] => ret false
  | (Ph (PhQualifiedName | PhFullyQualifiedName) _ as c) :: kids =>
      name <- phraseText c ;;
      let l := to_lower name in
      if str_eqb l (BSL :: B "define") || str_eqb l (B "define") then ret true else isDefine_loop kids
  | _ :: kids => isDefine_loop kids
  end.
Definition isDefine (n : node) : M bool := match n with Ph _ kids => isDefine_loop kids | _ => ret false end.

(** ** The constructors that scan other nodes *)
(** [scan] and [expr] are scanNode and scanForExpression on the nodes below *)
Section Open.
Variable scan : node -> M unit.
Variable expr : node -> M (option adata).

Definition scanForChildren (kids : list node) : M unit := forM kids scan.

(** argumentList.go:22-36, :38-81 newArgumentList; the arguments *)
Definition is_argument (c : node) : bool :=
  match c with
  | Tk t => match t_type t with
            | TkComma | TkWhitespace | TkOpenParenthesis | TkCloseParenthesis | TkComment | TkDocumentCommentStart => false
            | _ => true
            end
  | Ph _ _ => true
  | Err _ => false
  end.
Definition newArgumentList (n : node) (kids : list node) : M (list node) :=
  b <- in_block None (forM kids (fun c => match c with Ph _ _ => scan c | _ => ret tt end)) ;;
  emit (ASym (reference AArgumentList [] (NodeRange d n) []) (snd b)) ;;;
  ret (List.filter is_argument kids).

(** classAccess.go:17-46 newClassAccess *)
Definition newClassAccess (n : node) : M adata :=
  name <- phraseText n ;;
  types <- (if IsNameRelative name then relativeTypes
            else if IsNameParent name then parentTypes
            else match n with
                 | Ph (PhQualifiedName | PhFullyQualifiedName) _ => t <- classReference n ;; ret [t]
                 | Ph PhSimpleVariable _ => e <- expr n ;; ret []
                 | _ => ret []
                 end) ;;
  ret (reference AClassAccess name (NodeRange d n) types).

(** ** Classes *)
(** class.go:140-163 extends *)
Definition class_extends (i : nat) (kids : list node) : M unit :=
  last <- foldM kids (fun last c => match c with
            | Ph (PhQualifiedName | PhFullyQualifiedName) _ =>
                t <- classReference c ;;
                change_class i (fun x => Cls (c_kind x) (c_name x) (c_range x) [t] (c_interfaces x) (c_uses x) (c_modifier x)) ;;;
                ret (Some c)
            | _ => ret last
            end) None ;;
  match last with
  | Some c => a <- newClassAccess c ;; emit1 a
  | None => ret tt
  end.
(** class.go:165-189 implements: the first list of names *)
Fixpoint class_implements (i : nat) (kids : list node) : M unit :=
  match kids with
  | [] => ret tt
  | Ph PhQualifiedNameList ks :: _ =>
      forM ks (fun c => match c with
        | Ph (PhQualifiedName | PhFullyQualifiedName) _ =>
            t <- classReference c ;;
            change_class i (fun x => Cls (c_kind x) (c_name x) (c_range x) (c_extends x) (c_interfaces x ++ [t]) (c_uses x) (c_modifier x)) ;;;
            a <- newNameAccess AInterfaceAccess c ;; emit1 a
        | _ => ret tt
        end)
  | _ :: kids => class_implements i kids
  end.
(** property.go:29-45, method.go:36-58: members declared by a comment. (A
    @property tag without a name is no tag, so newPropertyFromPhpDocTag does not
    return nil.) *)
Definition doc_property (p : php_doc) (scope : type_string) (t : tag) : M unit :=
  types <- typesFromPhpDoc (tg_types t) ;;
  emit1 (AData AProperty (TS (tg_name t) (tg_name t) 0) (pd_range p) types scope Public false [] [] None None).
Definition doc_method (p : php_doc) (scope : type_string) (t : tag) : M unit :=
  types <- typesFromPhpDoc (tg_types t) ;;
  forM (tg_params t) (fun q => ts <- typesFromPhpDoc (snd q) ;; ret tt) ;;;
  emit1 (AData AMethod (TS (tg_name t) (tg_name t) 0) (pd_range p) types scope Public (tg_static t) (map fst (tg_params t)) [] None None).
(** class.go:91-138 analyseHeader of the class at place [i] *)
Definition class_header (i : nat) (doc : option php_doc) (kids : list node) : M unit :=
  forM kids (fun c => match c with
    | Tk t =>
        match t_type t with
        | TkName =>
            text <- tokenText t ;; name <- newTypeString text ;; ns <- currNamespace ;;
            let name := SetNamespace name ns in
            change_class i (fun x => Cls (c_kind x) name (c_range x) (c_extends x) (c_interfaces x) (c_uses x) (c_modifier x)) ;;;
            match doc with
            | Some p =>
                forM (findTags p (B "@property")) (doc_property p name) ;;;
                forM (findTags p (B "@property-read")) (doc_property p name) ;;;
                forM (findTags p (B "@property-write")) (doc_property p name) ;;;
                forM (findTags p (B "@method")) (doc_method p name)
            | None => ret tt
            end
        | TkAbstract => change_class i (fun x => Cls (c_kind x) (c_name x) (c_range x) (c_extends x) (c_interfaces x) (c_uses x) 1)
        | TkFinal => change_class i (fun x => Cls (c_kind x) (c_name x) (c_range x) (c_extends x) (c_interfaces x) (c_uses x) 2)
        | _ => ret tt
        end
    | Ph PhArgumentExpressionList _ => scan c
    | Ph PhClassBaseClause ks => class_extends i ks
    | Ph PhClassInterfaceClause ks => class_implements i ks
    | _ => ret tt
    end).
(** the symbol of the class at place [i] *)
Definition class_symbol (i : nat) (doc : option php_doc) : M adata :=
  l <- get st_classes ;;
  match nth_error l i with
  | Some c => ret (AData (c_kind c) (c_name c) (c_range c) [] empty_ts Public false [] [] (doc_range doc) (Some i))
  | None => panic
  end.
(** class.go:63-89 newClass. (The symbol is added before its header is read; it
    is the same object.) *)
Definition newClass (n : node) (kids : list node) : M unit :=
  let r := NodeRange d n in
  i <- addClass (Cls AClass empty_ts r [] [] [] 0) ;;
  doc <- getValidPhpDoc r ;;
  b <- in_block None (forM kids (fun c => match c with
         | Ph PhClassDeclarationHeader ks => class_header i doc ks
         | Ph PhClassDeclarationBody ks => scanForChildren ks
         | _ => ret tt
         end)) ;;
  s <- class_symbol i doc ;; emit (ASym s (snd b)).
(** anonymousClass.go:11-40 *)
Definition anonymous_name (r : range) : gostr := B "anonClass#" ++ d_hash d ++ B "#" ++ PosString (r_start r).
Definition newAnonymousClass (n : node) (kids : list node) : M unit :=
  let r := NodeRange d n in
  name <- newTypeString (anonymous_name r) ;; ns <- currNamespace ;;
  i <- addClass (Cls AClass (SetNamespace name ns) r [] [] [] 0) ;;
  doc <- getValidPhpDoc r ;;
  b <- in_block None (forM kids (fun c => match c with
         | Ph PhAnonymousClassDeclarationHeader ks => class_header i doc ks
         | Ph PhClassDeclarationBody ks => scanForChildren ks
         | _ => ret tt
         end)) ;;
  s <- class_symbol i doc ;; emit (ASym s (snd b)).
(** interface.go:77-97 extends: qualified names two levels down, as written *)
Definition interface_extends (i : nat) (kids : list node) : M unit :=
  forM kids (fun c => match c with
    | Ph _ ks => forM ks (fun q => match q with
        | Ph PhQualifiedName _ =>
            t <- transformQualifiedName q ;;
            change_class i (fun x => Cls (c_kind x) (c_name x) (c_range x) (c_extends x ++ [t]) (c_interfaces x) (c_uses x) (c_modifier x))
        | _ => ret tt
        end)
    | _ => ret tt
    end).
(** interface.go:53-75 analyseHeader *)
Definition interface_header (i : nat) (kids : list node) : M unit :=
  forM kids (fun c => match c with
    | Tk t => match t_type t with
              | TkName => text <- tokenText t ;; name <- newTypeString text ;;
                  change_class i (fun x => Cls (c_kind x) name (c_range x) (c_extends x) (c_interfaces x) (c_uses x) (c_modifier x))
              | _ => ret tt
              end
    | Ph PhInterfaceBaseClause ks => interface_extends i ks
    | _ => ret tt
    end).
(** interface.go:27-51 newInterface: the name gets its namespace at the end *)
Definition newInterface (n : node) (kids : list node) : M unit :=
  let r := NodeRange d n in
  i <- addClass (Cls AInterface empty_ts r [] [] [] 0) ;;
  doc <- getValidPhpDoc r ;;
  b <- in_block None (forM kids (fun c => match c with
         | Ph PhInterfaceDeclarationHeader ks => interface_header i ks
         | Ph PhInterfaceDeclarationBody ks => scanForChildren ks
         | _ => ret tt
         end)) ;;
  ns <- currNamespace ;;
  change_class i (fun x => Cls (c_kind x) (SetNamespace (c_name x) ns) (c_range x) (c_extends x) (c_interfaces x) (c_uses x) (c_modifier x)) ;;;
  s <- class_symbol i doc ;; emit (ASym s (snd b)).
(** trait.go:46-58 *)
Definition trait_header (i : nat) (kids : list node) : M unit :=
  forM kids (fun c => match c with
    | Tk t => match t_type t with
              | TkName => text <- tokenText t ;; name <- newTypeString text ;; ns <- currNamespace ;;
                  change_class i (fun x => Cls (c_kind x) (SetNamespace name ns) (c_range x) (c_extends x) (c_interfaces x) (c_uses x) (c_modifier x))
              | _ => ret tt
              end
    | _ => ret tt
    end).
(** trait.go:22-44 newTrait *)
Definition newTrait (n : node) (kids : list node) : M unit :=
  i <- addClass (Cls ATrait empty_ts (NodeRange d n) [] [] [] 0) ;;
  b <- in_block None (forM kids (fun c => match c with
         | Ph PhTraitDeclarationHeader ks => trait_header i ks
         | Ph PhTraitDeclarationBody ks => scanForChildren ks
         | _ => ret tt
         end)) ;;
  s <- class_symbol i None ;; emit (ASym s (snd b)).
(** traitAccess.go:15-49: the traits a class uses *)
Definition processTraitUseClause (kids : list node) : M unit :=
  forM kids (fun c => match c with
    | Ph PhQualifiedNameList ks =>
        l <- get st_classes ;;
        let last := length l - 1 in
        let is_class := match nth_error l last with Some x => match c_kind x with AClass => true | _ => false end | None => false end in
        forM ks (fun q => match q with
          | Ph (PhQualifiedName | PhFullyQualifiedName) _ =>
              a <- newNameAccess ATraitAccess q ;; emit1 a ;;;
              if is_class then change_class last (fun x => Cls (c_kind x) (c_name x) (c_range x) (c_extends x) (c_interfaces x) (c_uses x ++ a_types a) (c_modifier x))
              else ret tt
          | _ => ret tt
          end)
    | _ => ret tt
    end).

(** ** Functions and members *)
Record signature := Sig { sg_name : type_string; sg_vis : Z; sg_static : bool; sg_params : list param }.
(** function.go:64-84 analyseHeader *)
Definition function_header (s : signature) (kids : list node) : M signature :=
  foldM kids (fun s c => match c with
    | Tk t => match t_type t with
              | TkName => text <- tokenText t ;; name <- newTypeString text ;; ret (Sig name (sg_vis s) (sg_static s) (sg_params s))
              | _ => ret s
              end
    | Ph PhParameterDeclarationList ks => ps <- analyseParameterDeclarationList ks ;; ret (Sig (sg_name s) (sg_vis s) (sg_static s) (sg_params s ++ ps))
    | Ph PhIdentifier _ => text <- phraseText c ;; name <- newTypeString text ;; ret (Sig name (sg_vis s) (sg_static s) (sg_params s))
    | _ => ret s
    end) s.
(** function.go:28-62 newFunction: it is added when everything in it was *)
Definition newFunction (n : node) (kids : list node) : M unit :=
  let r := NodeRange d n in
  doc <- getValidPhpDoc r ;;
  var_do (OpenScope r) ;;;
  b <- in_block None (foldM kids (fun '(s, types) c => match c with
         | Ph PhFunctionDeclarationHeader ks =>
             s <- function_header s ks ;; types' <- apply_function_doc doc (sg_params s) ;;
             declare_params c (sg_params s) ;;; ret (s, tc_merge types types')
         | Ph PhFunctionDeclarationBody ks => scanForChildren ks ;;; ret (s, types)
         | _ => ret (s, types)
         end) (Sig empty_ts Public false [], [])) ;;
  let '((s, types), inside) := b in
  ns <- currNamespace ;;
  var_do CloseScope ;;;
  emit (ASym (AData AFunction (SetNamespace (sg_name s) ns) r types empty_ts Public false (map pm_name (sg_params s)) [] (doc_range doc) None) inside).
(** method.go:93-115 analyseHeader *)
Definition method_header (s : signature) (kids : list node) : M signature :=
  foldM kids (fun s c => match c with
    | Ph PhMemberModifierList ks => let '(v, st, _) := getMemberModifier ks in ret (Sig (sg_name s) v st (sg_params s))
    | Ph PhParameterDeclarationList ks => ps <- analyseParameterDeclarationList ks ;; ret (Sig (sg_name s) (sg_vis s) (sg_static s) (sg_params s ++ ps))
    | Ph PhIdentifier _ => t <- phraseText c ;; ret (Sig (TS t t 0) (sg_vis s) (sg_static s) (sg_params s))
    | Tk t => match t_type t with
              | TkName => x <- tokenText t ;; ret (Sig (TS x x 0) (sg_vis s) (sg_static s) (sg_params s))
              | _ => ret s
              end
    | _ => ret s
    end) s.
(** the class a method or constant is put into (method.go:138-148,
    classConst.go:64-74) *)
Definition member_scope : M type_string :=
  c <- getLastClass ;;
  match c with
  | Some c => ns <- currNamespace ;; ret (SetNamespace (c_name c) ns)
  | None => ret empty_ts
  end.
(** method.go:60-91 analyseMethodNode, :129-150 newMethod: the class is looked
    up after the body was scanned *)
Definition newMethod (n : node) (kids : list node) : M unit :=
  let r := NodeRange d n in
  doc <- getValidPhpDoc r ;;
  var_do (OpenScope r) ;;;
  b <- in_block (Some []) (foldM kids (fun '(s, types) c => match c with
         | Ph PhMethodDeclarationHeader ks =>
             s <- method_header s ks ;; set_block (Some (ts_original (sg_name s))) ;;;
             types' <- apply_function_doc doc (sg_params s) ;;
             declare_params c (sg_params s) ;;; ret (s, tc_merge types types')
         | Ph PhMethodDeclarationBody ks => scanForChildren ks ;;; ret (s, types)
         | _ => ret (s, types)
         end) (Sig empty_ts Public false [], [])) ;;
  let '((s, types), inside) := b in
  var_do CloseScope ;;;
  scope <- member_scope ;;
  emit (ASym (AData AMethod (sg_name s) r types scope (sg_vis s) (sg_static s) (map pm_name (sg_params s)) [] (doc_range doc) None) inside).
(** anonymousFunction.go:78-117 analyseUseClause *)
Definition analyseUseClause (kids : list node) : M unit :=
  forM kids (fun c => match c with
    | Ph PhClosureUseList ks => forM ks (fun u => match u with
        | Ph PhAnonymousFunctionUseVariable _ =>
            v <- newVariableWithoutPushing u ;; var_do (Capture (MkVar (ts_original (a_name v)) (a_range v))) ;;; emit1 v
        | _ => ret tt
        end)
    | _ => ret tt
    end).
(** anonymousFunction.go:20-64, :66-76 *)
Definition newAnonymousFunction (n : node) (kids : list node) : M unit :=
  let r := NodeRange d n in
  var_do (OpenScope r) ;;;
  b <- in_block None (foldM kids (fun ps c => match c with
         | Ph PhAnonymousFunctionHeader ks =>
             ps <- foldM ks (fun ps c => match c with
                     | Ph PhParameterDeclarationList qs => qs <- analyseParameterDeclarationList qs ;; ret (ps ++ qs)
                     | Ph PhAnonymousFunctionUseClause us => analyseUseClause us ;;; ret ps
                     | _ => ret ps
                     end) ps ;;
             forM ps (fun p => var_do (RecordVar (MkVar (pm_name p) (pm_range p)) (r_end (NodeRange d c)) true)) ;;;
             ret ps
         | Ph PhFunctionDeclarationBody ks => scanForChildren ks ;;; ret ps
         | _ => ret ps
         end) []) ;;
  var_do CloseScope ;;;
  let r := reference AAnonymousFunction [] r [] in
  emit (ASym (AData AAnonymousFunction empty_ts (a_range r) [] empty_ts Public false (map pm_name (fst b)) [] None None) (snd b)).
(** property.go:77-109 newProperty, :123-131 applyPhpDoc: added after what its
    initial value adds; an interface has no properties *)
Definition newProperty (n : node) (kids : list node) (vis : Z) (static : bool) : M unit :=
  let r := NodeRange d n in
  parent <- getLastClass ;;
  let scope := match parent with
               | Some c => match c_kind c with AClass | ATrait => c_name c | _ => empty_ts end
               | None => empty_ts
               end in
  name <- foldM kids (fun name c => match c with
            | Ph PhPropertyInitialiser ks => scanForChildren ks ;;; ret name
            | Tk t => match t_type t with TkVariableName => tokenText t | _ => ret name end
            | _ => ret name
            end) [] ;;
  doc <- getValidPhpDoc r ;;
  types <- (match doc with
            | Some p => match findTags p (B "@var") with
                        | t :: _ => ts <- typesFromPhpDoc (tg_types t) ;; ret (tc_merge [] ts)
                        | [] => ret []
                        end
            | None => ret []
            end) ;;
  emit1 (AData AProperty (TS name name 0) r types scope vis static [] [] (doc_range doc) None).
(** property.go:47-75 *)
Definition newPropertyDeclaration (kids : list node) : M unit :=
  foldM kids (fun '(vis, static) c => match c with
    | Ph PhMemberModifierList ks => let '(v, s, _) := getMemberModifier ks in ret (v, s)
    | Ph PhPropertyElementList ks =>
        forM ks (fun e => match e with Ph PhPropertyElement es => newProperty e es vis static | _ => ret tt end) ;;; ret (vis, static)
    | _ => ret (vis, static)
    end) (Public, false) ;;; ret tt.
(** classConst.go:58-108 newClassConst: added after what its value adds *)
Fixpoint class_const_loop (kids : list node) (name : gostr) (named has_equals skip : bool) (value : gostr) : M (gostr * bool * gostr) :=
  match kids with
  | [] => ret (name, named, value)
  | Tk t :: kids =>
      match t_type t with
      | TkEquals => class_const_loop kids name named true true value
      | TkWhitespace =>
          if skip then class_const_loop kids name named has_equals true value
          else if has_equals then v <- tokenText t ;; class_const_loop kids name named has_equals false (value ++ v)
          else class_const_loop kids name named has_equals false value
      | _ => if has_equals then v <- tokenText t ;; class_const_loop kids name named has_equals false (value ++ v)
             else class_const_loop kids name named has_equals false value
      end
  | (Ph ty _ as c) :: kids =>
      if has_equals then
        v <- phraseText c ;; scan c ;;; class_const_loop kids name named has_equals false (value ++ v)
      else match ty with
           | PhIdentifier => x <- phraseText c ;; class_const_loop kids x true has_equals false value
           | _ => class_const_loop kids name named has_equals false value
           end
  | Err _ :: kids => class_const_loop kids name named has_equals false value
  end.
Definition newClassConst (n : node) (kids : list node) (vis : Z) : M unit :=
  let r := NodeRange d n in
  doc <- getValidPhpDoc r ;;
  scope <- member_scope ;;
  c <- class_const_loop kids [] false false false [] ;;
  let '(name, named, value) := c in
  emit1 (AData AClassConst (TS name name 0) r [] scope vis true [] value (if named : bool then doc_range doc else None) None).
(** classConst.go:30-56 *)
Definition newClassConstDeclaration (kids : list node) : M unit :=
  foldM kids (fun vis c => match c with
    | Ph PhMemberModifierList ks => let '(v, _, _) := getMemberModifier ks in ret v
    | Ph PhClassConstElementList ks =>
        forM ks (fun e => match e with Ph PhClassConstElement es => newClassConst e es vis | _ => ret tt end) ;;; ret vis
    | _ => ret vis
    end) Public ;;; ret tt.
(** const.go:20-30 *)
Definition newConstDeclaration (kids : list node) : M unit :=
  forM kids (fun c => match c with Ph PhConstElementList ks => scanForChildren ks | _ => ret tt end).
(** define.go:65-80 analyseArgs; stringText[1 : len-1] of a text of one byte is
    out of bounds *)
Definition define_args (args : list node) (old : type_string * gostr) : M (type_string * gostr) :=
  match args with
  | [] => ret old
  | a :: rest =>
      name <- (match a with
               | Tk t => match t_type t with
                         | TkStringLiteral =>
                             text <- tokenText t ;;
                             if length text <? 2 then panic else newTypeString (slice text 1 (length text - 1))
                         | _ => ret (fst old)
                         end
               | _ => ret (fst old)
               end) ;;
      value <- (match rest with b :: _ => nodeText b | [] => ret (snd old) end) ;;
      ret (name, value)
  end.
(** define.go:24-51 newDefine *)
Definition newDefine (n : node) (kids : list node) : M unit :=
  let r := NodeRange d n in
  doc <- getValidPhpDoc r ;;
  b <- in_block None (foldM kids (fun acc c => match c with
         | Ph PhArgumentExpressionList ks => args <- newArgumentList c ks ;; define_args args acc
         | _ => ret acc
         end) (empty_ts, [])) ;;
  let '((name, value), inside) := b in
  ns <- currNamespace ;;
  emit (ASym (AData ADefine (SetNamespace name ns) r [] empty_ts Public false [] value (doc_range doc) None) inside).
(** functionCall.go:35-40 tryToNewDefine *)
Definition tryToNewDefine (n : node) (kids : list node) : M unit :=
  b <- isDefine n ;; if b then newDefine n kids else ret tt.
(** try.go:8-20 *)
Definition processCatchNameList (kids : list node) : M unit :=
  forM kids (fun c => match c with
    | Ph (PhQualifiedName | PhFullyQualifiedName) _ => a <- newClassAccess c ;; emit1 a
    | _ => ret tt
    end).
(** namespace.go:14-32 newNamespace *)
Definition newNamespace (n : node) (kids : list node) : M unit :=
  i <- pushImportTable n ;;
  change_table i (fun t => setNamespace t []) ;;;
  forM kids (fun c => match c with
    | Ph PhNamespaceName _ => name <- phraseText c ;; change_table i (fun t => setNamespace t name)
    | Ph PhStatementList ks => scanForChildren ks
    | _ => ret tt
    end).

(** ** Expressions: the expression and whether scanForExpression adds it *)
Definition made := (option adata * bool)%type.
(** functionCall.go:42-68 newFunctionCall. The call is added first; with a
    variable in front, that is added after it. *)
Fixpoint first_arguments (kids : list node) : M unit :=
  match kids with
  | [] => ret tt
  | (Ph PhArgumentExpressionList _ as c) :: _ => scan c
  | _ :: kids => first_arguments kids
  end.
Definition newFunctionCall (kids : list node) : M made :=
  match kids with
  | [] => let e := reference AFunctionCall [] zero_range [] in emit1 e ;;; ret (Some e, false)
  | c :: _ =>
      name <- nodeText c ;;
      let e := reference AFunctionCall name (NodeRange d c) [] in
      emit1 e ;;;
      (match c with Ph PhSimpleVariable _ => x <- expr c ;; ret tt | _ => ret tt end) ;;;
      i <- currImportTable ;; t <- newTypeString name ;;
      change_table i (fun table => useFunctionOrClass table t) ;;;
      first_arguments kids ;;;
      ret (Some e, false)
  end.
(** classAccess.go:48-54 analyseMemberName *)
Definition member_name_of (n : option node) : M gostr :=
  match n with Some (Ph PhScopedMemberName _ as c) => phraseText c | _ => ret [] end.
(** the part before "::" (scopedPropertyAccess.go:26-32 and the same in the
    other two) *)
Definition scope_access (kids : list node) : M unit :=
  match kids with
  | (Ph _ _ as c) :: _ => a <- newClassAccess c ;; emit1 a
  | _ => ret tt
  end.
(** scopedPropertyAccess.go:20-40, scopedConstantAccess.go:17-37 *)
Definition newScopedAccess (k : akind) (kids : list node) : M made :=
  scope_access kids ;;;
  let third := nth_error kids 2 in
  name <- member_name_of third ;;
  ret (Some (reference k name (NodeRangeOpt d third) []), true).
(** scopedMethodAccess.go:19-48 *)
Definition newScopedMethodAccess (kids : list node) : M made :=
  scope_access kids ;;;
  let third := nth_error kids 2 in
  name <- member_name_of third ;;
  let e := reference AScopedMethodAccess name (NodeRangeOpt d third) [] in
  emit1 e ;;; first_arguments (skipn 3 kids) ;;; ret (Some e, false).
(** memberAccess.go:10-44 readMemberName: the name, its range, and the children
    that are left. An arrow without a name after it has the empty range behind it. *)
Fixpoint skip_arrows (kids : list node) (r : range) : list node * range :=
  match kids with
  | Tk t :: kids' =>
      match t_type t with
      | TkWhitespace => skip_arrows kids' r
      | TkArrow => skip_arrows kids' (Rng (pos_at d (t_end t)) (pos_at d (t_end t)))
      | _ => (kids, r)
      end
  | _ => (kids, r)
  end.
Fixpoint member_name_loop (kids : list node) (name : gostr) : M gostr :=
  match kids with
  | [] => ret name
  | Tk t :: kids => match t_type t with TkName => x <- tokenText t ;; member_name_loop kids x | _ => member_name_loop kids name end
  | (Ph PhSimpleVariable _ as c) :: _ => x <- phraseText c ;; v <- newVariable c false ;; emit1 v ;;; ret x
  | _ :: kids => member_name_loop kids name
  end.
Definition readMemberName (kids : list node) : M (gostr * range * list node) :=
  let '(kids, r) := skip_arrows kids zero_range in
  match kids with
  | (Ph PhMemberName ks as c) :: rest => name <- member_name_loop ks [] ;; ret (name, NodeRange d c, rest)
  | (Tk t as c) :: rest => match t_type t with
                           | TkName => name <- tokenText t ;; ret (name, NodeRange d c, rest)
                           | _ => ret ([], r, rest)
                           end
  | _ :: rest => ret ([], r, rest)
  | [] => ret ([], r, [])
  end.
Definition receiver (kids : list node) : M unit :=
  match kids with (Ph _ _ as c) :: _ => e <- expr c ;; ret tt | _ => ret tt end.
(** propertyAccess.go:18-35 *)
Definition newPropertyAccess (kids : list node) : M made :=
  receiver kids ;;;
  m <- readMemberName (skipn 1 kids) ;;
  ret (Some (reference APropertyAccess (fst (fst m)) (snd (fst m)) []), true).
(** methodAccess.go:17-45: the child after the receiver is skipped unseen *)
Definition newMethodAccess (kids : list node) : M made :=
  receiver kids ;;;
  m <- readMemberName (skipn 2 kids) ;;
  let e := reference AMethodAccess (fst (fst m)) (snd (fst m)) [] in
  emit1 e ;;;
  forM (snd m) (fun c => match c with Ph PhArgumentExpressionList ks => a <- newArgumentList c ks ;; ret tt | _ => ret tt end) ;;;
  ret (Some e, false).
(** classTypeDesignator.go:43-66 analyseNode; the variable is added behind the
    designator *)
Definition designator_node (kids : list node) : M (gostr * type_composite * list adata) :=
  foldM kids (fun '(name, types, vars) c => match c with
    | Ph (PhQualifiedName | PhFullyQualifiedName) _ =>
        t <- classReference c ;; ret (ts_original t, tc_add types t, vars)
    | Ph PhRelativeScope _ => ts <- relativeTypes ;; ret (name, tc_merge types ts, vars)
    | Ph PhSimpleVariable _ => v <- newVariable c false ;; ret (name, types, vars ++ [v])
    | _ => ret (name, types, vars)
    end) ([], [], []).
(** classTypeDesignator.go:18-41, :68-71, :99-104. Simplified: an expression
    with both a named and an anonymous class, which the grammar does not have,
    gives two symbols here and twice the same one in Go; and the designator takes
    the name of an anonymous class at its end (Go: when it is added, its name is
    set already). *)
Definition newClassTypeDesignator (kids : list node) : M made :=
  e <- foldM kids (fun e c => match c with
         | Ph PhClassTypeDesignator ks =>
             x <- designator_node ks ;;
             let '(name, types, vars) := x in
             let e := reference AClassTypeDesignator name (NodeRange d c) types in
             emit1 e ;;; forM vars emit1 ;;; ret e
         | Ph PhArgumentExpressionList ks => a <- newArgumentList c ks ;; ret e
         | Ph PhAnonymousClassDeclaration _ =>
             b <- in_block None (scan c) ;;
             let name := match snd b with ASym x _ :: _ => a_name x | [] => empty_ts end in
             let e := reference AClassTypeDesignator (ts_original name) (NodeRange d c) [name] in
             emit (ASym e (snd b)) ;;; ret e
         | _ => ret e
         end) (reference AClassTypeDesignator [] zero_range []) ;;
  ret (Some e, false).
(** foreach.go:14-67 *)
Definition analyseForeachStatement (kids : list node) : M made :=
  forM kids (fun c => match c with
    | Ph PhForeachCollection ks => forM ks (fun e => match e with Ph _ _ => x <- expr e ;; ret tt | _ => ret tt end)
    | Ph PhForeachValue ks => forM ks (fun v => match v with
        | Ph PhSimpleVariable _ => x <- newVariable v true ;; emit1 x
        | _ => ret tt
        end)
    | Ph (PhCompoundStatement | PhStatementList) ks => scanForChildren ks
    | _ => ret tt
    end) ;;;
  ret (None, false).
(** assignment.go:39-81 analyseVariableAssignment; [rest]: the children behind
    the variable *)
Definition scan_opt (n : option node) : M unit := match n with Some n => scan n | None => ret tt end.
Definition analyseVariableAssignment (ty : phrase_type) (parent lhs : node) (rest : list node) : M unit :=
  let rest := SkipToken is_whitespace (skipn 1 rest) in
  let rest := match ty with PhCompoundAssignmentExpression => SkipToken is_dot_equals rest | _ => SkipToken is_equals rest end in
  let rest := SkipToken is_whitespace rest in
  let rest := match ty with PhByRefAssignmentExpression => SkipToken is_whitespace (SkipToken is_ampersand rest) | _ => rest end in
  let rhs := nth_error rest 0 in
  doc <- getValidPhpDoc (NodeRange d lhs) ;;
  v <- newVariableWithoutPushing lhs ;;
  v <- (match doc with
        | Some p => types <- merge_tags (a_types v) (findTags p (B "@var")) ;;
                    ret (reference AVariable (ts_original (a_name v)) (a_range v) types)
        | None => ret v
        end) ;;
  emit1 v ;;;
  x <- (match rhs with Some (Ph _ _ as c) => expr c | _ => ret None end) ;;
  pushVariable v (r_end (NodeRange d parent)) true ;;;
  match x with
  | Some _ => ret tt
  | None => match rhs with
            | Some (Ph ty' _ as c) => if is_expr_type ty' then ret tt else scan c
            | _ => scan_opt rhs
            end
  end.
(** assignment.go:83-124 processPropertyAccessAssignment *)
Definition processPropertyAccessAssignment (kids : list node) : M unit :=
  (match kids with (Ph _ _ as c) :: _ => x <- expr c ;; ret tt | _ => ret tt end) ;;;
  let rest := SkipToken is_whitespace (SkipToken is_equals (SkipToken is_whitespace (skipn 1 kids))) in
  let rhs := nth_error rest 0 in
  x <- (match rhs with Some (Ph _ _ as c) => expr c | _ => ret None end) ;;
  match x with Some _ => ret tt | None => scan_opt rhs end.
(** assignment.go:11-37 newAssignment *)
Definition newAssignment (n : node) (ty : phrase_type) (kids : list node) : M made :=
  block <- get st_block ;;
  let in_constructor := match block with Some m => str_eqb (to_lower m) (B "__construct") | None => false end in
  (match kids with
   | (Ph PhSimpleVariable _ as c) :: rest => analyseVariableAssignment ty n c rest
   | (Ph PhPropertyAccessExpression _ as c) :: rest =>
       if in_constructor then processPropertyAccessAssignment kids
       else scan c ;;; forM rest scan
   | (Ph _ _ as c) :: rest => scan c ;;; forM rest scan
   | _ :: rest => forM rest scan
   | [] => ret tt
   end) ;;;
  ret (None, false).
(** binaryExpression.go:9-22 *)
Fixpoint newInstanceOfTypeDesignator (kids : list node) : M made :=
  match kids with
  | [] => ret (None, false)
  | (Ph (PhQualifiedName | PhFullyQualifiedName) _ as c) :: _ => a <- newClassAccess c ;; ret (Some a, true)
  | _ :: kids => newInstanceOfTypeDesignator kids
  end.
(** binaryExpression.go:24-41 *)
Definition processInstanceOfExpression (kids : list node) : M made :=
  let rest := SkipToken is_whitespace (SkipToken is_instanceof (SkipToken is_whitespace (skipn 1 kids))) in
  (match kids, rest with
   | (Ph _ _ as l) :: _, (Ph _ _ as r) :: _ => x <- expr l ;; y <- expr r ;; ret tt
   | _, _ => ret tt
   end) ;;;
  ret (None, false).
(** expression.go:116-147 newDerivedExpression: up to the first child that is an
    expression; the other nodes met on the way are scanned afterwards *)
Fixpoint derived_loop (kids : list node) (to_scan : list node) : M (list node) :=
  match kids with
  | [] => ret to_scan
  | (Ph ty _ as c) :: kids =>
      let to_scan := if is_expr_type ty then to_scan else to_scan ++ [c] in
      x <- expr c ;;
      match x with Some _ => ret to_scan | None => derived_loop kids to_scan end
  | c :: kids => derived_loop kids (to_scan ++ [c])
  end.
Definition newDerivedExpression (n : node) (kids : list node) : M made :=
  let e := reference ADerived [] (NodeRange d n) [] in
  b <- in_block None (to_scan <- derived_loop kids [] ;; forM to_scan scan) ;;
  emit (ASym e (snd b)) ;;;
  ret (Some e, false).

(** expression.go:67-105 scanForExpression, nodeTypeToExprConstructor *)
Definition construct (n : node) (ty : phrase_type) (kids : list node) : M made :=
  match ty with
  | PhFunctionCallExpression => newFunctionCall kids
  | PhConstantAccessExpression => a <- newConstantAccess n ;; ret (Some a, true)
  | PhScopedPropertyAccessExpression => newScopedAccess AScopedPropertyAccess kids
  | PhScopedCallExpression => newScopedMethodAccess kids
  | PhClassConstantAccessExpression | PhErrorScopedAccessExpression => newScopedAccess AScopedConstantAccess kids
  | PhObjectCreationExpression => newClassTypeDesignator kids
  | PhSimpleVariable => v <- newVariable n false ;; ret (Some v, true)
  | PhPropertyAccessExpression => newPropertyAccess kids
  | PhMethodCallExpression => newMethodAccess kids
  | PhForeachStatement => analyseForeachStatement kids
  | PhEncapsulatedExpression | PhCloneExpression => newDerivedExpression n kids
  | PhSimpleAssignmentExpression | PhByRefAssignmentExpression | PhCompoundAssignmentExpression => newAssignment n ty kids
  | PhInstanceOfExpression => processInstanceOfExpression kids
  | PhInstanceofTypeDesignator => newInstanceOfTypeDesignator kids
  | _ => ret (None, false)
  end.
Definition expr_body (n : node) : M (option adata) :=
  match n with
  | Ph ty kids =>
      e <- construct n ty kids ;;
      match e with (Some a, true) => emit1 a ;;; ret (Some a) | (x, _) => ret x end
  | _ => ret None
  end.
(** symbolBlock.go:85-106 symbolConstructorMap *)
Definition symbol_of (n : node) (ty : phrase_type) (kids : list node) : M unit :=
  match ty with
  | PhInterfaceDeclaration => newInterface n kids
  | PhClassDeclaration => newClass n kids
  | PhClassConstDeclaration => newClassConstDeclaration kids
  | PhPropertyDeclaration => newPropertyDeclaration kids
  | PhMethodDeclaration => newMethod n kids
  | PhTraitUseClause => processTraitUseClause kids
  | PhFunctionDeclaration => newFunction n kids
  | PhConstDeclaration => newConstDeclaration kids
  | PhConstElement => newConst n kids
  | PhArgumentExpressionList => a <- newArgumentList n kids ;; ret tt
  | PhTraitDeclaration => newTrait n kids
  | PhFunctionCallExpression => tryToNewDefine n kids
  | PhGlobalDeclaration => newGlobalDeclaration kids
  | PhNamespaceUseDeclaration => processNamespaceUseDeclaration kids
  | PhAnonymousFunctionCreationExpression => newAnonymousFunction n kids
  | PhAnonymousClassDeclaration => newAnonymousClass n kids
  | PhDocumentComment => newPhpDocFromNode n kids
  | PhCatchNameList => processCatchNameList kids
  | _ => ret tt
  end.
(** symbolBlock.go:80-82, :108-141 scanNode *)
Definition node_body (n : node) : M unit :=
  match n with
  | Ph PhNamespaceDefinition kids => newNamespace n kids
  | Ph ty kids =>
      def <- isDefine n ;;
      (if def then ret tt else e <- expr_body n ;; ret tt) ;;;
      if typesToScanForChildren ty then scanForChildren kids else symbol_of n ty kids
  | Tk t => match t_type t with
            | TkDirectoryConstant => a <- newDirectoryConstantAccess t ;; emit1 a
            | _ => ret tt
            end
  | Err _ => ret tt
  end.
End Open.

(** The recursion: one unit of fuel for each level of the tree. *)
Fixpoint scanNode (fuel : nat) (n : node) : M unit :=
  match fuel with
  | O => fun _ => OutOfFuel
  | S fuel => node_body (scanNode fuel) (scanForExpression fuel) n
  end
with scanForExpression (fuel : nat) (n : node) : M (option adata) :=
  match fuel with
  | O => fun _ => OutOfFuel
  | S fuel => expr_body (scanNode fuel) (scanForExpression fuel) n
  end.

(** document.go:91-104 Load *)
Definition initial : state := St [] None [] [] None [].
Definition Load (fuel : nat) : result unit :=
  (match d_root d with Ph _ kids => scanForChildren (scanNode fuel) kids | _ => ret tt end ;;;
   i <- currImportTable ;; ret tt) initial.
End Document.
(** the levels of a tree *)
Fixpoint height (n : node) : nat :=
  match n with
  | Ph _ kids => S (fold_right (fun k h => Nat.max (height k) h) 0 kids)
  | _ => 1
  end.
(** the state at the end of a run with enough fuel *)
Definition analyse {TX : Text} {TR : TrimSpace} (d : document) : result unit := Load d (height (d_root d)).
