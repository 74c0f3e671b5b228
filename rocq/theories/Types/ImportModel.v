(** analysis/importTable.go, analysis/insertUse.go and addUseToImportTable of
    analysis/use.go: import tables, name resolution and inserted use statements.

    A Go map from aliases to items is an association list with one entry per
    alias.  Where Go iterates over a map, in an order it does not specify, the
    model takes the order as an argument.  The items are pointers shared by all
    copies of a table, so a function that marks an item as used returns the
    changed table. *)
From Coq Require Import String.
From Coq Require Import List Bool ZArith.
From Coq.Strings Require Import Byte.
From Verif Require Import Base.Bytes Base.Protocol Symbols.Symbols Symbols.KeysModel Types.TypesModel.
Import ListNotations.
Open Scope list_scope.

(** importTable.go:11-15 *)
Record importItem := Item { it_name : gostr; it_range : range; it_used : bool }.
Definition alias_map := list (gostr * importItem).

Fixpoint am_get (m : alias_map) (a : gostr) : option importItem :=
  match m with
  | [] => None
  | (b, i) :: m => if str_eqb b a then Some i else am_get m a
  end.
Fixpoint am_set (m : alias_map) (a : gostr) (i : importItem) : alias_map :=
  match m with
  | [] => [(a, i)]
  | (b, j) :: m => if str_eqb b a then (a, i) :: m else (b, j) :: am_set m a i
  end.

(** importTable.go:17-23; the namespace is its name, [None] for nil *)
Record ImportTable := Table {
  start : position; namespace : option gostr;
  classes : alias_map; functions : alias_map; constants : alias_map }.

(** importTable.go:25-38; [pos] is the position of the node's first token, or
    of offset 0 *)
Definition newImportTable (pos : position) : ImportTable := Table pos None [] [] [].

(** importTable.go:40-46 *)
Definition makeSureAliasIsNotEmpty (alias name : gostr) : gostr :=
  match alias with
  | [] => last (split_byte name BSL) []
  | _ => alias
  end.

(** importTable.go:48-54 *)
Definition addClassName (i : ImportTable) (alias name : gostr) (r : range) : ImportTable :=
  Table (start i) (namespace i) (am_set (classes i) (makeSureAliasIsNotEmpty alias name) (Item name r false)) (functions i) (constants i).
(** importTable.go:56-62 *)
Definition addFunctionName (i : ImportTable) (alias name : gostr) (r : range) : ImportTable :=
  Table (start i) (namespace i) (classes i) (am_set (functions i) (makeSureAliasIsNotEmpty alias name) (Item name r false)) (constants i).
(** importTable.go:64-70 *)
Definition addConstName (i : ImportTable) (alias name : gostr) (r : range) : ImportTable :=
  Table (start i) (namespace i) (classes i) (functions i) (am_set (constants i) (makeSureAliasIsNotEmpty alias name) (Item name r false)).
(** importTable.go:72-74 *)
Definition setNamespace (i : ImportTable) (n : gostr) : ImportTable :=
  Table (start i) (Some n) (classes i) (functions i) (constants i).

(** importTable.go:211-216 *)
Definition GetNamespace (i : ImportTable) : gostr := match namespace i with Some n => n | None => [] end.

(** importTable.go:224-240 useClass, useFunction, useConstant *)
Definition am_use (m : alias_map) (a : gostr) : alias_map :=
  match am_get m a with
  | Some i => am_set m a (Item (it_name i) (it_range i) true)
  | None => m
  end.
Definition useClass (i : ImportTable) (a : gostr) : ImportTable :=
  Table (start i) (namespace i) (am_use (classes i) a) (functions i) (constants i).
Definition useFunction (i : ImportTable) (a : gostr) : ImportTable :=
  Table (start i) (namespace i) (classes i) (am_use (functions i) a) (constants i).
Definition useConstant (i : ImportTable) (a : gostr) : ImportTable :=
  Table (start i) (namespace i) (classes i) (functions i) (am_use (constants i) a).

(** importTable.go:76-89 *)
Definition GetClassReferenceFQN (i : ImportTable) (name : type_string) : gostr * ImportTable :=
  let '(firstPart, parts) := GetFirstAndRestParts name in
  match am_get (classes i) firstPart with
  | Some item =>
      let fqn := BSL :: it_name item in
      let fqn := match parts with [] => fqn | _ => fqn ++ BSL :: join parts [BSL] end in
      (fqn, useClass i firstPart)
  | None => (ts_fqn (SetNamespace name (GetNamespace i)), i)
  end.

(** importTable.go:91-111; [declared fqn] is whether q.GetFunctions(fqn) is not
    empty *)
Definition GetFunctionReferenceFQN (declared : gostr -> bool) (i : ImportTable) (name : type_string) : gostr :=
  let '(firstPart, parts) := GetFirstAndRestParts name in
  let aliasTable := match parts with [] => functions i | _ => classes i end in
  match am_get aliasTable firstPart with
  | Some item => BSL :: it_name item
  | None =>
      let fqn := ts_fqn name in
      let fqn := if IsFQN fqn then fqn else BSL :: fqn in
      if declared fqn then fqn else ts_fqn (SetNamespace name (GetNamespace i))
  end.

(** importTable.go:113-134 *)
Definition FunctionPossibleFQNs (i : ImportTable) (name : type_string) : list gostr :=
  let '(firstPart, parts) := GetFirstAndRestParts name in
  let aliasTable := match parts with [] => functions i | _ => classes i end in
  match am_get aliasTable firstPart with
  | Some item => [BSL :: it_name item]
  | None =>
      let fqn := ts_fqn name in
      let fqn := if IsFQN fqn then fqn else BSL :: fqn in
      let placed := ts_fqn (SetNamespace name (GetNamespace i)) in
      fqn :: (if str_eqb placed fqn then [] else [placed])
  end.

(** importTable.go:136-162; [is_const]/[is_define] are whether q.GetConsts and
    q.GetDefines find something *)
Definition GetConstReferenceFQN (is_const is_define : gostr -> bool) (i : ImportTable) (name : type_string) : gostr :=
  let '(firstPart, parts) := GetFirstAndRestParts name in
  let aliasTable := match parts with [] => constants i | _ => classes i end in
  match am_get aliasTable firstPart with
  | Some item => BSL :: it_name item
  | None =>
      let fqn := ts_fqn name in
      let fqn := if IsFQN fqn then fqn else BSL :: fqn in
      if is_const fqn then fqn
      else if is_define fqn then fqn
      else ts_fqn (SetNamespace name (GetNamespace i))
  end.

(** importTable.go:218-222; [None]: NewTypeString panics *)
Definition ResolveScopeNamespace (i : ImportTable) (word : gostr) : option gostr :=
  option_map (fun name => ts_GetNamespace (SetNamespace name (GetNamespace i))) (NewTypeString word).

(** importTable.go:242-258 *)
Definition useFunctionOrClass (i : ImportTable) (name : type_string) : ImportTable :=
  let '(firstPart, parts) := GetFirstAndRestParts name in
  match parts with [] => useFunction i firstPart | _ => useClass i firstPart end.
Definition useConstOrClass (i : ImportTable) (name : type_string) : ImportTable :=
  let '(firstPart, parts) := GetFirstAndRestParts name in
  match parts with [] => useConstant i firstPart | _ => useClass i firstPart end.

(** importTable.go:260-278; Go's order within each of the three maps is
    unspecified, so claims about the result only speak of membership *)
Definition unusedImportItems (i : ImportTable) : list importItem :=
  List.filter (fun x => negb (it_used x))
    (map snd (classes i) ++ map snd (functions i) ++ map snd (constants i)).

(** ** insertUse.go *)
(** The syntactic context of insertUse.go:16-67: the node after which a use
    statement goes (the last use declaration, else the namespace definition,
    else the first inline text), whether it is a namespace definition, the
    position of its end and the text before it on its line; and the document's
    line ending.  How it is found in the tree is not modelled. *)
Record insert_context := Insert {
  ic_after : option (bool * position * gostr);
  ic_eol : gostr }.

Inductive symbol_class := SyClass | SyFunction | SyConst | SyNil.

Record text_edit := Edit { ed_range : range; ed_text : gostr }.

(** insertUse.go:69-104 *)
Definition GetUseEdit (c : insert_context) (t : type_string) (symbol : symbol_class) (alias : gostr) : option text_edit :=
  match ts_fqn t, ic_after c with
  | [], _ => None
  | _, None => None
  | _, Some (after_namespace, pos, indentation) =>
      let text := ic_eol c ++ (if after_namespace : bool then ic_eol c else []) ++ indentation ++ B "use "
        ++ (match symbol with SyFunction => B "function " | SyConst => B "const " | _ => [] end)
        ++ tl (ts_fqn t)
        ++ (match alias with [] => [] | _ => B " as " ++ alias end) ++ B ";" in
      Some (Edit (Rng pos pos) text)
  end.

(** importTable.go:164-209.  [order] is the order in which Go visits the map of
    imported classes.  [None]: a panic (NewTypeString, or nameParts[0]). *)
Definition ResolveToQualified (i : ImportTable) (c : insert_context) (order : alias_map)
  (symbol : symbol_class) (name : type_string) (word : gostr) : option (gostr * option text_edit) :=
  if IsFQN word then Some (ts_original name, None)
  else match ResolveScopeNamespace i word with
  | None => None
  | Some wordNamespace =>
      let nameNamespace := ts_GetNamespace name in
      if str_eqb wordNamespace nameNamespace || str_eqb (ts_original name) [] then Some (ts_original name, None)
      else match GetParts name with
      | [] => None
      | firstPart :: nameParts =>
          if match am_get (classes i) firstPart with Some item => has_prefix (it_name item) word | None => false end
          then Some (match nameParts with [] => firstPart | _ => join nameParts [BSL] end, None)
          else if match symbol with SyFunction | SyConst => str_eqb nameNamespace [BSL] | _ => false end
          then Some (ts_original name, None)
          else match find (fun p => str_eqb (BSL :: it_name (snd p)) (ts_fqn name)) order with
          | Some (alias, _) => Some (alias, None)
          | None =>
              let currentWordScope := fst (GetScopeAndNameFromString word) in
              if negb (str_eqb currentWordScope []) && str_eqb currentWordScope nameNamespace
              then match NewTypeString nameNamespace with
                   | None => None
                   | Some t => Some (ts_original name, GetUseEdit c t SyNil [])
                   end
              else Some (ts_original name, GetUseEdit c name symbol [])
          end
      end
  end.

(** ** use.go:130-139 addUseToImportTable *)
Inductive use_kind := UseClass | UseFunction | UseConst.
Definition addUseToImportTable (i : ImportTable) (k : use_kind) (alias name : gostr) (r : range) : ImportTable :=
  match k with
  | UseClass => addClassName i alias name r
  | UseFunction => addFunctionName i alias name r
  | UseConst => addConstName i alias name r
  end.
