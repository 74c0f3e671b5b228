(** Model of the completion lists built from index searches,
    internal/lsp/completion.go, of workspace/symbol, internal/lsp/symbol.go, and
    of variable completion. *)
From Coq Require Import String.
From Coq Require Import List Bool NArith ZArith.
From Coq.Strings Require Import Byte.
From Verif Require Import Base.Bytes Base.Protocol Symbols.Symbols Symbols.KeysModel
  Store.FilterModel Store.StoreModel Store.SearchModel Types.TypesModel.
Import ListNotations.
Open Scope list_scope.

(** internal/lsp/server.go:76-78 *)
Definition baseSearchOptions : search_options := WithLimit NewSearchOptions 1000.

(** One entry of a completion list. Label, detail and edits are computed from
    the symbol (see C34 for the label and the edit) and are left out; a
    namespace entry has a label and a text to insert. *)
Inductive proposal := PSymbol (s : symbol) | PNamespace (label insertText : gostr).
Record completion_list := CompletionList { cl_items : list proposal; cl_incomplete : bool }.

(** internal/lsp/symbolConverter.go:430-435 normaliseNamespaceName *)
Definition normaliseNamespaceName (name : gostr) : gostr :=
  match name with
  | b :: _ => if byte_eqb b BSL then name else BSL :: name
  | [] => []
  end.
(** internal/lsp/symbolConverter.go:437-444 namespaceDiff *)
Definition namespaceDiff (full sub : gostr) : gostr :=
  let full := normaliseNamespaceName full in
  let sub := normaliseNamespaceName sub in
  if has_prefix sub full then
    match last_index_byte (firstn (length sub) full) BSL with
    | Some i => skipn (i + 1) full
    | None => full
    end
  else full.

Section Completion.
Context {T : Text} {X : XorFilter}.

(** The list so far and the number of results the shared limiter has counted. *)
Definition state := option (completion_list * Z).
(** The block repeated for every kind of symbol, for example
    completion.go:223-229: search, set IsIncomplete, append the results. *)
Definition and_search (search : store -> gostr -> search_options -> Z -> option outcome) (st : store) (word : gostr) (acc : state) : state :=
  match acc with
  | None => None
  | Some (cl, count) =>
      match search st word baseSearchOptions count with
      | None => None
      | Some (l, complete, count') => Some (CompletionList (cl_items cl ++ map PSymbol l) (negb complete), count')
      end
  end.
(** completion.go:285-290 and 453-458 *)
Definition and_namespaces (st : store) (word : gostr) (acc : state) : state :=
  match acc with
  | None => None
  | Some (cl, count) =>
      if IsFQN word then
        match SearchNamespaces st word with
        | None => None
        | Some (l, _) => Some (CompletionList (cl_items cl ++ map (fun ns => PNamespace ns (namespaceDiff ns word)) l) (cl_incomplete cl), count)
        end
      else acc
  end.
Definition start (incomplete : bool) : state := Some (CompletionList [] incomplete, 0%Z).
Definition finish (acc : state) : option completion_list := option_map fst acc.

(** completion.go:215-292 nameCompletion *)
Definition nameCompletion (st : store) (word : gostr) : option completion_list :=
  finish (and_namespaces st word (and_search SearchFunctions st word (and_search SearchDefines st word
    (and_search SearchConsts st word (and_search SearchInterfaces st word (and_search SearchClasses st word (start true))))))).
(** completion.go:294-318 classCompletion *)
Definition classCompletion (st : store) (word : gostr) : option completion_list :=
  finish (and_search SearchClasses st word (start false)).
(** completion.go:413-460 typeCompletion *)
Definition typeCompletion (st : store) (word : gostr) : option completion_list :=
  finish (and_namespaces st word (and_search SearchInterfaces st word (and_search SearchClasses st word (start true)))).
(** completion.go:515-529 interfaceCompletion *)
Definition interfaceCompletion (st : store) (word : gostr) : option completion_list :=
  finish (and_search SearchInterfaces st word (start false)).
(** completion.go:531-545 traitCompletion *)
Definition traitCompletion (st : store) (word : gostr) : option completion_list :=
  finish (and_search SearchTraits st word (start false)).

(** internal/lsp/protocol SymbolInformation; the kind is the name of the
    protocol constant *)
Inductive info_kind := IClass | IConstant | IFunction | IInterface | IMethod | IProperty | IOther.
Record symbol_information := SymbolInformation {
  si_kind : info_kind; si_name : gostr; si_location : location; si_container : gostr }.
(** symbol.go:138-212, the literal for each kind of symbol *)
Definition toSymbolInformation (s : symbol) : symbol_information :=
  match s with
  | SClass c => SymbolInformation IClass (ts_fqn (c_name c)) (c_location c) []
  | SConst k => SymbolInformation IConstant (ts_fqn (k_name k)) (k_location k) []
  | SClassConst c => SymbolInformation IConstant (cc_name c) (cc_location c) (ts_fqn (cc_scope c))
  | SDefine d => SymbolInformation IConstant (ts_fqn (d_name d)) (d_location d) []
  | SFunction f => SymbolInformation IFunction (ts_fqn (f_name f)) (f_location f) []
  | SInterface i => SymbolInformation IInterface (ts_fqn (i_name i)) (i_location i) []
  | SMethod m => SymbolInformation IMethod (m_name m) (m_location m) (ts_fqn (m_scope m))
  | SProperty p => SymbolInformation IProperty (pr_name p) (pr_location p) (ts_fqn (pr_scope p))
  | STrait t => SymbolInformation IClass (ts_fqn (t_name t)) (t_location t) []
  | SGlobalVariable g => SymbolInformation IOther (g_name g) (Loc [] (Rng (Pos 0 0) (Pos 0 0))) []   (* never searched *)
  end.
Definition ws_state := option (list symbol_information * Z).
Definition ws_search (search : store -> gostr -> search_options -> Z -> option outcome) (st : store) (q : gostr) (acc : ws_state) : ws_state :=
  match acc with
  | None => None
  | Some (infos, count) =>
      match search st q baseSearchOptions count with
      | None => None
      | Some (l, _, count') => Some (infos ++ map toSymbolInformation l, count')
      end
  end.
(** symbol.go:137-213, the body of the loop over the stores *)
Definition ws_store (q : gostr) (acc : ws_state) (st : store) : ws_state :=
  let acc := ws_search SearchClasses st q acc in
  let acc := ws_search SearchConsts st q acc in
  let acc := ws_search (fun st => SearchClassConsts st []) st q acc in
  let acc := ws_search SearchDefines st q acc in
  let acc := ws_search SearchFunctions st q acc in
  let acc := ws_search SearchInterfaces st q acc in
  let acc := ws_search (fun st => SearchMethods st []) st q acc in
  let acc := ws_search (fun st => SearchProperties st []) st q acc in
  ws_search SearchTraits st q acc.
(** symbol.go:132-216 workspaceSymbol *)
Definition workspaceSymbol (stores : list store) (query : gostr) : option (list symbol_information) :=
  match query with
  | [] => Some []
  | _ => option_map fst (fold_left (ws_store query) stores (Some ([], 0%Z)))
  end.
End Completion.
