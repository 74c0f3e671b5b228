(** What the index of a workspace should contain, stated over the history of
    what happened to the workspace and independent of how the store keeps it. *)
From Coq Require Import String.
From Coq Require Import List Bool NArith ZArith.
From Coq.Strings Require Import Byte.
From Verif Require Import Base.Bytes Base.Protocol Base.Decimal Codec.CodecSpec Codec.SymbolCodecSpec
  Symbols.Symbols Symbols.KeysModel Words.TokeniserSpec Storage.KvModel Store.FilterModel Store.StoreModel.
Import ListNotations.
Open Scope list_scope.

(** The only facts used about Go's unicode tables: lower-casing does not
    produce a NUL or a backslash out of nothing. *)
Definition text_ok (T : Text) : Prop :=
  forall c s, c = NUL \/ c = BSL -> ~ In c s -> ~ In c (to_lower s).

(** ** Histories *)
Inductive event :=
| EvSync (d : doc)            (* a document was (re)indexed *)
| EvDelete (uri : gostr)      (* a document was deleted *)
| EvClear                     (* the index was cleared *)
| EvVersion (v : gostr)       (* a version was recorded *)
| EvRestart                   (* the server was stopped and started again *)
| EvSynced (m : list (gostr * gostr)). (* bookkeeping of an indexing run *)

Section History.
Context {T : Text} {X : XorFilter}.

Definition step (st : store) (e : event) : option store :=
  match e with
  | EvSync d => SyncDocument st d
  | EvDelete u => DeleteDocument st u
  | EvClear => Some (Clear st)
  | EvVersion v => Some (PutVersion st v)
  | EvRestart => NewStore (s_uri st) (s_db st) (s_com st) (s_greb st)
  | EvSynced m => Some (with_synced st m)
  end.
Definition run_from (st : store) (h : list event) : option store :=
  fold_left (fun o e => match o with Some st => step st e | None => None end) h (Some st).
(** a new store for the folder [root], then the events, oldest first *)
Definition empty_store (root : gostr) : store := Store root (LevelDB []) (LevelDB []) [] [] [].
Definition run (root : gostr) (h : list event) : option store := run_from (empty_store root) h.
End History.

(** The version of document [u] the index should reflect. *)
Definition latest (h : list event) (u : gostr) : option doc :=
  fold_left (fun o e =>
    match e with
    | EvSync d => if str_eqb (d_uri d) u then Some d else o
    | EvDelete u' => if str_eqb u' u then None else o
    | EvClear => None
    | EvVersion _ | EvRestart | EvSynced _ => o
    end) h None.

(** ** Documents the analyser can produce *)
Definition symbol_uri (s : symbol) : gostr :=
  l_uri (match s with
         | SClass s => c_location s | SInterface s => i_location s | STrait s => t_location s
         | SFunction s => f_location s | SConst s => k_location s | SDefine s => d_location s
         | SMethod s => m_location s | SClassConst s => cc_location s
         | SProperty s => pr_location s | SGlobalVariable s => g_location s end).

(** Go machine ranges of the fields *)
Definition symbol_ok (s : symbol) : Prop :=
  match s with
  | SClass s => class_ok s | SInterface s => interface_ok s | STrait s => trait_ok s
  | SFunction s => function_ok s | SConst s => const_ok s | SDefine s => define_ok s
  | SMethod s => method_ok s | SClassConst s => class_const_ok s
  | SProperty s => property_ok s | SGlobalVariable s => global_variable_ok s
  end.

(** the identifying names of a symbol *)
Definition symbol_names (s : symbol) : list gostr :=
  match s with
  | SClass s => [ts_fqn (c_name s)]
  | SInterface s => [ts_fqn (i_name s)]
  | STrait s => [ts_fqn (t_name s)]
  | SFunction s => [ts_fqn (f_name s)]
  | SConst s => [ts_fqn (k_name s)]
  | SDefine s => [ts_fqn (d_name s)]
  | SMethod s => [ts_fqn (m_scope s); m_name s]
  | SClassConst s => [ts_fqn (cc_scope s); cc_name s]
  | SProperty s => [ts_fqn (pr_scope s); pr_name s]
  | SGlobalVariable s => [g_name s]
  end.

Definition nonneg_range (r : range) : Prop :=
  (0 <= p_line (r_start r) /\ 0 <= p_char (r_start r) /\ 0 <= p_line (r_end r) /\ 0 <= p_char (r_end r))%Z.

(** A symbol of the file [u]: located there, with names free of NUL bytes. *)
Definition symbol_of_file {T : Text} (u : gostr) (s : symbol) : Prop :=
  symbol_ok s /\ symbol_uri s = u /\ (forall n, In n (symbol_names s) -> ~ In NUL n)
  /\ (match s with SProperty p => nonneg_range (l_range (pr_location p)) | _ => True end)
  /\ go_len (GetKey s).

Definition info_ok (i : entry_info) : Prop :=
  go_len (ei_ref i) /\ pos_ok (r_start (ei_range i)) /\ pos_ok (r_end (ei_range i)).

Definition doc_ok {T : Text} (d : doc) : Prop :=
  ~ In NUL (d_uri d) /\ go_len (d_symbols d) /\ Forall (symbol_of_file (d_uri d)) (d_symbols d)
  /\ go_len (d_refs d) /\ Forall info_ok (d_refs d).

Definition event_ok {T : Text} (e : event) : Prop :=
  match e with
  | EvSync d => doc_ok d
  | EvDelete u => ~ In NUL u
  | _ => True
  end.

(** ** What counts as the same declaration within one file *)
(** class names are compared ignoring the case of the part after the last
    backslash *)
Definition same_class_name {T : Text} (x y : gostr) : Prop :=
  x = y \/ exists ns a b, ~ In BSL a /\ ~ In BSL b /\ to_lower a = to_lower b
             /\ x = ns ++ BSL :: a /\ y = ns ++ BSL :: b.

Definition same_entry {T : Text} (s s' : symbol) : Prop :=
  match s, s' with
  | SClass a, SClass b => same_class_name (ts_fqn (c_name a)) (ts_fqn (c_name b))
  | SInterface a, SInterface b => ts_fqn (i_name a) = ts_fqn (i_name b)
  | STrait a, STrait b => ts_fqn (t_name a) = ts_fqn (t_name b)
  | SFunction a, SFunction b => ts_fqn (f_name a) = ts_fqn (f_name b)
  | SConst a, SConst b => ts_fqn (k_name a) = ts_fqn (k_name b)
  | SDefine a, SDefine b => ts_fqn (d_name a) = ts_fqn (d_name b)
  | SMethod a, SMethod b =>
      ts_fqn (m_scope a) = ts_fqn (m_scope b) /\ to_lower (m_name a) = to_lower (m_name b)
  | SClassConst a, SClassConst b => ts_fqn (cc_scope a) = ts_fqn (cc_scope b) /\ cc_name a = cc_name b
  | SProperty a, SProperty b =>
      ts_fqn (pr_scope a) = ts_fqn (pr_scope b) /\ pr_name a = pr_name b
      /\ l_range (pr_location a) = l_range (pr_location b)
  | SGlobalVariable a, SGlobalVariable b => g_name a = g_name b
  | _, _ => False
  end.

(** only global variables of known type are indexed *)
Definition indexed_kind (s : symbol) : Prop :=
  match s with
  | SGlobalVariable g => exists t, In t (g_types g) /\ ts_fqn t <> [] /\ ts_fqn t <> [BSL]
  | _ => True
  end.

(** The declaration [s] of [d] that the index should show: no later
    declaration of the file takes its place. *)
Definition declares {T : Text} (d : doc) (s : symbol) : Prop :=
  indexed_kind s /\ exists before after,
    d_symbols d = before ++ s :: after
    /\ (forall s', In s' after -> indexed_kind s' -> ~ same_entry s s').

(** [s] is declared in some file of the workspace, as last indexed *)
Definition current {T : Text} (h : list event) (s : symbol) : Prop :=
  exists u d, latest h u = Some d /\ declares d s.

(** A result list is exact for the wanted symbols: nothing else, nothing
    missing, nothing twice. *)
Definition exactly {A} (same : A -> A -> Prop) (wanted : A -> Prop) (l : list A) : Prop :=
  NoDup l /\ (forall x, In x l -> exists s, wanted s /\ same s x)
  /\ (forall s, wanted s -> exists x, In x l /\ same s x).

Definition identical {A} (a b : A) : Prop := b = a.

(** files of the history whose URI could run into the position text of a
    property key *)
Definition ends_in_digit (u : gostr) : Prop := exists p b, u = p ++ [b] /\ is_digit_byte b = true.

Definition synced_docs (h : list event) : list doc :=
  flat_map (fun e => match e with EvSync d => [d] | _ => [] end) h.

(** ** Look-ups *)
Inductive query :=
| QClass (name : gostr) | QInterface (name : gostr) | QTrait (name : gostr)
| QFunction (name : gostr) | QConst (name : gostr) | QDefine (name : gostr)
| QGlobalVariable (name : gostr)
| QMethod (scope name : gostr) | QAllMethods (scope : gostr)
| QProperty (scope name : gostr) | QAllProperties (scope : gostr)
| QClassConst (scope name : gostr) | QAllClassConsts (scope : gostr).

Definition query_names (q : query) : list gostr :=
  match q with
  | QClass n | QInterface n | QTrait n | QFunction n | QConst n | QDefine n | QGlobalVariable n
  | QAllMethods n | QAllProperties n | QAllClassConsts n => [n]
  | QMethod s n | QProperty s n | QClassConst s n => [s; n]
  end.

(** the call each query stands for *)
Definition ask {T : Text} {X : XorFilter} (st : store) (q : query) : option (list symbol) :=
  match q with
  | QClass n => option_map (map SClass) (Query_GetClasses st n)
  | QInterface n => option_map (map SInterface) (GetInterfaces st n)
  | QTrait n => option_map (map STrait) (GetTraits st n)
  | QFunction n => option_map (map SFunction) (GetFunctions st n)
  | QConst n => option_map (map SConst) (GetConsts st n)
  | QDefine n => option_map (map SDefine) (GetDefines st n)
  | QGlobalVariable n => option_map (map SGlobalVariable) (GetGlobalVariables st n)
  | QMethod s n => option_map (map SMethod) (GetMethods st s n)
  | QAllMethods s => option_map (map SMethod) (GetAllMethods st s)
  | QProperty s n => option_map (map SProperty) (GetProperties st s n)
  | QAllProperties s => option_map (map SProperty) (GetAllProperties st s)
  | QClassConst s n => option_map (map SClassConst) (GetClassConsts st s n)
  | QAllClassConsts s => option_map (map SClassConst) (GetAllClassConsts st s)
  end.

(** the declarations a query asks for *)
Definition wanted {T : Text} (q : query) (s : symbol) : Prop :=
  match q, s with
  | QClass n, SClass s => same_class_name (ts_fqn (c_name s)) n
  | QInterface n, SInterface s => ts_fqn (i_name s) = n
  | QTrait n, STrait s => ts_fqn (t_name s) = n
  | QFunction n, SFunction s => ts_fqn (f_name s) = n
  | QConst n, SConst s => ts_fqn (k_name s) = n
  | QDefine n, SDefine s => ts_fqn (d_name s) = n
  | QGlobalVariable n, SGlobalVariable s => g_name s = n
  | QMethod c n, SMethod s => ts_fqn (m_scope s) = c /\ to_lower (m_name s) = to_lower n
  | QAllMethods c, SMethod s => ts_fqn (m_scope s) = c
  | QProperty c n, SProperty s => ts_fqn (pr_scope s) = c /\ pr_name s = n
  | QAllProperties c, SProperty s => ts_fqn (pr_scope s) = c
  | QClassConst c n, SClassConst s => ts_fqn (cc_scope s) = c /\ cc_name s = n
  | QAllClassConsts c, SClassConst s => ts_fqn (cc_scope s) = c
  | _, _ => False
  end.

(** [x] shows the declaration [s]: equal up to the fields the index does not
    keep (see C02, C03) *)
Definition shown (s x : symbol) : Prop :=
  match s, x with
  | SInterface a, SInterface b => interface_same a b
  | SFunction a, SFunction b => function_same a b
  | SMethod a, SMethod b => method_same a b
  | SClassConst a, SClassConst b => class_const_same_but_visibility a b
  | SProperty a, SProperty b => property_same a b
  | _, _ => x = s
  end.

(** ** The exceptions *)
(** no URI can run into the position text that follows it in a property key *)
Definition plain_uris (h : list event) : Prop :=
  forall d, In d (synced_docs h) -> d_uri d <> [] /\ ~ ends_in_digit (d_uri d).
(** no two files declare the same constant of the same class *)
Definition no_shared_constants (h : list event) : Prop :=
  forall d1 d2 c1 c2, In d1 (synced_docs h) -> In d2 (synced_docs h) ->
    In (SClassConst c1) (d_symbols d1) -> In (SClassConst c2) (d_symbols d2) ->
    ts_fqn (cc_scope c1) = ts_fqn (cc_scope c2) -> cc_name c1 = cc_name c2 -> d_uri d1 = d_uri d2.
(** no constant of the class is named like [name] with something appended *)
Definition no_longer_constant (h : list event) (scope name : gostr) : Prop :=
  forall d c t, In d (synced_docs h) -> In (SClassConst c) (d_symbols d) ->
    ts_fqn (cc_scope c) = scope -> cc_name c = name ++ t -> t = [].

Definition covered (h : list event) (q : query) : Prop :=
  match q with
  | QProperty _ _ | QAllProperties _ => plain_uris h
  | QClassConst c n => no_shared_constants h /\ no_longer_constant h c n
  | QAllClassConsts _ => no_shared_constants h
  | _ => True
  end.

(** ** References *)
(** What is assumed of the external xor filter: its fields have their Go
    types, and it has no false negatives. *)
Definition xor8_ok (x : xor8) : Prop := uint64 (x_seed x) /\ uint32 (x_blocklength x) /\ go_len (x_fingerprints x).
Definition xor_ok (X : XorFilter) : Prop :=
  forall hashes x, populate hashes = Some x ->
    xor8_ok x /\ forall k, In k hashes -> xor_contains x k = true.
(** ... and that building it from the hashes of distinct texts succeeds. *)
Definition populates (X : XorFilter) : Prop :=
  forall texts, texts <> [] -> NoDup texts -> populate (map sum64 texts) <> None.

(** a file below the workspace folder *)
Definition in_folder (root uri : gostr) : Prop :=
  exists c, uri = root ++ c /\ has_prefix root c = false.
Definition event_in (root : gostr) (e : event) : Prop :=
  match e with
  | EvSync d => haveReferences (d_uri d) = true -> in_folder root (d_uri d)
  | EvDelete u => haveReferences u = true -> in_folder root u
  | _ => True
  end.

(** a reference to [ref] at [loc] is recorded in the workspace *)
Definition referenced (h : list event) (ref : gostr) (loc : location) : Prop :=
  exists d i, latest h (l_uri loc) = Some d /\ haveReferences (l_uri loc) = true
    /\ In i (d_refs d) /\ ei_ref i = ref /\ ei_range i = l_range loc.

(** ** Totality *)
(** every name that completion indexes is valid UTF-8 *)
Definition encoded_doc {T : Text} (d : doc) : Prop :=
  (forall s coll name, In s (d_symbols d) -> indexable s = Some (coll, name) -> well_encoded name)
  /\ (forall ns part, In ns (d_namespaces d) -> In part (split_byte (trim_prefix ns [BSL]) BSL) -> well_encoded part).
Definition event_encoded {T : Text} (e : event) : Prop :=
  match e with EvSync d => encoded_doc d | _ => True end.

(** ** Indexing a folder *)
(** workspaceStore.go indexFolder: the files found, one after the other,
    between PrepareForIndexing and FinishIndexing *)
Definition index_files {T : Text} {X : XorFilter} (st : store) (files : list doc) : option store :=
  fold_left (fun o d => match o with Some st => CompareAndIndexDocument st d | None => None end) files (Some st).
Definition index_folder {T : Text} {X : XorFilter} (st : store) (files : list doc) : option store :=
  match PrepareForIndexing st with
  | Some st1 => match index_files st1 files with
                | Some st2 => FinishIndexing st2
                | None => None
                end
  | None => None
  end.

(** what the index should hold of [u] when the folder has the [files] *)
Definition after_indexing (h : list event) (files : list doc) (u : gostr) : option doc :=
  match find (fun d => str_eqb (d_uri d) u) files with
  | Some d => match latest h u with
              | Some d0 => if str_eqb (d_hash d) (d_hash d0) then Some d0 else Some d
              | None => Some d
              end
  | None => if has_prefix (B "file://") u then None else latest h u
  end.

(** the declarations shown when the index holds document [docs u] for [u] *)
Definition held {T : Text} (docs : gostr -> option doc) (s : symbol) : Prop :=
  exists u d, docs u = Some d /\ declares d s.

(** ** Kinds *)
Inductive kind := KClass | KInterface | KTrait | KFunction | KConst | KDefine | KMethod | KClassConst | KProperty | KGlobalVariable.
Definition kind_of (s : symbol) : kind :=
  match s with
  | SClass _ => KClass | SInterface _ => KInterface | STrait _ => KTrait | SFunction _ => KFunction
  | SConst _ => KConst | SDefine _ => KDefine | SMethod _ => KMethod | SClassConst _ => KClassConst
  | SProperty _ => KProperty | SGlobalVariable _ => KGlobalVariable
  end.
Definition query_kind (q : query) : kind :=
  match q with
  | QClass _ => KClass | QInterface _ => KInterface | QTrait _ => KTrait | QFunction _ => KFunction
  | QConst _ => KConst | QDefine _ => KDefine | QGlobalVariable _ => KGlobalVariable
  | QMethod _ _ | QAllMethods _ => KMethod | QProperty _ _ | QAllProperties _ => KProperty
  | QClassConst _ _ | QAllClassConsts _ => KClassConst
  end.
(** the same document without its symbols of other kinds than [k] *)
Definition kind_eqb (a b : kind) : bool :=
  match a, b with
  | KClass, KClass | KInterface, KInterface | KTrait, KTrait | KFunction, KFunction | KConst, KConst
  | KDefine, KDefine | KMethod, KMethod | KClassConst, KClassConst | KProperty, KProperty
  | KGlobalVariable, KGlobalVariable => true
  | _, _ => false
  end.
Definition only_kind (k : kind) (d : doc) : doc :=
  Doc (d_uri d) (d_hash d) (List.filter (fun s => kind_eqb (kind_of s) k) (d_symbols d)) (d_namespaces d) (d_refs d).
Definition only_kind_event (k : kind) (e : event) : event :=
  match e with EvSync d => EvSync (only_kind k d) | e => e end.

(** ** Filters *)
Inductive filter_op := FInsert (r : gostr) | FCommit | FReload.
(** saving a filter and loading it again; an uncommitted one cannot be saved *)
Definition reload {X : XorFilter} (f : filter) : filter :=
  if fl_committed f then match FilterDecode (Encode [] f) with Some (f', _) => f' | None => f end else f.
Definition filter_step {X : XorFilter} (f : filter) (o : filter_op) : filter :=
  match o with FInsert r => Insert f r | FCommit => Commit f | FReload => reload f end.
Definition filter_run {X : XorFilter} (ops : list filter_op) : filter := fold_left filter_step ops NewFilter.
