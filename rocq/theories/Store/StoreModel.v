(** analysis/store.go, completionIndex.go, referenceIndex.go, namespace.go: the
    symbol index of one workspace folder.

    A document is what the analyser hands the store: its URI, the hash of its
    text, its persisted symbols in traversal order, the names of its import
    tables' namespaces, and the references collected in traversal order.
    Go panics are [None].  Database I/O errors are not modelled. *)
From Coq Require Import String.
From Coq Require Import List Bool NArith ZArith.
From Coq.Strings Require Import Byte.
From Verif Require Import Base.Bytes Base.Decimal Base.Protocol Codec.CodecModel Codec.SymbolCodecModel
  Symbols.Symbols Symbols.KeysModel Words.TokeniserModel Storage.KvModel Store.FilterModel.
Import ListNotations.
Open Scope list_scope.
Open Scope dec_scope.

(** store.go:25,36-39,52: the remaining collections *)
Definition documentSymbolsCollection := B "docSym".
Definition documentCollection := B "doc".
Definition documentNamespacesCollection := B "docNs".
Definition documentCompletionIndex := B "docCom".
Definition referenceIndexCollection := B "refInd".
Definition filterCollection := B "filter".          (* referenceIndex.go:15 *)
Definition versionKey := B "Version".               (* store.go:56 *)

(** referenceIndex.go:17-20 entryInfo *)
Record entry_info := EntryInfo { ei_ref : gostr; ei_range : range }.

Record doc := Doc {
  d_uri : gostr;
  d_hash : gostr;
  d_symbols : list symbol;
  d_namespaces : list gostr;
  d_refs : list entry_info }.

(** store.go:111-124 Store: the open documents map is modelled separately.
    [s_refs] is refIndex.entries, [s_synced] is syncedDocumentURIs. *)
Record store := Store {
  s_uri : gostr;
  s_db : leveldb;
  s_com : leveldb;
  s_greb : kv;
  s_refs : list (gostr * filter);
  s_synced : list (gostr * gostr) }.

(** ** Document symbol lists, store.go:81-141 *)
Record doc_symbol := DocSymbol { ds_collection : gostr; ds_key : gostr; ds_name : gostr }.

(** store.go:87-91 *)
Definition doc_symbol_serialise (e : enc) (s : doc_symbol) : enc :=
  let e := WriteString e (ds_collection s) in
  let e := WriteString e (ds_key s) in
  WriteString e (ds_name s).
(** store.go:93-99 *)
Definition readDocumentSymbol : dec doc_symbol :=
  c <- ReadString ;; k <- ReadString ;; n <- ReadString ;; ret (DocSymbol c k n).

(** store.go:126-141: a missing value reads as the empty list *)
Definition readDocumentSymbols (greb : kv) (key : gostr) : option (list doc_symbol) :=
  match kv_get greb key with
  | None | Some [] => Some []
  | Some b => match read_list readDocumentSymbol b with
              | Some (l, _) => Some l
              | None => None
              end
  end.

(** store.go:143-168 symbolDeletor; its [symbols] set is a list *)
Definition newSymbolDeletor (greb : kv) (uri : gostr) : option (list gostr) :=
  match readDocumentSymbols greb (newEntry documentSymbolsCollection uri) with
  | Some l => Some (map (fun s => ds_collection s ++ KeySep ++ ds_key s) l)
  | None => None
  end.
Definition set_remove (set : list gostr) (k : gostr) : list gostr :=
  List.filter (fun k' => negb (str_eqb k' k)) set.
Definition deletor_Delete (set : list gostr) : list bop := map BDel set.

(** ** Completion index, completionIndex.go *)
Section Store.
Context {T : Text} {X : XorFilter}.

Definition tokenise (name : gostr) : option (list gostr) := Tokenise is_upper is_digit name.

(** completionIndex.go:112-124 getCompletionKeys, getCompletionKey *)
Definition getCompletionKeys (name symbolKey : gostr) : option (list gostr) :=
  match tokenise name with
  | Some toks => Some (map (fun t => to_lower t ++ KeySep ++ symbolKey) toks)
  | None => None
  end.

(** completionIndex.go:45-68 createCompletionEntries: one entry per token and
    one listing those keys under the document's URI *)
Definition createCompletionEntries (uri collection name symbolKey : gostr) : option (list bop) :=
  match getCompletionKeys name symbolKey with
  | None => None
  | Some keys =>
      let ekeys := map (newEntry collection) keys in
      Some (map (fun k => BPut k (WriteString NewEncoder symbolKey)) ekeys
            ++ [BPut (newEntry documentCompletionIndex (uri ++ KeySep ++ symbolKey))
                     (write_list WriteBytes NewEncoder ekeys)])
  end.

(** completionIndex.go:75-91 newCompletionIndexDeletor: the index keys and the
    listing keys found under the URI *)
Definition newCompletionIndexDeletor (db : leveldb) (uri : gostr) : option (list gostr * list gostr) :=
  ldb_PrefixStream
    (fun acc k v =>
       match acc with
       | None => (None, true)
       | Some (ixs, ks) =>
           match read_list ReadBytes v with
           | Some (l, _) => (Some (ixs ++ l, ks ++ [k]), false)
           | None => (None, true)
           end
       end) db (newEntry documentCompletionIndex uri) (Some ([], [])).

(** namespace.go:43-65 indexablesFromNamespaceName: (scope, part) pairs *)
Fixpoint namespace_parts (scope : gostr) (parts : list gostr) : list (gostr * gostr) :=
  match parts with
  | [] => []
  | p :: ps =>
      (scope, p) :: namespace_parts ((match scope with [] => [] | _ => scope ++ [BSL] end) ++ p) ps
  end.
Definition indexablesFromNamespaceName (namespaceName : gostr) : list (gostr * gostr) * gostr :=
  let name := match namespaceName with
              | b :: n => if byte_eqb b BSL then n else namespaceName
              | [] => []
              end in
  ((match name with [] => [] | _ => namespace_parts [] (split_byte name BSL) end), BSL :: name).
(** namespace.go:71-78 *)
Definition namespace_IndexCollection (scope : gostr) : gostr :=
  match scope with
  | [] => namespaceCompletionIndex
  | _ => if str_eqb scope [BSL] then namespaceCompletionIndex
         else namespaceCompletionIndex ++ KeySep ++ (BSL :: scope)
  end.

(** sequencing of possible panics *)
Fixpoint concat_opt {A} (l : list (option (list A))) : option (list A) :=
  match l with
  | [] => Some []
  | None :: _ => None
  | Some x :: l' => match concat_opt l' with Some y => Some (x ++ y) | None => None end
  end.

Fixpoint number {A} (i : nat) (l : list A) : list (nat * A) :=
  match l with [] => [] | x :: l' => (i, x) :: number (S i) l' end.

(** store.go:501-508: completion writes for the namespaces *)
Definition namespace_com_ops (uri ns : gostr) : option (list bop) :=
  let '(is, nskey) := indexablesFromNamespaceName ns in
  concat_opt (map (fun e =>
      createCompletionEntries uri (namespace_IndexCollection (fst (snd e))) (snd (snd e))
        (nskey ++ KeySep ++ Itoa (Z.of_nat (fst e)))) (number 0 is)).

(** store.go:512-531, the part about one serialisable symbol; [key == ""]
    returns early *)
Definition has_key (s : symbol) : bool := negb (str_eqb (GetKey s) []).
Definition symbol_key (s : symbol) : gostr := newEntry (GetCollection s) (GetKey s).
Definition symbol_com_ops (uri : gostr) (s : symbol) : option (list bop) :=
  match indexable s with
  | Some (coll, name) => createCompletionEntries uri coll name (GetKey s)
  | None => Some []
  end.

(** ** Reference index, referenceIndex.go *)
(** referenceIndex.go:22-26 *)
Definition entryInfo_serialise (e : enc) (i : entry_info) : enc :=
  let e := WriteString e (ei_ref i) in
  let e := WritePosition e (r_start (ei_range i)) in
  WritePosition e (r_end (ei_range i)).
(** referenceIndex.go:28-36 *)
Definition entryInfoDecode : dec entry_info :=
  r <- ReadString ;; a <- ReadPosition ;; b <- ReadPosition ;; ret (EntryInfo r (Rng a b)).

(** util/uri.go CanonicaliseURI, URIFromCanonicalURI *)
Definition CanonicaliseURI (parent child : gostr) : gostr := trim_prefix child parent.
Definition URIFromCanonicalURI (parent canonical : gostr) : gostr :=
  if has_prefix parent canonical then canonical else parent ++ canonical.

(** referenceIndex.go:160-162 haveReferences *)
Definition haveReferences (uri : gostr) : bool := negb (has_prefix (B "phpstorm-stubs://") uri).

(** concurrent map operations *)
Fixpoint assoc_get {A} (m : list (gostr * A)) (k : gostr) : option A :=
  match m with
  | [] => None
  | (k', a) :: m' => if str_eqb k' k then Some a else assoc_get m' k
  end.
Fixpoint assoc_set {A} (m : list (gostr * A)) (k : gostr) (a : A) : list (gostr * A) :=
  match m with
  | [] => [(k, a)]
  | (k', a') :: m' => if str_eqb k' k then (k, a) :: m' else (k', a') :: assoc_set m' k a
  end.
Definition assoc_remove {A} (m : list (gostr * A)) (k : gostr) : list (gostr * A) :=
  List.filter (fun e => negb (str_eqb (fst e) k)) m.

(** the two keys of a document's references *)
Definition ref_key (canonical : gostr) : gostr := newEntry referenceIndexCollection canonical.
Definition ref_filter_key (canonical : gostr) : gostr :=
  newEntry referenceIndexCollection (filterCollection ++ KeySep ++ canonical).

(** referenceIndex.go:124-135 deleteURI: the batch operations *)
Definition ref_deleteURI (st : store) (uri : gostr) : list bop :=
  if haveReferences uri then
    let c := CanonicaliseURI (s_uri st) uri in
    match assoc_get (s_refs st) c with
    | Some _ => [BDel (ref_key c); BDel (ref_filter_key c)]
    | None => []
    end
  else [].

(** referenceIndex.go:88-122 index: the batch operations and the new in-memory
    entry *)
Definition ref_index (st : store) (uri : gostr) (infos : list entry_info)
  : list bop * list (gostr * filter) :=
  if haveReferences uri then
    let c := CanonicaliseURI (s_uri st) uri in
    let f0 := match assoc_get (s_refs st) c with Some f => f | None => NewFilter end in
    let f1 := Commit (fold_left Insert (map ei_ref infos) f0) in
    ([BPut (ref_key c) (write_list entryInfo_serialise NewEncoder infos);
      BPut (ref_filter_key c) (Encode NewEncoder f1)], [(c, f1)])
  else ([], []).

(** referenceIndex.go:48-63 referenceEntry.search *)
Definition ref_entry_search (st : store) (uri ref : gostr) : option (list range) :=
  match ldb_Get (s_db st) (ref_key (CanonicaliseURI (s_uri st) uri)) with
  | None | Some [] => Some []
  | Some data =>
      match read_list entryInfoDecode data with
      | Some (infos, _) => Some (map ei_range (List.filter (fun i => str_eqb (ei_ref i) ref) infos))
      | None => None
      end
  end.

(** referenceIndex.go:137-158 search, store.go:1123-1125 GetReferences *)
Definition GetReferences (st : store) (ref : gostr) : option (list location) :=
  concat_opt (map (fun e =>
      match Lookup (snd e) ref with
      | Some true =>
          let uri := URIFromCanonicalURI (s_uri st) (fst e) in
          match ref_entry_search st uri ref with
          | Some rs => Some (map (Loc uri) rs)
          | None => None
          end
      | _ => Some []
      end) (s_refs st)).

(** referenceIndex.go:70-86 newReferenceIndex: the filters found on disk *)
Definition newReferenceIndex (db : leveldb) : option (list (gostr * filter)) :=
  ldb_PrefixStream
    (fun acc k v =>
       match acc with
       | None => (None, true)
       | Some m =>
           match nth_error (split_byte k NUL) 2, FilterDecode v with
           | Some c, Some (f, _) => (Some (assoc_set m c f), false)
           | _, _ => (None, true)
           end
       end) db (newEntry referenceIndexCollection (filterCollection ++ KeySep)) (Some []).

(** ** Writing, store.go *)
(** The effects of a sync in the order in which they reach each component. *)
Inductive eff :=
| EffGreb (k v : gostr)                 (* greb.Put *)
| EffRef (c : gostr) (f : filter)       (* refIndex.entries.Upsert *)
| EffCom (ops : list bop)               (* commit of the comDB batch *)
| EffDb (ops : list bop).               (* commit of the db batch *)

Definition apply_eff (st : store) (e : eff) : store :=
  match e with
  | EffGreb k v => Store (s_uri st) (s_db st) (s_com st) (kv_put (s_greb st) k v) (s_refs st) (s_synced st)
  | EffRef c f => Store (s_uri st) (s_db st) (s_com st) (s_greb st) (assoc_set (s_refs st) c f) (s_synced st)
  | EffCom ops => Store (s_uri st) (s_db st) (ldb_WriteBatch (s_com st) (map OnBatch ops) true)
                        (s_greb st) (s_refs st) (s_synced st)
  | EffDb ops => Store (s_uri st) (ldb_WriteBatch (s_db st) (map OnBatch ops) true) (s_com st)
                       (s_greb st) (s_refs st) (s_synced st)
  end.

(** store.go:429-449 SyncDocument, 498-577 writeAllSymbols and the index
    helpers.  The documentNamespaces slice stays empty in the code, so the
    list stored for it is the empty list.  newCompletionIndexDeletor and
    MarkNotDelete only build a value that is never used: left out. *)
Definition sync_effects (st : store) (d : doc) : option (list eff) :=
  let uri := d_uri d in
  let syms := List.filter has_key (d_symbols d) in
  match newSymbolDeletor (s_greb st) uri,
        concat_opt (map (namespace_com_ops uri) (d_namespaces d)),
        concat_opt (map (symbol_com_ops uri) syms) with
  | Some old, Some nscom, Some symcom =>
      let dels := fold_left set_remove (map symbol_key syms) old in
      let puts := map (fun s => BPut (symbol_key s) (Serialise s)) syms in
      let list := map (fun s => DocSymbol (GetCollection s) (GetKey s) []) syms in
      let '(refops, refset) := ref_index st uri (d_refs d) in
      Some ([EffGreb (newEntry documentSymbolsCollection uri)
                     (write_list doc_symbol_serialise NewEncoder list);
             EffGreb (newEntry documentNamespacesCollection uri)
                     (write_list WriteString NewEncoder [])]
            ++ map (fun e => EffRef (fst e) (snd e)) refset
            ++ [EffCom (nscom ++ symcom);
                EffDb (ref_deleteURI st uri ++ puts ++ refops ++ deletor_Delete dels
                       ++ [BPut (newEntry documentCollection uri) (d_hash d)])])
  | _, _, _ => None
  end.
Definition SyncDocument (st : store) (d : doc) : option store :=
  match sync_effects st d with
  | Some es => Some (fold_left apply_eff es st)
  | None => None
  end.

(** store.go:366-382 DeleteDocument *)
Definition DeleteDocument (st : store) (uri : gostr) : option store :=
  match newCompletionIndexDeletor (s_db st) uri, newSymbolDeletor (s_greb st) uri with
  | Some (ixs, ks), Some syms =>
      Some (apply_eff st (EffDb (map BDel ixs ++ map BDel ks ++ deletor_Delete syms
              ++ ref_deleteURI st uri ++ [BDel (newEntry documentCollection uri)])))
  | _, _ => None
  end.

Definition delete_all (st : store) (uris : list gostr) : option store :=
  fold_left (fun o u => match o with Some st => DeleteDocument st u | None => None end) uris (Some st).

(** second component of a "doc\0uri" key: strings.Split(key, KeySep)[1] *)
Definition uri_of_key (k : gostr) : option gostr := nth_error (split_byte k NUL) 1.

(** entries of a prefix scan that is not stopped; the iterator reads a
    snapshot, so changes made by the callback do not affect it *)
Definition scan (db : leveldb) (prefix : gostr) : list (gostr * gostr) :=
  ldb_PrefixStream (fun acc k v => (acc ++ [(k, v)], false)) db prefix [].

Fixpoint map_opt {A C} (f : A -> option C) (l : list A) : option (list C) :=
  match l with
  | [] => Some []
  | a :: l' => match f a, map_opt f l' with
               | Some c, Some cs => Some (c :: cs)
               | _, _ => None
               end
  end.

(** store.go:384-391 DeleteFolder *)
Definition DeleteFolder (st : store) (uri : gostr) : option store :=
  match map_opt (fun e => uri_of_key (fst e)) (scan (s_db st) (newEntry documentCollection uri)) with
  | Some uris => delete_all st uris
  | None => None
  end.

Definition with_synced (st : store) (m : list (gostr * gostr)) : store :=
  Store (s_uri st) (s_db st) (s_com st) (s_greb st) (s_refs st) m.

(** store.go:489-496 getSyncedDocumentURIs, 462-471 PrepareForIndexing *)
Definition PrepareForIndexing (st : store) : option store :=
  match map_opt (fun e => match uri_of_key (fst e) with Some u => Some (u, snd e) | None => None end)
          (scan (s_db st) (newEntry documentCollection (B "file://"))) with
  | Some l => Some (with_synced st (fold_left (fun m e => assoc_set m (fst e) (snd e)) l (s_synced st)))
  | None => None
  end.

(** store.go:473-487 FinishIndexing: the outer batch stays empty *)
Definition FinishIndexing (st : store) : option store :=
  match delete_all st (map fst (s_synced st)) with
  | Some st' => Some (with_synced st' [])
  | None => None
  end.

(** store.go:393-425 CompareAndIndexDocument, given the document as the file
    (or the open buffer) has it now *)
Definition CompareAndIndexDocument (st : store) (d : doc) : option store :=
  let '(saved, st1) :=
    match assoc_get (s_synced st) (d_uri d) with
    | Some h => (Some h, with_synced st (assoc_remove (s_synced st) (d_uri d)))
    | None => (ldb_Get (s_db st) (newEntry documentCollection (d_uri d)), st)
    end in
  match saved with
  | Some h => if str_eqb (d_hash d) h then Some st1 else SyncDocument st1 d
  | None => SyncDocument st1 d
  end.

(** store.go:254-272 GetStoreVersion, PutVersion, Clear *)
Definition with_db (st : store) (db : leveldb) : store :=
  Store (s_uri st) db (s_com st) (s_greb st) (s_refs st) (s_synced st).
Definition GetStoreVersion (st : store) : gostr :=
  match ldb_Get (s_db st) versionKey with Some v => v | None => B "v0.0.0" end.
Definition PutVersion (st : store) (v : gostr) : store := with_db st (ldb_Put (s_db st) versionKey v).
Definition Clear (st : store) : store := with_db st (ldb_Clear (s_db st)).

(** store.go:274-290 Migrate.  [parse] is semver.NewVersion (external), [None]
    its error: major, minor, patch and whether there is a pre-release suffix.
    LessThan (external) is only needed against the release v0.0.13. *)
Definition version := (N * N * N * bool)%type.
Definition before_release (a : version) (b : N * N * N) : bool :=
  let '(a1, a2, a3, pre) := a in let '(b1, b2, b3) := b in
  (N.ltb a1 b1 || (N.eqb a1 b1 && (N.ltb a2 b2 || (N.eqb a2 b2 && (N.ltb a3 b3 || (N.eqb a3 b3 && pre))))))%bool.
Definition Migrate (parse : gostr -> option version) (st : store) (newVersion : gostr) : store :=
  match parse (GetStoreVersion st) with
  | None => st
  | Some sv => if before_release sv (0, 0, 13)%N then PutVersion (Clear st) newVersion else st
  end.

(** store.go:206-242 NewStore on existing databases (a restart) *)
Definition NewStore (uri : gostr) (db com : leveldb) (greb : kv) : option store :=
  match newReferenceIndex db with
  | Some refs => Some (Store uri db com greb refs [])
  | None => None
  end.

(** ** Reading *)
(** The body shared by the Get* functions: decode every value under a prefix *)
Definition get_all {A} (read : dec A) (db : leveldb) (prefix : gostr) : option (list A) :=
  ldb_PrefixStream
    (fun acc k v => match acc with
                    | None => (None, true)
                    | Some l => match read v with
                                | Some (a, _) => (Some (l ++ [a]), false)
                                | None => (None, true)
                                end
                    end) db prefix (Some []).

(** store.go:651-660 *)
Definition GetClasses (st : store) (name : gostr) :=
  get_all ReadClass (s_db st) (newEntry classCollection (name ++ KeySep)).
(** store.go:730-739 *)
Definition GetInterfaces (st : store) (name : gostr) :=
  get_all ReadInterface (s_db st) (newEntry interfaceCollection (name ++ KeySep)).
(** store.go:771-780 *)
Definition GetTraits (st : store) (name : gostr) :=
  get_all ReadTrait (s_db st) (newEntry traitCollection (name ++ KeySep)).
(** store.go:812-821 *)
Definition GetFunctions (st : store) (name : gostr) :=
  get_all ReadFunction (s_db st) (newEntry functionCollection (name ++ KeySep)).
(** store.go:857-866 *)
Definition GetConsts (st : store) (name : gostr) :=
  get_all ReadConst (s_db st) (newEntry constCollection (name ++ KeySep)).
(** store.go:895-904 *)
Definition GetDefines (st : store) (name : gostr) :=
  get_all ReadDefine (s_db st) (newEntry defineCollection (name ++ KeySep)).
(** store.go:933-942 *)
Definition GetMethods (st : store) (scope name : gostr) :=
  get_all ReadMethod (s_db st) (newEntry methodCollection (scope ++ KeySep ++ to_lower name ++ KeySep)).
(** store.go:944-955 *)
Definition GetAllMethods (st : store) (scope : gostr) :=
  get_all ReadMethod (s_db st) (newEntry methodCollection (scope ++ KeySep)).
(** store.go:996-1007: no separator after the name *)
Definition GetClassConsts (st : store) (scope name : gostr) :=
  get_all ReadClassConst (s_db st) (newEntry classConstCollection (scope ++ KeySep ++ name)).
(** store.go:1009-1019 *)
Definition GetAllClassConsts (st : store) (scope : gostr) :=
  get_all ReadClassConst (s_db st) (newEntry classConstCollection (scope ++ KeySep)).
(** store.go:1056-1065 *)
Definition GetProperties (st : store) (scope name : gostr) :=
  get_all ReadProperty (s_db st) (newEntry propertyCollection (scope ++ KeySep ++ name ++ KeySep)).
(** store.go:1067-1076 *)
Definition GetAllProperties (st : store) (scope : gostr) :=
  get_all ReadProperty (s_db st) (newEntry propertyCollection (scope ++ KeySep)).
(** store.go:1111-1120 *)
Definition GetGlobalVariables (st : store) (name : gostr) :=
  get_all ReadGlobalVariable (s_db st) (newEntry globalVariableCollection (name ++ KeySep)).

(** query.go:30-42 Query.GetClasses (its per-request cache is not modelled) *)
Definition Query_GetClasses (st : store) (name : gostr) := GetClasses st (GetClassFQNLowerCase name).

End Store.
