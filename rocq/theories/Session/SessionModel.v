(** analysis/store.go:312-364,393-425,453-462, internal/lsp/sync.go,
    internal/lsp/workspaceStore.go:51-91,217-256: the documents the server keeps
    in memory between the messages of the editor, and what each message does to
    them and to the index.

    Messages are handled one after another, and so are the jobs a message about
    watched files makes.  Go panics are [None].  The diagnostics published are
    modelled elsewhere (Server/PublishModel). *)
From Coq Require Import String.
From Coq Require Import List Bool NArith ZArith.
From Coq.Strings Require Import Byte.
From Verif Require Import Base.Bytes Base.Protocol Symbols.Symbols Symbols.KeysModel
  Store.FilterModel Store.StoreModel Text.TextModel.
Import ListNotations.
Open Scope list_scope.
Open Scope nat_scope.

(** document.go:22-50 Document: its text, [isOpen], and whether Load has been
    called since the text was set (!hasChanges; NewDocument does not load) *)
Record mem_doc := Mem { md_text : text_doc; md_open : bool; md_loaded : bool }.

(** store.go:111-124 Store with its [documents] *)
Record session := Session { se_store : store; se_docs : list (gostr * mem_doc) }.

(** protocol/fs.go:75-84: the files as ReadFile finds them by URI.
    Simplification: a file has one URI. *)
Definition files := list (gostr * gostr).

(** The messages concerned, with their [uri].  DidOpen carries the text the
    editor shows.  Changed stands for the watched-file changes Created and
    Changed.  Request is any request about a document; it loads the document
    (symbol.go:38, signature.go:67, hover.go:23, definition.go:22) or does not
    (completion.go:68, signature.go:28, reference.go:34,95). *)
Inductive message :=
| DidOpen (uri text : gostr)
| DidChange (uri : gostr) (cs : list change)
| DidClose (uri : gostr)
| Changed (uri : gostr)
| Deleted (uri : gostr)
| Request (uri : gostr) (loads : bool).

Section Session.
Context {TX : Text} {X : XorFilter}.
(** what the analyser hands the index for a text, and the SHA-1 hash of a text
    (document.go:647-650 GetHash): the analyser is modelled elsewhere, any will do here *)
Variable analyse : gostr -> gostr -> list symbol * list gostr * list entry_info.
Variable hash : gostr -> gostr.
(** util/uri.go:112-123 DecodeURIFromQuery, [None] its error *)
Variable decode : gostr -> option gostr.

(** the document as the index reads it: nothing has been collected of a
    document that is not loaded (document.go:54-66 NewDocument, 112-115 SetText) *)
Definition document (uri text : gostr) (loaded : bool) : doc :=
  if loaded then let '(syms, nss, refs) := analyse uri text in Doc uri (hash text) syms nss refs
  else Doc uri (hash text) [] [] [].
Definition doc_of (uri : gostr) (m : mem_doc) : doc := document uri (td_text (md_text m)) (md_loaded m).

(** store.go:459-462 SaveDocOnStore *)
Definition SaveDocOnStore (se : session) (uri : gostr) (m : mem_doc) : session :=
  Session (se_store se) (assoc_set (se_docs se) uri m).
(** store.go:453-457 releaseDocIfNotOpen *)
Definition releaseDocIfNotOpen (se : session) (uri : gostr) (m : mem_doc) : session :=
  if md_open m then se else Session (se_store se) (assoc_remove (se_docs se) uri).
(** SyncDocument (StoreModel) of a document in memory *)
Definition sync (se : session) (uri : gostr) (m : mem_doc) : option session :=
  option_map (fun st => Session st (se_docs se)) (SyncDocument (se_store se) (doc_of uri m)).

(** store.go:312-328 GetOrCreateDocument; [None] is nil *)
Definition GetOrCreateDocument (fs : files) (se : session) (uri : gostr) : option mem_doc * session :=
  match assoc_get (se_docs se) uri with
  | Some m => (Some m, se)
  | None => match assoc_get fs uri with
            | None => (None, se)
            | Some text => let m := Mem (SetText text) false false in (Some m, SaveDocOnStore se uri m)
            end
  end.

(** store.go:330-347 OpenDocument: the document in memory is the one changed *)
Definition OpenDocument (fs : files) (se : session) (uri : gostr) : option session :=
  match GetOrCreateDocument fs se uri with
  | (None, se) => Some se
  | (Some m, se) =>
      let m := Mem (md_text m) true true in
      match sync (SaveDocOnStore se uri m) uri m with
      | None => None
      | Some se => Some (releaseDocIfNotOpen se uri m)
      end
  end.

(** store.go:349-364 CloseDocument *)
Definition CloseDocument (fs : files) (se : session) (uri : gostr) : option session :=
  match GetOrCreateDocument fs se uri with
  | (None, se) => Some se
  | (Some m, se) =>
      let m := Mem (md_text m) false (md_loaded m) in
      match sync (SaveDocOnStore se uri m) uri m with
      | None => None
      | Some se => Some (releaseDocIfNotOpen se uri m)
      end
  end.

(** store.go:393-425 CompareAndIndexDocument: the comparison is StoreModel's,
    which takes the document as loaded since only then is it synced.  (Load
    leaves an open document as it is, and another one is released.) *)
Definition CompareAndIndex (fs : files) (se : session) (uri : gostr) : option session :=
  match GetOrCreateDocument fs se uri with
  | (None, se) => Some se
  | (Some m, se) =>
      match CompareAndIndexDocument (se_store se) (document uri (td_text (md_text m)) true) with
      | None => None
      | Some st => Some (releaseDocIfNotOpen (Session st (se_docs se)) uri m)
      end
  end.

(** workspaceStore.go:240-256 changeDocument after getStore;
    document.go:545-556 CloneForMutate keeps [isOpen] *)
Definition changeDocument (fs : files) (se : session) (uri : gostr) (cs : list change) : option session :=
  match GetOrCreateDocument fs se uri with
  | (None, se) => Some se
  | (Some m, se) =>
      match ApplyChanges (md_text m) cs with
      | None => None
      | Some td =>
          let m := Mem td (md_open m) true in
          option_map (fun se => SaveDocOnStore se uri m) (sync se uri m)
      end
  end.

(** workspaceStore.go:235-238 removeDocument *)
Definition removeDocument (se : session) (uri : gostr) : option session :=
  match DeleteDocument (se_store se) uri with
  | None => None
  | Some st => option_map (fun st => Session st (se_docs se)) (DeleteFolder st uri)
  end.

(** workspaceStore.go:217-224 getStore, with one folder open *)
Definition in_store (se : session) (uri : gostr) : bool := has_prefix (s_uri (se_store se)) uri.

(** workspaceStore.go:51-75 one job of a creator *)
Definition creator (fs : files) (se : session) (uri : gostr) : option session :=
  match decode uri with
  | None => Some se
  | Some uri => if in_store se uri then CompareAndIndex fs se uri else Some se
  end.
(** workspaceStore.go:77-91 one job of a deletor *)
Definition deletor (se : session) (uri : gostr) : option session :=
  match decode uri with
  | None => Some se
  | Some uri => if in_store se uri then removeDocument se uri else Some se
  end.

(** strings.HasSuffix(path, ".php") *)
Definition is_php (uri : gostr) : bool := has_prefix (rev (B ".php")) (rev uri).

(** sync.go:53-92: the jobs for a created or changed path, which is a file, a
    folder that is walked, or gone *)
Definition creator_jobs (fs : files) (uri : gostr) : list gostr :=
  match assoc_get fs uri with
  | Some _ => if is_php uri then [uri] else []
  | None => List.filter (fun w => has_prefix (uri ++ B "/") w && is_php w) (map fst fs)
  end.
Definition creators (fs : files) (se : session) (jobs : list gostr) : option session :=
  fold_left (fun o w => match o with Some se => creator fs se w | None => None end) jobs (Some se).

(** sync.go:16-94 and the start of every request handler (e.g. hover.go:13-22) *)
Definition handle (fs : files) (se : session) (m : message) : option session :=
  match m with
  | DidOpen uri _ => if in_store se uri then OpenDocument fs se uri else Some se
  | DidChange uri cs => if in_store se uri then changeDocument fs se uri cs else Some se
  | DidClose uri => if in_store se uri then CloseDocument fs se uri else Some se
  | Changed uri => creators fs se (creator_jobs fs uri)
  | Deleted uri => deletor se uri
  | Request uri loads =>
      Some (if in_store se uri
            then match GetOrCreateDocument fs se uri with
                 | (None, se) => se
                 | (Some m, se) => SaveDocOnStore se uri (Mem (md_text m) (md_open m) (md_loaded m || loads))
                 end
            else se)
  end.

(** ** The server among editor and disk (not code of the server) *)
Inductive happening := Writes (uri text : gostr) | Removes (uri : gostr) | Tells (m : message).
Record world := World { w_files : files; w_session : session }.
Definition happens (w : world) (e : happening) : option world :=
  match e with
  | Writes uri text => Some (World (assoc_set (w_files w) uri text) (w_session w))
  | Removes uri => Some (World (assoc_remove (w_files w) uri) (w_session w))
  | Tells m => option_map (World (w_files w)) (handle (w_files w) (w_session w) m)
  end.
Definition happen (w : world) (es : list happening) : option world :=
  fold_left (fun o e => match o with Some w => happens w e | None => None end) es (Some w).
End Session.
