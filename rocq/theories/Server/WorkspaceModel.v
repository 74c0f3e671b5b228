(** The list of workspace folders and the life cycle of the server. *)
From Coq Require Import String.
From Coq Require Import List Bool Arith Lia.
From Coq.Strings Require Import Byte.
From Verif Require Import Base.Bytes.
Import ListNotations.
Open Scope list_scope.

(** internal/lsp/workspaceStore.go:26-32: the field [stores], each store
    represented by the URI it was created for (analysis.Store.GetURI) *)
Definition views := list gostr.

(** workspaceStore.go:217-224 *)
Fixpoint getStore (stores : views) (uri : gostr) : option gostr :=
  match stores with
  | [] => None
  | store :: stores' => if has_prefix store uri then Some store else getStore stores' uri
  end.

(** workspaceStore.go:226-233 *)
Fixpoint removeStore (stores : views) (uri : gostr) : views :=
  match stores with
  | [] => []
  | store :: stores' => if str_eqb store uri then stores' else store :: removeStore stores' uri
  end.

(** workspaceStore.go:99-143.  [opened] stands for the success of url.Parse,
    URIToPath and NewStore; migration, stubs, indexing and the file watcher
    are modelled elsewhere or not at all. *)
Definition addView (stores : views) (uri : gostr) (opened : bool) : views :=
  if opened then stores ++ [uri] else stores.

(** workspaceStore.go:145-153 *)
Definition removeView (stores : views) (uri : gostr) : views :=
  match getStore stores uri with
  | None => stores
  | Some store => removeStore stores store
  end.

(** server.go:103-111: a folder change; general.go:100-102 adds the initial
    folders in the same way *)
Inductive folder_event :=
| FolderAdded (uri : gostr) (opened : bool)
| FolderRemoved (uri : gostr).
Definition folder_step (stores : views) (e : folder_event) : views :=
  match e with
  | FolderAdded uri opened => addView stores uri opened
  | FolderRemoved uri => removeView stores uri
  end.
Definition folder_run (h : list folder_event) : views := fold_left folder_step h [].

(** ** Life cycle: internal/lsp/general.go *)
(** server.go:57-61 *)
Inductive server_state := serverCreated | serverInitializing | serverInitialized.
(** the order used by [>=] and [<] *)
Definition state_no (s : server_state) : nat :=
  match s with serverCreated => 0 | serverInitializing => 1 | serverInitialized => 2 end.

(** The fields [state] and [stateMu] of Server (server.go:68-69); [locked] is
    true while some goroutine holds the mutex *)
Record server := Server { sv_state : server_state; sv_locked : bool }.

Inductive lifecycle_request := Initialize (has_folders : bool) | Initialized | Shutdown.
Inductive answer := Ok | Error (message : gostr).

(** A handler run on its own (requests of the life cycle run one at a time,
    see the connection model).  [None]: the handler waits for the mutex, which
    nobody will release. *)
Definition handle (sv : server) (r : lifecycle_request) : option (server * answer) :=
  if sv_locked sv then None
  else
    match r with
    | Initialize has_folders =>                                  (* general.go:27-92 *)
        (* stateMu.Lock() *)
        if (1 <=? state_no (sv_state sv))%nat
        then Some (Server (sv_state sv) true, Error (B "already initialised"))   (* returns without Unlock: 30-32 *)
        else
          let sv' := Server serverInitializing false in           (* 33-35 *)
          if has_folders then Some (sv', Ok)
          else Some (sv', Error (B "single file is not supported"))              (* 45 *)
    | Initialized => Some (Server serverInitialized false, Ok)   (* general.go:94-104 *)
    | Shutdown =>                                                 (* general.go:106-126 *)
        if (state_no (sv_state sv) <? 2)%nat
        then Some (sv, Error (B "not intialised"))
        else Some (sv, Ok)
    end.

Definition new_server : server := Server serverCreated false.
Fixpoint serve (sv : server) (rs : list lifecycle_request) : option (server * list answer) :=
  match rs with
  | [] => Some (sv, [])
  | r :: rs' =>
      match handle sv r with
      | None => None
      | Some (sv', a) =>
          match serve sv' rs' with
          | None => None
          | Some (sv'', l) => Some (sv'', a :: l)
          end
      end
  end.
