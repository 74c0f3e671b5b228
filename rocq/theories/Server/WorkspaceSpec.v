(** What workspace folders mean. *)
From Coq Require Import List Bool Arith Lia.
From Coq.Strings Require Import Byte.
From Verif Require Import Base.Bytes Server.WorkspaceModel.
Import ListNotations.
Open Scope list_scope.

(** the file lies in the folder (folder URIs are written without a final
    slash) *)
Definition contains (folder file : gostr) : Prop :=
  exists rest, file = folder ++ x2f :: rest.

(** the folders that have been added and not removed since *)
Inductive is_open : list folder_event -> gostr -> Prop :=
| open_added : forall h u, is_open (h ++ [FolderAdded u true]) u
| open_stays_added : forall h u v b, is_open h u -> is_open (h ++ [FolderAdded v b]) u
| open_stays_removed : forall h u v, u <> v -> is_open h u -> is_open (h ++ [FolderRemoved v]) u.

(** the editor adds a folder only when it is not open, and removes only open
    ones *)
Inductive well_behaved : list folder_event -> Prop :=
| wb_nil : well_behaved []
| wb_add : forall h u b, well_behaved h -> ~ is_open h u -> well_behaved (h ++ [FolderAdded u b])
| wb_remove : forall h u, well_behaved h -> is_open h u -> well_behaved (h ++ [FolderRemoved u]).

Definition event_uri (e : folder_event) : gostr :=
  match e with FolderAdded u _ => u | FolderRemoved u => u end.

(** no folder name is the beginning of another one: no nested folders, and no
    folders like /app and /app2 *)
Definition separate (h : list folder_event) : Prop :=
  forall e e', In e h -> In e' h -> has_prefix (event_uri e) (event_uri e') = true -> event_uri e = event_uri e'.

(** a file whose URI starts with the name of a folder lies in that folder *)
Definition no_lookalike (h : list folder_event) (file : gostr) : Prop :=
  forall e, In e h -> has_prefix (event_uri e) file = true -> contains (event_uri e) file.
