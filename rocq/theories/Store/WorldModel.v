(** Several goroutines writing to one store, and kills of the server process.

    The creators (workspaceStore.go:44-75, 186-215), the editor notifications
    (workspaceStore.go:240-256) and the deletors (workspaceStore.go:77-91) call
    the store at the same time.  A synchronisation reads what it needs and then
    makes its writes one by one; the writes of different synchronisations
    interleave in any order.

    Simplifications: the reads of a synchronisation (its own document's symbol
    list and its own reference filter) happen together when it starts; a
    deletion, which makes a single write, happens in one step; what a write put
    into the databases survives the kill of the process (no power loss). *)
From Coq Require Import String.
From Coq Require Import List Bool NArith ZArith.
From Coq.Strings Require Import Byte.
From Verif Require Import Base.Bytes Base.Protocol Symbols.Symbols Symbols.KeysModel
  Storage.KvModel Store.FilterModel Store.StoreModel Store.StoreSpec.
Import ListNotations.
Open Scope list_scope.

Record world := World {
  w_store : store;
  w_running : list (doc * list eff);  (* synchronisations and their outstanding writes *)
  w_done : list event;                (* what was completed, in the order of completion *)
  w_seen : list doc;                  (* the documents whose synchronisation was started *)
  w_cut : list gostr }.               (* documents whose synchronisation a kill cut off since the last Clear *)

Definition running_uris (w : world) : list gostr := map (fun r => d_uri (fst r)) (w_running w).

(** an unfinished synchronisation stays in the list *)
Definition remaining (d : doc) (es : list eff) : list (doc * list eff) :=
  match es with [] => [] | _ => [(d, es)] end.
Definition completion (d : doc) (es : list eff) : list event :=
  match es with [] => [EvSync d] | _ => [] end.

Section World.
Context {T : Text} {X : XorFilter}.

(** [overlap]: whether a document may be synchronised while another
    synchronisation or a deletion of it is under way (the code prevents it
    only for callers that share the locked Document, store.go:332-382,396-425). *)
Inductive wstep (overlap : Prop) : world -> world -> Prop :=
(** store.go:429-449 SyncDocument starts *)
| WStart : forall w d es,
    doc_ok d -> overlap \/ ~ In (d_uri d) (running_uris w) ->
    sync_effects (w_store w) d = Some es ->
    wstep overlap w (World (w_store w) (w_running w ++ [(d, es)]) (w_done w) (w_seen w ++ [d]) (w_cut w))
(** one of the running synchronisations makes its next write *)
| WWrite : forall w r1 d e es r2,
    w_running w = r1 ++ (d, e :: es) :: r2 ->
    wstep overlap w (World (apply_eff (w_store w) e) (r1 ++ remaining d es ++ r2)
                           (w_done w ++ completion d es) (w_seen w) (w_cut w))
(** store.go:366-382 DeleteDocument *)
| WDelete : forall w u st',
    ~ In NUL u -> overlap \/ ~ In u (running_uris w) ->
    DeleteDocument (w_store w) u = Some st' ->
    wstep overlap w (World st' (w_running w) (w_done w ++ [EvDelete u]) (w_seen w) (w_cut w))
(** store.go:269-290 Clear, at start up *)
| WClear : forall w,
    w_running w = [] ->
    wstep overlap w (World (Clear (w_store w)) [] (w_done w ++ [EvClear]) (w_seen w) [])
| WVersion : forall w v,
    wstep overlap w (World (PutVersion (w_store w) v) (w_running w) (w_done w ++ [EvVersion v]) (w_seen w) (w_cut w))
(** store.go:393-425,462-487: the map of an indexing run *)
| WSynced : forall w m,
    wstep overlap w (World (with_synced (w_store w) m) (w_running w) (w_done w ++ [EvSynced m]) (w_seen w) (w_cut w))
(** the process is killed and started again: store.go:206-242 *)
| WKill : forall w st',
    NewStore (s_uri (w_store w)) (s_db (w_store w)) (s_com (w_store w)) (s_greb (w_store w)) = Some st' ->
    wstep overlap w (World st' [] (w_done w ++ [EvRestart]) (w_seen w) (w_cut w ++ running_uris w)).

Definition new_world (root : gostr) : world := World (empty_store root) [] [] [] [].

(** everything that can happen to a new store *)
Inductive reachable (overlap : Prop) (root : gostr) : world -> Prop :=
| reach_new : reachable overlap root (new_world root)
| reach_step : forall w w', reachable overlap root w -> wstep overlap w w' -> reachable overlap root w'.
End World.
