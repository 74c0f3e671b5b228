(** When diagnostics are sent to the editor: internal/lsp/diagnostics.go. *)
From Coq Require Import String.
From Coq Require Import List Bool.
From Verif Require Import Base.Bytes.
Import ListNotations.
Open Scope list_scope.

Section Server.
(** a version of a document (a change makes a new Document, document.go:545-555
    CloneForMutate, workspaceStore.go:250, so a version is never altered), a diagnostic,
    what the store holds *)
Context {doc diag world : Type}.
(** GetParserDiagnostics and UnusedDiagnostics (diagnostics.go:13-14) depend on the
    document only, DeprecatedDiagnostics (diagnostics.go:20) also on the store *)
Variables (immediate : doc -> list diag) (deprecated : world -> doc -> list diag).

(** a call of the function given to DebouncedDeprecation that has begun
    (diagnostics.go:15-26), with what DeprecatedDiagnostics has returned *)
Record job := Job { j_uri : gostr; j_doc : doc; j_hints : option (list diag) }.
(** [sv_handler]: the document that provideDiagnostics was called with, between the call of
    DebouncedDeprecation and that of PublishDiagnostics; [sv_pending]: the function the
    timer of the store will call; [sv_sent]: what was published, the last in front *)
Record server := Server {
  sv_handler : option (gostr * doc);
  sv_pending : option (gostr * doc);
  sv_jobs : list job;
  sv_sent : list (gostr * list diag) }.
Definition start : server := Server None None [] [].

Inductive event :=
| Change (u : gostr) (d : doc)   (* didOpen or didChange *)
| Publish                        (* the end of the handler *)
| Fire                           (* the timer runs out *)
| Compute (i : nat) (w : world)  (* a call of DeprecatedDiagnostics *)
| Send (i : nat).                (* the end of a call of the function *)
Definition remove_nth {A} (l : list A) (i : nat) : list A := firstn i l ++ skipn (S i) l.
Definition set_nth {A} (l : list A) (i : nat) (x : A) : list A := firstn i l ++ x :: skipn (S i) l.
(** The events that can happen. Notifications are handled one after the other
    (C45). store.go:239 debounce.New: a new function replaces the one that waits
    for the timer; one that has begun goes on. One store. *)
Definition step (s : server) (e : event) : option server :=
  match e with
  | Change u d =>
      match sv_handler s with
      | None => Some (Server (Some (u, d)) (Some (u, d)) (sv_jobs s) (sv_sent s))
      | Some _ => None
      end
  | Publish =>
      match sv_handler s with
      | Some (u, d) => Some (Server None (sv_pending s) (sv_jobs s) ((u, immediate d) :: sv_sent s))
      | None => None
      end
  | Fire =>
      match sv_pending s with
      | Some (u, d) => Some (Server (sv_handler s) None (sv_jobs s ++ [Job u d None]) (sv_sent s))
      | None => None
      end
  | Compute i w =>
      match nth_error (sv_jobs s) i with
      | Some (Job u d None) => Some (Server (sv_handler s) (sv_pending s) (set_nth (sv_jobs s) i (Job u d (Some (deprecated w d)))) (sv_sent s))
      | _ => None
      end
  | Send i =>
      match nth_error (sv_jobs s) i with
      | Some (Job u d (Some hints)) => Some (Server (sv_handler s) (sv_pending s) (remove_nth (sv_jobs s) i) ((u, immediate d ++ hints) :: sv_sent s))
      | _ => None
      end
  end.
Fixpoint run (s : server) (h : list event) : option server :=
  match h with
  | [] => Some s
  | e :: h => match step s e with Some s => run s h | None => None end
  end.
End Server.
Arguments server : clear implicits. Arguments event : clear implicits. Arguments job : clear implicits.
