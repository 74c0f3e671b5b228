(** A careful session: what the user of an editor sees of the files and of the
    open documents while the editor follows the protocol, every document is
    opened as it is on the disk and closed saved, and the server is told about
    deletions only of what is gone. *)
From Coq Require Import String.
From Coq Require Import List Bool NArith ZArith.
From Coq.Strings Require Import Byte.
From Verif Require Import Base.Bytes Base.Protocol Symbols.Symbols Symbols.KeysModel
  Store.FilterModel Store.StoreModel Store.StoreSpec Text.TextModel Text.TextSpec Session.SessionModel.
Import ListNotations.
Open Scope list_scope.
Open Scope nat_scope.

(** What the user sees: the files, the text of the open documents, and of which
    files the server has been told the last change. *)
Record view := View {
  v_disk : gostr -> option gostr;
  v_editor : gostr -> option gostr;
  v_told : gostr -> Prop }.

Definition set {A} (f : gostr -> A) (u : gostr) (a : A) : gostr -> A :=
  fun u' => if str_eqb u u' then a else f u'.

(** nothing on the disk, nothing open *)
Definition start : view := View (fun _ => None) (fun _ => None) (fun _ => True).

(** The files a notification about [u] is about: the file itself, or the PHP
    files in the folder. *)
Definition concerns (v : view) (u w : gostr) : Prop :=
  v_disk v w <> None /\ is_php w = true /\ (w = u \/ (v_disk v u = None /\ has_prefix (u ++ B "/") w = true)).

Section Careful.
Context {T : Text}.
Variables (root : gostr) (analyse : gostr -> gostr -> list symbol * list gostr * list entry_info)
  (hash : gostr -> gostr) (decode : gostr -> option gostr).

(** the text is one the theorems about edits and about the index cover *)
Definition good (u t : gostr) : Prop := plain_text t /\ doc_ok (document analyse hash u t true) /\ encoded_doc (document analyse hash u t true).

Inductive goes : view -> happening -> view -> Prop :=
| goes_write : forall v u t, goes v (Writes u t) (View (set (v_disk v) u (Some t)) (v_editor v) (set (v_told v) u False))
| goes_remove : forall v u, goes v (Removes u) (View (set (v_disk v) u None) (v_editor v) (set (v_told v) u False))
| goes_open : forall v u t, has_prefix root u = true -> v_editor v u = None -> v_disk v u = Some t -> good u t ->
    goes v (Tells (DidOpen u t)) (View (v_disk v) (set (v_editor v) u (Some t)) (v_told v))
| goes_change : forall v u t cs t', v_editor v u = Some t -> edits t cs t' ->
    (forall c, In c cs -> plain_text (ch_text c)) -> good u t' ->
    goes v (Tells (DidChange u cs)) (View (v_disk v) (set (v_editor v) u (Some t')) (v_told v))
| goes_close : forall v u t, v_editor v u = Some t -> v_disk v u = Some t ->
    goes v (Tells (DidClose u)) (View (v_disk v) (set (v_editor v) u None) (set (v_told v) u True))
| goes_request : forall v u loads, v_editor v u <> None -> goes v (Tells (Request u loads)) v
| goes_changed : forall v u, has_prefix root u = true ->
    (forall w t, concerns v u w -> v_disk v w = Some t -> decode w = Some w /\ good w t) ->
    goes v (Tells (Changed u)) (View (v_disk v) (v_editor v) (fun w => concerns v u w \/ v_told v w))
| goes_deleted : forall v u, has_prefix root u = true -> decode u = Some u -> ~ In NUL u ->
    (forall w, has_prefix u w = true -> v_disk v w = None /\ v_editor v w = None) ->
    goes v (Tells (Deleted u)) (View (v_disk v) (v_editor v) (fun w => has_prefix u w = true \/ v_told v w)).

Inductive careful : view -> list happening -> view -> Prop :=
| careful_nil : forall v, careful v [] v
| careful_cons : forall v e v' es v'', goes v e v' -> careful v' es v'' -> careful v (e :: es) v''.
End Careful.
