(** What the editor should show. *)
From Coq Require Import String.
From Coq Require Import List Bool.
From Verif Require Import Base.Bytes Ide.PublishModel.
Import ListNotations.
Open Scope list_scope.

Section Spec.
Context {doc diag world : Type}.
(** what the editor shows for a file: what was published last for it *)
Definition shows (s : server doc diag) (u : gostr) (l : list diag) : Prop :=
  exists newer older, sv_sent s = newer ++ (u, l) :: older /\ forall l', ~ In (u, l') newer.
(** the text of [u] is [d] after the history, and what happened since it is *)
Definition text_is (h : list (event doc world)) (u : gostr) (d : doc) (since : list (event doc world)) : Prop :=
  exists earlier, h = earlier ++ Change u d :: since /\ forall d', ~ In (Change u d') since.
(** no file was opened or changed after [u] *)
Definition last_changed (h : list (event doc world)) (u : gostr) (d : doc) (since : list (event doc world)) : Prop :=
  exists earlier, h = earlier ++ Change u d :: since /\ forall u' d', ~ In (Change u' d') since.
(** nothing is under way *)
Definition at_rest (s : server doc diag) : Prop := sv_handler s = None /\ sv_jobs s = [].
Definition settled (s : server doc diag) : Prop := at_rest s /\ sv_pending s = None.
(** nobody types while the hints are searched *)
Fixpoint prompt (jobs : nat) (h : list (event doc world)) : Prop :=
  match h with
  | [] => True
  | Change _ _ :: h => jobs = 0 /\ prompt jobs h
  | Fire :: h => prompt (S jobs) h
  | Send _ :: h => prompt (pred jobs) h
  | _ :: h => prompt jobs h
  end.
(** a handler ends before the timer it has set runs out *)
Fixpoint timely (handling : bool) (h : list (event doc world)) : Prop :=
  match h with
  | [] => True
  | Change _ _ :: h => timely true h
  | Publish :: h => timely false h
  | Fire :: h => handling = false /\ timely handling h
  | _ :: h => timely handling h
  end.
(** the searches end in the order in which they began *)
Definition in_turn (h : list (event doc world)) : Prop := forall i, In (Send i) h -> i = 0.
End Spec.
