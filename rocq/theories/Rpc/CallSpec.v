(** What a caller sees of outgoing calls. *)
From Coq Require Import String.
From Coq Require Import List Bool ZArith.
From Verif Require Import Base.Bytes Rpc.ConnModel Rpc.CallModel.
Import ListNotations.
Open Scope list_scope.

Inductive call_execution : list call_event -> calls -> Prop :=
| ce_start : call_execution [] NewCalls
| ce_step : forall h s e s', call_execution h s -> call_step s e = Some s' -> call_execution (h ++ [e]) s'.

(** the response call [k] has got *)
Definition got (s : calls) (k : nat) : option nat :=
  match nth_error (cs_calls s) k with
  | Some (CLeaving r) | Some (CReturned r) => r
  | _ => None
  end.

(** the responses that were passed on, in order: those the reader read last
    before each hand-over *)
Fixpoint deliveries (last : option (ID * nat)) (h : list call_event) : list (ID * nat) :=
  match h with
  | [] => []
  | EResponse id p :: h => deliveries (Some (id, p)) h
  | EDeliver :: h => match last with Some x => x :: deliveries None h | None => deliveries None h end
  | _ :: h => deliveries last h
  end.

(** what can follow in a state *)
Fixpoint run (s : calls) (h : list call_event) : option calls :=
  match h with
  | [] => Some s
  | e :: h => match call_step s e with Some s => run s h | None => None end
  end.
(** the reader is stuck: it holds a response nobody can take, now or later,
    and reads no further message *)
Definition stuck (s : calls) : Prop :=
  cs_reader s <> Reading /\ forall h s', run s h = Some s' -> cs_reader s' = cs_reader s.

(** the peer answers only calls that were sent, each at most once, and the
    calls it answers are not cancelled *)
Definition well_behaved (h : list call_event) : Prop :=
  forall before id p after, h = before ++ EResponse id p :: after ->
    (forall p', ~ In (EResponse id p') before)
    /\ exists k, id = call_id k /\ In (EWrite k true) before /\ ~ In (ECancel k) h.
