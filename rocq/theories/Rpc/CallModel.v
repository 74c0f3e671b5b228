(** Outgoing calls: Conn.Call (internal/jsonrpc2/jsonrpc2.go:130-201) against
    the reader of Conn.Run (jsonrpc2.go:381-397). A step is one action of one
    goroutine between two points where others can interfere.

    Simplified: params and the request marshal; the observers of messages are
    left out; what a response says is a number (result and error are passed on
    alike); Call's results are the response or none. *)
From Coq Require Import String.
From Coq Require Import List Bool ZArith.
From Verif Require Import Base.Bytes Rpc.ConnModel.
Import ListNotations.
Open Scope list_scope.

(** int64 arithmetic wraps around *)
Definition wrap64 (z : Z) : Z := ((z + 2 ^ 63) mod 2 ^ 64 - 2 ^ 63)%Z.
(** jsonrpc2.go:132: the identifier of the call number [k] (from 0);
    the sequence number starts at 0 and is incremented atomically *)
Definition call_id (k : nat) : ID := MkID [] (wrap64 (Z.of_nat k + 1)).

(** where a call is *)
Inductive phase :=
| CNew                        (* has its id *)
| CPending                    (* is in the pending map, jsonrpc2.go:154-156 *)
| CWaiting                    (* has written, waits in select, jsonrpc2.go:175 *)
| CLeaving (got : option nat) (* before the deferred function, with the response or none *)
| CReturned (got : option nat).
(** the reader: reads, or sends a response on a channel; [None] is the nil
    channel of a missing map entry *)
Inductive reader := Reading | Sending (channel : option nat) (id : ID) (payload : nat).

Record calls := Calls {
  cs_calls : list phase;
  cs_pending : list (ID * nat);     (* map from the id to the channel, that of the call *)
  cs_reader : reader }.
Definition NewCalls : calls := Calls [] [] Reading.

Definition id_eqb (a b : ID) : bool := str_eqb (id_name a) (id_name b) && Z.eqb (id_number a) (id_number b).
Definition pending_get (m : list (ID * nat)) (id : ID) : option nat :=
  option_map snd (find (fun e => id_eqb (fst e) id) m).
Definition pending_delete (m : list (ID * nat)) (id : ID) : list (ID * nat) :=
  List.filter (fun e => negb (id_eqb (fst e) id)) m.
Definition pending_set (m : list (ID * nat)) (id : ID) (k : nat) : list (ID * nat) := (id, k) :: pending_delete m id.

Inductive call_event :=
| ECall                              (* a new call takes its id, jsonrpc2.go:132 *)
| ERegister (k : nat)                (* 152-156 *)
| EWrite (k : nat) (ok : bool)       (* 166-173 *)
| ECancel (k : nat)                  (* its context is done, 190-198 *)
| EReturn (k : nat)                  (* the deferred function, 157-164 *)
| EResponse (id : ID) (payload : nat) (* the reader reads a response, 381-394 *)
| EDeliver.                          (* the channel passes it on, 395 and 176 *)

Definition set_phase (s : calls) (k : nat) (p : phase) : list phase :=
  firstn k (cs_calls s) ++ p :: skipn (S k) (cs_calls s).
(** [None]: the event is not possible now *)
Definition call_step (s : calls) (e : call_event) : option calls :=
  match e with
  | ECall => Some (Calls (cs_calls s ++ [CNew]) (cs_pending s) (cs_reader s))
  | ERegister k =>
      match nth_error (cs_calls s) k with
      | Some CNew => Some (Calls (set_phase s k CPending) (pending_set (cs_pending s) (call_id k) k) (cs_reader s))
      | _ => None
      end
  | EWrite k ok =>
      match nth_error (cs_calls s) k with
      | Some CPending => Some (Calls (set_phase s k (if ok then CWaiting else CLeaving None)) (cs_pending s) (cs_reader s))
      | _ => None
      end
  | ECancel k =>
      match nth_error (cs_calls s) k with
      | Some CWaiting => Some (Calls (set_phase s k (CLeaving None)) (cs_pending s) (cs_reader s))
      | _ => None
      end
  | EReturn k =>
      match nth_error (cs_calls s) k with
      | Some (CLeaving got) => Some (Calls (set_phase s k (CReturned got)) (pending_delete (cs_pending s) (call_id k)) (cs_reader s))
      | _ => None
      end
  | EResponse id payload =>
      match cs_reader s with
      | Reading =>
          match pending_get (cs_pending s) id with
          | Some k => Some (Calls (cs_calls s) (pending_delete (cs_pending s) id) (Sending (Some k) id payload))
          | None => Some (Calls (cs_calls s) (cs_pending s) (Sending None id payload))
          end
      | Sending _ _ _ => None
      end
  | EDeliver =>
      match cs_reader s with
      | Sending (Some k) _ payload =>
          match nth_error (cs_calls s) k with
          | Some CWaiting => Some (Calls (set_phase s k (CLeaving (Some payload))) (cs_pending s) Reading)
          | _ => None
          end
      | _ => None
      end
  end.
