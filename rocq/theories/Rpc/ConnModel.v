(** Handling of incoming requests: internal/jsonrpc2/jsonrpc2.go, wire.go and
    the default handler of handler.go. Every request has its own goroutine; a
    step of the model is one action of one goroutine between two points where
    others can interfere.

    Simplified: writing to the stream and marshalling the response succeed;
    the observers of messages (Handler.Request, Response, Done, Read, Wrote,
    Error), contexts and the [handling] map (read only by Conn.Cancel, which
    nothing calls) are left out; a handler does not panic. *)
From Coq Require Import String.
From Coq Require Import List Bool ZArith.
From Coq.Strings Require Import Byte.
From Verif Require Import Base.Bytes.
Import ListNotations.
Open Scope list_scope.

(** ** Identifiers *)
(** wire.go:85-88 ID *)
Record ID := MkID { id_name : gostr; id_number : Z }.
(** the JSON values of an "id" member: a number that is an integer of 64 bits
    in plain notation, another number (or any other value), a string, null *)
Inductive json_id := JInteger (z : Z) | JString (s : gostr) | JNull | JOther.
Definition int64 (z : Z) : bool := (Z.leb (- 2 ^ 63) z && Z.ltb z (2 ^ 63))%Z.
(** wire.go:132-138 UnmarshalJSON; [None] is the error. JSON null does not
    reach it: the member is a pointer and becomes nil. *)
Definition UnmarshalID (j : json_id) : option ID :=
  match j with
  | JInteger z => if int64 z then Some (MkID [] z) else None
  | JString s => Some (MkID s 0)
  | JNull | JOther => None
  end.
(** wire.go:125-130 MarshalJSON *)
Definition MarshalID (id : ID) : json_id :=
  match id_name id with
  | [] => JInteger (id_number id)
  | s => JString s
  end.

(** ** Requests *)
(** jsonrpc2.go:31-38 requestState, in the order of the constants *)
Inductive request_state := Waiting | Serial | Parallel_ | Replied.
Definition rank (s : request_state) : nat :=
  match s with Waiting => 0 | Serial => 1 | Parallel_ => 2 | Replied => 3 end.

(** the content of a response *)
Inductive body :=
| Answer (n : nat)          (* what a handler passes to Reply, result or error *)
| MethodNotFound            (* handler.go:120 *)
| DidNotReply.              (* jsonrpc2.go:364 *)

(** what a handler does with the request it is given *)
Inductive action := DoParallel | DoReply (b : body).

(** what is left to do for the goroutine of a request (jsonrpc2.go:357-380) *)
Inductive instruction :=
| IParallel                 (* Request.Parallel *)
| IReply (b : body)         (* Request.Reply *)
| IWrite (b : body)         (* the end of Request.Reply, jsonrpc2.go:250-269 *)
| IDefault                  (* defaultHandler.Deliver, not yet delivered *)
| IReturn                   (* the handlers are done, the deferred function starts *)
| IReplyMissing.            (* jsonrpc2.go:363-365 *)

Record request := Request {
  rq_id : option ID;                    (* nil for a notification *)
  rq_state : request_state;
  rq_started : bool;                    (* has passed <-thisRequest *)
  rq_closed : bool;                     (* nextRequest is closed *)
  rq_code : list instruction }.

(** a response: the request it belongs to and what is written *)
Record response := Response { rs_request : nat; rs_id : json_id; rs_body : body }.
Record conn := Conn { cn_requests : list request; cn_written : list response }.
Definition NewConn : conn := Conn [] [].

Definition do_action (a : action) : instruction :=
  match a with DoParallel => IParallel | DoReply b => IReply b end.
(** the deferred function, jsonrpc2.go:360-371, after the handlers 372-377:
    the handlers added to the connection do [script] and tell whether they
    [delivered]; the default handler comes last (jsonrpc2.go:60, 76) *)
Definition goroutine (script : list action) (delivered : bool) : list instruction :=
  map do_action script ++ (if delivered then [] else [IDefault]) ++ [IReturn; IReplyMissing; IParallel].

(** jsonrpc2.go:330-356: a message with a method arrives. [None] as id: there
    is no "id" member. A message that cannot be decoded is dropped
    (jsonrpc2.go:322-329). *)
Definition arrive (c : conn) (id : option json_id) (script : list action) (delivered : bool) : conn :=
  let push id := Conn (cn_requests c ++ [Request id Waiting false false (goroutine script delivered)]) (cn_written c) in
  match id with
  | None | Some JNull => push None
  | Some j => match UnmarshalID j with Some id => push (Some id) | None => c end
  end.

(** ** Steps of the goroutines *)
Inductive outcome := Blocked | Panic | Next (c : conn).

Definition set_request (c : conn) (i : nat) (r : request) : conn :=
  Conn (firstn i (cn_requests c) ++ r :: skipn (S i) (cn_requests c)) (cn_written c).

(** jsonrpc2.go:216-222 Parallel; [None]: closing a closed channel panics *)
Definition Parallel (r : request) (code : list instruction) : option request :=
  if Nat.leb (rank Parallel_) (rank (rq_state r)) then Some (Request (rq_id r) (rq_state r) (rq_started r) (rq_closed r) code)
  else if rq_closed r then None
  else Some (Request (rq_id r) Parallel_ (rq_started r) true code).

(** jsonrpc2.go:231-245, the start of Reply: it goes on with writing *)
Definition Reply (r : request) (b : body) (code : list instruction) : option request :=
  if Nat.leb (rank Replied) (rank (rq_state r)) then Some (Request (rq_id r) (rq_state r) (rq_started r) (rq_closed r) code)
  else match rq_id r with
       | None => Some (Request (rq_id r) (rq_state r) (rq_started r) (rq_closed r) code)
       | Some _ =>
           match Parallel r code with
           | None => None
           | Some r => Some (Request (rq_id r) Replied (rq_started r) (rq_closed r) (IWrite b :: code))
           end
       end.

(** the channel the request waits for: nextRequest of the one before, or a
    closed one (jsonrpc2.go:312-313, 333-334) *)
Definition gate (c : conn) (i : nat) : bool :=
  match i with
  | O => true
  | S i => match nth_error (cn_requests c) i with Some r => rq_closed r | None => false end
  end.

Definition continue (c : conn) (i : nat) (r : option request) : outcome :=
  match r with Some r => Next (set_request c i r) | None => Panic end.
(** the next step of the goroutine of request [i] *)
Definition step (c : conn) (i : nat) : outcome :=
  match nth_error (cn_requests c) i with
  | None => Blocked
  | Some r =>
      let with_code code := Request (rq_id r) (rq_state r) (rq_started r) (rq_closed r) code in
      if rq_started r then
        match rq_code r with
        | [] => Blocked
        | IParallel :: code => continue c i (Parallel r code)
        | IReply b :: code => continue c i (Reply r b code)
        | IWrite b :: code =>
            match rq_id r with
            | Some id => Next (Conn (cn_requests (set_request c i (with_code code))) (cn_written c ++ [Response i (MarshalID id) b]))
            | None => Next (set_request c i (with_code code))
            end
        | IDefault :: code =>
            match rq_id r with
            | Some _ => continue c i (Reply r MethodNotFound code)
            | None => Next (set_request c i (with_code code))
            end
        | IReturn :: code => Next (set_request c i (with_code code))
        | IReplyMissing :: code =>
            match rq_id r with
            | Some _ => if Nat.ltb (rank (rq_state r)) (rank Replied) then continue c i (Reply r DidNotReply code)
                        else Next (set_request c i (with_code code))
            | None => Next (set_request c i (with_code code))
            end
        end
      else if gate c i then Next (set_request c i (Request (rq_id r) Serial true (rq_closed r) (rq_code r)))
      else Blocked
  end.
