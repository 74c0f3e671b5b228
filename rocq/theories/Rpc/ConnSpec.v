(** What a caller sees of the handling of requests. *)
From Coq Require Import String.
From Coq Require Import List Bool ZArith.
From Verif Require Import Base.Bytes Rpc.ConnModel.
Import ListNotations.
Open Scope list_scope.

(** what happens: a message with a method arrives (its id, what its handlers
    do, whether they deliver it), or a goroutine does a step *)
Inductive event :=
| Arrives (id : option json_id) (script : list action) (delivered : bool)
| Steps (i : nat).
(** the executions; every event that is not possible ends the execution *)
Inductive execution : list event -> conn -> Prop :=
| ex_start : execution [] NewConn
| ex_arrive : forall h c id script delivered, execution h c ->
    execution (h ++ [Arrives id script delivered]) (arrive c id script delivered)
| ex_step : forall h c i c', execution h c -> step c i = Next c' -> execution (h ++ [Steps i]) c'.

(** the ids a request can have: a string that is not empty or an integer of
    64 bits *)
Definition usual_id (j : json_id) : Prop :=
  match j with
  | JInteger z => (- 2 ^ 63 <= z < 2 ^ 63)%Z
  | JString s => s <> []
  | JNull | JOther => False
  end.
Definition usual (e : event) : Prop :=
  match e with
  | Arrives (Some j) _ _ => usual_id j
  | _ => True
  end.

(** the messages in the order of their arrival *)
Definition arrivals (h : list event) : list (option json_id * list action * bool) :=
  flat_map (fun e => match e with Arrives id script d => [(id, script, d)] | Steps _ => [] end) h.

(** the responses to the request number [i] *)
Definition responses (c : conn) (i : nat) : list response :=
  List.filter (fun r => Nat.eqb (rs_request r) i) (cn_written c).

(** no goroutine can do anything *)
Definition at_rest (c : conn) : Prop := forall i, step c i = Blocked.

(** what the next step of request [i] is *)
Definition starts (c : conn) (i : nat) : Prop :=
  exists r c', nth_error (cn_requests c) i = Some r /\ rq_started r = false /\ step c i = Next c'.
Definition next_instruction (c : conn) (i : nat) (x : instruction) : Prop :=
  exists r code, nth_error (cn_requests c) i = Some r /\ rq_started r = true /\ rq_code r = x :: code.
(** in the execution [h], request [i] has declared itself parallel, replied or
    returned *)
Definition passed (h : list event) (i : nat) : Prop :=
  exists before after c x, h = before ++ Steps i :: after /\ execution before c /\ next_instruction c i x
    /\ (x = IParallel \/ (exists b, x = IReply b) \/ x = IDefault \/ x = IReturn).
(** in the execution [h], request [i] has started *)
Definition has_started (h : list event) (i : nat) : Prop :=
  exists before after c, h = before ++ Steps i :: after /\ execution before c /\ starts c i.

(** what a call is answered: what its handlers reply first; if they reply
    nothing, that the method does not exist or, if they claimed the request,
    that they did not reply *)
Fixpoint first_answer (script : list action) : option body :=
  match script with
  | [] => None
  | DoReply b :: _ => Some b
  | DoParallel :: script => first_answer script
  end.
Definition answer (script : list action) (delivered : bool) : body :=
  match first_answer script with
  | Some b => b
  | None => if delivered then DidNotReply else MethodNotFound
  end.
