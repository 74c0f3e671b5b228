(** Claims about message framing, incoming requests and outgoing calls. *)
From Coq Require Import String.
From Coq Require Import List Bool ZArith Lia.
From Coq.Strings Require Import Byte.
From Verif Require Import Base.Bytes Base.Decimal Rpc.StreamModel Rpc.StreamSpec Rpc.StreamProofs Rpc.ConnModel Rpc.ConnSpec Rpc.ConnProofs
  Rpc.CallModel Rpc.CallSpec Rpc.CallProofs.
Import ListNotations.
Open Scope list_scope.

(** ** C42 framing round trip *)
(** Messages of at least one byte and less than 2 GiB are read back one after
    the other, unchanged, each with the number of bytes it took, and what
    follows them is left in the stream. *)
Theorem C42_round_trip_partial : forall (TS : TrimSpace), trim_ok TS -> forall msgs tail,
  Forall (fun m => 0 < Z.of_nat (length m) < 2 ^ 31)%Z msgs ->
  reads (length msgs) (concat (map Write msgs) ++ tail) = (map (fun m => Message m (Z.of_nat (length (Write m)))) msgs, tail).
Proof.
  intros TS OK msgs tail F. induction F as [|m msgs L F IH]; [reflexivity|]. cbn [length map concat reads]. rewrite <- app_assoc.
  destruct (write_frame OK m L) as [lines FR].
  assert (R : Read (Write m ++ (concat (map Write msgs) ++ tail)) = (Message m (Z.of_nat (length (Write m))), concat (map Write msgs) ++ tail)).
  { apply read_message. exists lines, (Write m). auto. }
  rewrite R, IH. reflexivity.
Qed.
Print Assumptions C42_round_trip_partial.

(** Missing: a message of 2 GiB or more (and less than 2^63 bytes) is written
    but the reader fails. *)
Theorem C42_large_refuted : forall (TS : TrimSpace), trim_ok TS ->
  (forall msg rest, (2 ^ 31 <= Z.of_nat (length msg) < 2 ^ 63)%Z -> fst (Read (Write msg ++ rest)) = Failed)
  /\ exists msg : gostr, (2 ^ 31 <= Z.of_nat (length msg) < 2 ^ 63)%Z.
Proof.
  intros TS OK. split; [exact (write_too_long OK)|]. exists (repeat x61 (Z.to_nat (2 ^ 31))). rewrite repeat_length, Z2Nat.id by lia. lia.
Qed.
Print Assumptions C42_large_refuted.

#[local] Instance ascii_trim_space : TrimSpace := { trim_space := ascii_trim }.
Lemma ascii_trim_ok : trim_ok ascii_trim_space.
Proof. intros s _. reflexivity. Qed.
Definition tricky : gostr := B "Content-Length: 3" ++ [x0d; x0a; x0d; x0a] ++ B "abc".
Example C42_hypotheses_met : trim_ok ascii_trim_space /\ Forall (fun m : gostr => 0 < Z.of_nat (length m) < 2 ^ 31)%Z [B "{}"; tricky; [x0a]]
  /\ reads 3 (concat (map Write [B "{}"; tricky; [x0a]]) ++ B "tail") = ([Message (B "{}") 23; Message tricky 46; Message [x0a] 22], B "tail").
Proof.
  split; [exact ascii_trim_ok|]. split; [|vm_compute; reflexivity]. repeat constructor; try (vm_compute; reflexivity).
Qed.

(** ** C43 malformed frames *)
(** A message is delivered exactly if the stream starts with a frame (header
    lines, the last Content-Length of which is that of the message, a blank
    line, the message), and then exactly this frame is consumed. *)
Theorem C43_delivered_exactly_frames : forall (TS : TrimSpace) s data total rest,
  Read s = (Message data total, rest) <-> exists lines fr, frame data lines fr /\ s = fr ++ rest /\ total = Z.of_nat (length fr).
Proof. intros TS. exact read_message. Qed.
Print Assumptions C43_delivered_exactly_frames.

(** A line without colon, or a Content-Length that is not a number (of 64 bits),
    zero, negative or 2^31 or more, after any header lines: an error. *)
Theorem C43_bad_line_fails : forall (TS : TrimSpace) before l rest,
  Forall is_line (before ++ [l]) -> Forall (fun l => ~ blank l) (before ++ [l]) ->
  (~ In COLON (trim_space l)
   \/ exists v, header l (B "Content-Length") v /\ forall n, Atoi (trim_space v) = Some n -> (n <= 0 \/ 2 ^ 31 <= n)%Z) ->
  fst (Read (concat (before ++ [l]) ++ rest)) = Failed.
Proof.
  intros TS before l rest L NB BAD. apply read_bad_line; auto.
  - intros (n & v & H & NE). destruct BAD as [NC|(v' & H' & _)]; [|destruct (header_unique _ _ _ _ _ H H'); contradiction].
    apply NC. destruct H as [-> _]. apply in_or_app. right. left. reflexivity.
  - intros n (v & H & AT & R). destruct BAD as [NC|(v' & H' & B')].
    + apply NC. destruct H as [-> _]. apply in_or_app. right. left. reflexivity.
    + destruct (header_unique _ _ _ _ _ H H') as [_ <-]. specialize (B' n AT). lia.
Qed.
Print Assumptions C43_bad_line_fails.
(** A header without Content-Length: an error. *)
Theorem C43_missing_length_fails : forall (TS : TrimSpace) lines b rest,
  Forall is_line (lines ++ [b]) -> Forall (fun l => ~ blank l) lines -> blank b -> Forall other_header lines ->
  fst (Read (concat (lines ++ [b]) ++ rest)) = Failed.
Proof. intros TS. exact read_no_length. Qed.
Print Assumptions C43_missing_length_fails.

Definition crlf : gostr := [x0d; x0a].
Lemma is_line_check : forall l, (match rev l with x :: r => Byte.eqb x LF && negb (existsb (Byte.eqb LF) r) | [] => false end) = true -> is_line l.
Proof.
  intros l H. destruct (rev l) as [|x r] eqn:E; [discriminate H|]. apply andb_true_iff in H as [H1 H2]. apply byte_eqb_eq in H1 as ->.
  exists (rev r). split; [rewrite <- (rev_involutive l), E; reflexivity|]. intros I. apply in_rev in I. apply negb_true_iff in H2.
  assert (existsb (Byte.eqb LF) r = true); [|congruence]. apply existsb_exists. exists LF. split; [exact I|]. apply byte_eqb_eq. reflexivity.
Qed.
Definition type_line : gostr := B "Content-Type: utf8" ++ crlf.
Example C43_hypotheses_met :
  (exists lines fr, frame (B "{}") lines fr /\ Write (B "{}") = fr)
  /\ Forall is_line ([type_line] ++ [B "Content-Length: -1" ++ crlf])
  /\ Forall (fun l => ~ blank l) ([type_line] ++ [B "Content-Length: -1" ++ crlf])
  /\ (exists v, header (B "Content-Length: -1" ++ crlf) (B "Content-Length") v /\ Atoi (trim_space v) = Some (-1)%Z)
  /\ blank crlf /\ other_header type_line.
Proof.
  split. { destruct (write_frame ascii_trim_ok (B "{}")) as [lines F]; [vm_compute; split; reflexivity|]. exists lines, (Write (B "{}")). auto. }
  split. { repeat constructor; apply is_line_check; vm_compute; reflexivity. }
  split. { repeat constructor; intros H; vm_compute in H; discriminate H. }
  split. { exists (B " -1"). split; [split; [vm_compute; reflexivity|]|vm_compute; reflexivity]. intros I; cbn in I; repeat (destruct I as [I|I]; [discriminate I|]); exact I. }
  split; [vm_compute; reflexivity|]. exists (B "Content-Type"), (B " utf8"). split; [|discriminate]. split; [vm_compute; reflexivity|]. intros I; cbn in I; repeat (destruct I as [I|I]; [discriminate I|]); exact I.
Qed.

(** ** C44 one response per request *)
(** In every execution in which ids are strings that are not empty or integers
    of 64 bits: nothing is written for a notification, and for a call at most
    one response, with its id and with what its handlers replied first (that
    they did not reply, or that there is no such method). *)
Theorem C44_at_most_one_response_partial : forall h c, execution h c -> Forall usual h ->
  (forall x, In x (cn_written c) -> (rs_request x < length (arrivals h))%nat)
  /\ forall i id script delivered, nth_error (arrivals h) i = Some (id, script, delivered) ->
     match id with
     | None => responses c i = []
     | Some j => responses c i = [] \/ responses c i = [Response i j (answer script delivered)]
     end.
Proof.
  intros h c EX U. destruct (executions_track h c EX U) as [L T]. assert (G := executions_good h c EX). split.
  - intros x I. rewrite <- L. exact (g_writes _ _ G x I).
  - intros i id script d A. destruct (T i id script d A) as (r & N & M). destruct id as [j|]; [|exact (proj1 (ok_notify _ _ _ (g_ok _ _ G i r N) M))].
    destruct M as (id' & _ & <- & CS). exact (stage_responses _ _ _ _ _ CS).
Qed.
Print Assumptions C44_at_most_one_response_partial.
(** When the goroutines have nothing left to do, every call has its response. *)
Theorem C44_all_answered_partial : forall h c, execution h c -> Forall usual h -> at_rest c ->
  forall i j script delivered, nth_error (arrivals h) i = Some (Some j, script, delivered) ->
  responses c i = [Response i j (answer script delivered)].
Proof.
  intros h c EX U R i j script d A. destruct (executions_track h c EX U) as [L T]. destruct (T i (Some j) script d A) as (r & N & id' & _ & <- & CS).
  eapply stage_done; [exact CS|]. exact (proj2 (rest_done h c EX R i r N)).
Qed.
Print Assumptions C44_all_answered_partial.
(** They come to that point, in whatever order they run: there are no endless
    runs, and no step panics. *)
Theorem C44_goroutines_end : forall h c, execution h c ->
  (forall i, step c i <> Panic) /\ Acc (fun c2 c1 => exists i, step c1 i = Next c2) c.
Proof.
  intros h c EX. split.
  - intros i. assert (G := executions_good h c EX). apply step_cases. intros r N. eapply closed_of_ok. exact (g_ok _ _ G i r N).
  - remember (total_cost c) as n eqn:E. revert h c EX E. induction n as [n IH] using lt_wf_ind. intros h c EX E. constructor. intros c2 [i ST].
    assert (G := executions_good h c EX). destruct (step_cases c i) as [_ SC]; [intros r N; eapply closed_of_ok; exact (g_ok _ _ G i r N)|].
    destruct (SC c2 ST) as (r & r' & out & N & RS & _ & E2).
    eapply (IH (total_cost c2)); [|eapply ex_step; [exact EX|exact ST]|reflexivity]. subst n. rewrite E2.
    assert (S := list_sum_set c i r r' (cn_written c ++ out) N). assert (S2 := step_costs _ _ _ _ RS). lia.
Qed.
Print Assumptions C44_goroutines_end.

(** runs computed *)
Fixpoint execute (c : conn) (h : list event) : option conn :=
  match h with
  | [] => Some c
  | Arrives id script d :: h => execute (arrive c id script d) h
  | Steps i :: h => match step c i with Next c => execute c h | _ => None end
  end.
Lemma execute_execution : forall h0 c0 h c, execution h0 c0 -> execute c0 h = Some c -> execution (h0 ++ h) c.
Proof.
  intros h0 c0 h. revert h0 c0. induction h as [|e h IH]; intros h0 c0 c EX E; cbn in E; [injection E as <-; rewrite app_nil_r; exact EX|].
  change (e :: h) with ([e] ++ h). rewrite app_assoc. destruct e as [id script d|i].
  - eapply IH; [|exact E]. apply ex_arrive. exact EX.
  - destruct (step c0 i) as [| |c1] eqn:S; try discriminate E. eapply IH; [|exact E]. eapply ex_step; eauto.
Qed.

(** Missing: other ids. A call with the id "" is answered with the id 0. *)
Theorem C44_empty_id_refuted : exists h c script, execution h c /\ at_rest c
  /\ arrivals h = [(Some (JString []), script, true)] /\ cn_written c = [Response 0 (JInteger 0) (Answer 7)].
Proof.
  exists [Arrives (Some (JString [])) [DoReply (Answer 7)] true; Steps 0; Steps 0; Steps 0; Steps 0; Steps 0; Steps 0]. eexists. exists [DoReply (Answer 7)].
  split; [apply (execute_execution [] NewConn _ _ ex_start); vm_compute; reflexivity|].
  split; [|split; reflexivity]. intros [|[|i]]; reflexivity.
Qed.
Print Assumptions C44_empty_id_refuted.
(** A call whose id is another number (1.5, 2^63) is never answered. *)
Theorem C44_odd_id_refuted : exists h c script, execution h c /\ at_rest c
  /\ arrivals h = [(Some JOther, script, true); (Some (JInteger (2 ^ 63)), script, true)] /\ cn_written c = [].
Proof.
  exists (([] ++ [Arrives (Some JOther) [DoReply (Answer 7)] true]) ++ [Arrives (Some (JInteger (2 ^ 63))) [DoReply (Answer 7)] true]), NewConn, [DoReply (Answer 7)].
  split; [|split; [intros [|i]; reflexivity|split; reflexivity]]. exact (ex_arrive _ _ _ _ _ (ex_arrive _ _ _ _ _ ex_start)).
Qed.
Print Assumptions C44_odd_id_refuted.

(** three requests: a call whose handler goes parallel and replies twice, a
    notification, and a call nobody knows; the second runs while the first is
    not finished *)
Definition three_requests : list event :=
  [Arrives (Some (JInteger 1)) [DoParallel; DoReply (Answer 5); DoReply (Answer 6)] true; Arrives None [DoReply (Answer 9)] true; Steps 0; Steps 0; Steps 1; Steps 0;
   Steps 1; Arrives (Some (JString (B "x"))) [] false; Steps 1; Steps 0; Steps 1; Steps 1; Steps 2; Steps 2; Steps 2; Steps 0; Steps 2; Steps 0; Steps 0; Steps 2; Steps 2; Steps 0].
Example C44_hypotheses_met : exists c, execution three_requests c /\ Forall usual three_requests /\ at_rest c
  /\ cn_written c = [Response 0 (JInteger 1) (Answer 5); Response 2 (JString (B "x")) MethodNotFound].
Proof.
  destruct (execute NewConn three_requests) as [c|] eqn:E; [|vm_compute in E; discriminate E]. exists c.
  split; [exact (execute_execution [] NewConn three_requests c ex_start E)|]. vm_compute in E. injection E as <-.
  split; [repeat constructor; cbn; try lia; discriminate|]. split; [|reflexivity]. intros [|[|[|[|i]]]]; reflexivity.
Qed.

(** ** C45 requests start in order *)
(** When the handlers of a request start, those of every earlier request have
    started, and have declared themselves parallel, replied or returned. *)
Theorem C45_start_in_order : forall h c i, execution h c -> starts c i ->
  forall j, (j < i)%nat -> has_started h j /\ passed h j.
Proof.
  intros h c i EX (r & c' & N & S & ST) j L. assert (G := executions_good h c EX).
  assert (GT : gate c i = true) by (unfold step in ST; rewrite N, S in ST; destruct (gate c i); [reflexivity|discriminate ST]).
  destruct (started_before h c i EX GT j L) as (q & Nq & Sq & Cq). split; [exact (g_started _ _ G j q Nq Sq)|].
  destruct (g_passed _ _ G j q Nq Sq) as [P|[C _]]; [exact P|congruence].
Qed.
Print Assumptions C45_start_in_order.
(** The handlers of a request start at most once. *)
Theorem C45_start_once : forall h c i, execution h c -> starts c i -> ~ has_started h i.
Proof. intros h c i EX (r & c' & N & S & _) H. destruct (started_now h c i EX H) as (q & Nq & Sq). congruence. Qed.
Print Assumptions C45_start_once.
(** Nothing of a request is done before it has started. *)
Theorem C45_acts_after_start : forall h c i c', execution h c -> step c i = Next c' -> has_started (h ++ [Steps i]) i.
Proof.
  intros h c i c' EX ST. assert (G := executions_good h c EX). destruct (step_cases c i) as [_ SC]; [intros r N; eapply closed_of_ok; exact (g_ok _ _ G i r N)|].
  destruct (SC c' ST) as (r & r' & out & N & RS & _ & E). destruct (rq_started r) eqn:S; [apply started_more; exact (g_started _ _ G i r N S)|].
  exists h, [], c. split; [reflexivity|]. split; [exact EX|]. exists r, c'. auto.
Qed.
Print Assumptions C45_acts_after_start.
Example C45_hypotheses_met : exists c, execution (firstn 12 three_requests) c /\ starts c 2.
Proof.
  destruct (execute NewConn (firstn 12 three_requests)) as [c|] eqn:E; [|vm_compute in E; discriminate E]. exists c.
  split; [exact (execute_execution [] NewConn _ c ex_start E)|]. vm_compute in E. injection E as <-. unfold starts. eexists. eexists. split; [reflexivity|]. split; reflexivity.
Qed.

(** ** C46 responses reach the caller *)
(** The first 2^64 calls have distinct ids. *)
Theorem C46_distinct_ids : forall i j, (Z.of_nat i < 2 ^ 64)%Z -> (Z.of_nat j < 2 ^ 64)%Z -> i <> j -> call_id i <> call_id j.
Proof.
  intros i j I J NE E. apply NE. apply (call_id_inj (S (Nat.max i j))); [lia|lia|lia|exact E].
Qed.
Print Assumptions C46_distinct_ids.
(** The responses the reader passes on go to different calls, each to the call
    with its id; a call gets no other response. *)
Theorem C46_responses_reach_their_call : forall h s, call_execution h s -> (Z.of_nat (length (cs_calls s)) <= 2 ^ 64)%Z ->
  exists ks, NoDup ks /\ Forall2 (fun k d => fst d = call_id k /\ got s k = Some (snd d)) ks (deliveries None h)
  /\ forall k r, got s k = Some r -> In k ks.
Proof. exact deliveries_reach. Qed.
Print Assumptions C46_responses_reach_their_call.
(** If the peer answers only calls that were sent, once each, and these are not
    cancelled, the reader is never held up: what it has read can be passed on
    at once, after which it reads. *)
Theorem C46_keeps_reading_partial : forall h s, call_execution h s -> (Z.of_nat (length (cs_calls s)) <= 2 ^ 64)%Z -> well_behaved h ->
  cs_reader s = Reading \/ exists s', call_step s EDeliver = Some s' /\ cs_reader s' = Reading.
Proof.
  intros h s EX B W. destruct (cs_reader s) as [|c id p] eqn:R; [auto|right]. destruct (reader_goes_on h s EX B W c id p R) as (k & -> & _ & N).
  cbn [call_step]. rewrite R, N. eexists. split; reflexivity.
Qed.
Print Assumptions C46_keeps_reading_partial.

(** Missing: an unknown id, a second response to a call, or the response to a
    cancelled call stop the reader for ever. *)
Lemma run_start : forall h s, run NewCalls h = Some s -> call_execution h s.
Proof. intros h s E. exact (run_execution [] NewCalls h s ce_start E). Qed.
Theorem C46_unknown_id_refuted : exists id p s, call_execution [EResponse id p] s /\ stuck s.
Proof.
  exists (MkID [] 9), 1%nat. eexists. split; [apply run_start; reflexivity|]. eapply nil_channel_stuck. reflexivity.
Qed.
Print Assumptions C46_unknown_id_refuted.
Theorem C46_second_response_refuted : exists h s, call_execution h s /\ got s 0 = Some 1%nat /\ stuck s
  /\ h = [ECall; ERegister 0; EWrite 0 true; EResponse (call_id 0) 1; EDeliver; EReturn 0; EResponse (call_id 0) 1].
Proof.
  exists [ECall; ERegister 0; EWrite 0 true; EResponse (call_id 0) 1; EDeliver; EReturn 0; EResponse (call_id 0) 1]. eexists. split; [apply run_start; vm_compute; reflexivity|]. split; [reflexivity|]. split; [|reflexivity]. eapply nil_channel_stuck. reflexivity.
Qed.
Print Assumptions C46_second_response_refuted.
(** also when the response was read before the cancellation *)
Theorem C46_cancelled_call_refuted : exists h s, call_execution h s /\ stuck s
  /\ h = [ECall; ERegister 0; EWrite 0 true; EResponse (call_id 0) 1; ECancel 0; EReturn 0].
Proof.
  exists [ECall; ERegister 0; EWrite 0 true; EResponse (call_id 0) 1; ECancel 0; EReturn 0]. eexists. split; [apply run_start; vm_compute; reflexivity|]. split; [|reflexivity]. eapply left_call_stuck; [reflexivity|reflexivity|exact I].
Qed.
Print Assumptions C46_cancelled_call_refuted.

Definition two_calls : list call_event :=
  [ECall; ECall; ERegister 1; EWrite 1 true; ERegister 0; EWrite 0 true; EResponse (call_id 0) 7; EDeliver; EResponse (call_id 1) 8].
Example C46_hypotheses_met : exists s, call_execution two_calls s /\ well_behaved two_calls /\ (Z.of_nat (length (cs_calls s)) <= 2 ^ 64)%Z
  /\ got s 0 = Some 7%nat /\ cs_reader s = Sending (Some 1%nat) (call_id 1) 8.
Proof.
  eexists. split; [apply run_start; vm_compute; reflexivity|]. split; [|split; [vm_compute; discriminate|split; reflexivity]].
  intros before id p after E.
  do 6 (destruct before as [|? before]; cbn [app] in E; [discriminate E|injection E as <- E]).
  destruct before as [|? before]; cbn [app] in E.
  { injection E as <- <- <-. split; [intros p'; intros I; cbn in I; repeat (destruct I as [I|I]; [discriminate I|]); exact I|]. exists 0%nat. split; [reflexivity|]. split; [cbn; tauto|]. intros I; cbn in I; repeat (destruct I as [I|I]; [discriminate I|]); exact I. }
  injection E as <- E. destruct before as [|? before]; cbn [app] in E; [discriminate E|injection E as <- E]. destruct before as [|? before]; cbn [app] in E.
  { injection E as <- <- <-. split; [intros p'; intros I; cbn in I; repeat (destruct I as [I|I]; [discriminate I|]); exact I|]. exists 1%nat. split; [reflexivity|]. split; [cbn; tauto|]. intros I; cbn in I; repeat (destruct I as [I|I]; [discriminate I|]); exact I. }
  injection E as <- E. destruct before; discriminate E.
Qed.
