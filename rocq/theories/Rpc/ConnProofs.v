(** Invariants of the handling of requests. *)
From Coq Require Import String.
From Coq Require Import List Bool ZArith Lia.
From Verif Require Import Base.Bytes Rpc.ConnModel Rpc.ConnSpec.
Import ListNotations.
Open Scope list_scope.

Lemma set_request_at : forall c i r0 r, nth_error (cn_requests c) i = Some r0 -> nth_error (cn_requests (set_request c i r)) i = Some r.
Proof.
  intros c i r0 r H. unfold set_request. cbn [cn_requests]. assert (L : (i < length (cn_requests c))%nat) by (apply nth_error_Some; congruence).
  rewrite nth_error_app2; rewrite firstn_length_le by lia; [|lia]. rewrite Nat.sub_diag. reflexivity.
Qed.
Lemma nth_error_firstn : forall {A} (l : list A) i j, (j < i)%nat -> nth_error (firstn i l) j = nth_error l j.
Proof.
  intros A l. induction l as [|x l IH]; intros i j L; destruct i, j; cbn; try lia; try reflexivity.
  apply IH. lia.
Qed.
Lemma nth_error_skipn : forall {A} (l : list A) i j, nth_error (skipn i l) j = nth_error l (i + j).
Proof. intros A l. induction l as [|x l IH]; intros [|i] j; cbn; try reflexivity; [destruct j; reflexivity|apply IH]. Qed.
Lemma set_request_other : forall c i j r0 r, nth_error (cn_requests c) i = Some r0 -> i <> j -> nth_error (cn_requests (set_request c i r)) j = nth_error (cn_requests c) j.
Proof.
  intros c i j r0 r H NE. unfold set_request. cbn [cn_requests]. assert (L : (i < length (cn_requests c))%nat) by (apply nth_error_Some; congruence).
  destruct (Nat.lt_ge_cases j i) as [LT|GE].
  - rewrite nth_error_app1 by (rewrite firstn_length_le by lia; lia). apply nth_error_firstn. exact LT.
  - rewrite nth_error_app2; rewrite firstn_length_le by lia; [|lia]. destruct (j - i)%nat as [|k] eqn:K; [lia|]. cbn [nth_error].
    rewrite nth_error_skipn. f_equal. lia.
Qed.
Lemma set_request_length : forall c i r0 r, nth_error (cn_requests c) i = Some r0 -> length (cn_requests (set_request c i r)) = length (cn_requests c).
Proof.
  intros c i r0 r H. unfold set_request. cbn [cn_requests]. assert (L : (i < length (cn_requests c))%nat) by (apply nth_error_Some; congruence).
  rewrite app_length. cbn [length]. rewrite firstn_length_le, skipn_length by lia. lia.
Qed.

(** the reply a goroutine will send *)
Fixpoint first_reply (code : list instruction) : option body :=
  match code with
  | [] => None
  | IReply b :: _ => Some b
  | IDefault :: _ => Some MethodNotFound
  | IReplyMissing :: _ => Some DidNotReply
  | _ :: code => first_reply code
  end.
Definition is_write (x : instruction) : bool := match x with IWrite _ => true | _ => false end.
Definition no_write (code : list instruction) : Prop := forall b, ~ In (IWrite b) code.
Definition weight (x : instruction) : nat :=
  match x with IReply _ | IDefault | IReplyMissing => 2 | _ => 1 end.
Definition cost (r : request) : nat := (if rq_started r then 0 else 1) + list_sum (map weight (rq_code r)).

(** how a call stands: [answer] is what it will be answered *)
Inductive call_stage (id : ID) (answer : body) (r : request) (i : nat) : list response -> Prop :=
| not_replied : (rank (rq_state r) < 3)%nat -> no_write (rq_code r) -> first_reply (rq_code r) = Some answer -> call_stage id answer r i []
| replying : forall code, rq_state r = Replied -> rq_code r = IWrite answer :: code -> no_write code -> call_stage id answer r i []
| replied : rq_state r = Replied -> no_write (rq_code r) -> call_stage id answer r i [Response i (MarshalID id) answer].

(** the missing reply is sent after the return of the handlers *)
Definition return_first (code : list instruction) : Prop :=
  forall before after, code = before ++ IReplyMissing :: after -> ~ In IReturn after.
Lemma return_first_tail : forall x code, return_first (x :: code) -> return_first code.
Proof. intros x code H b a ->. exact (H (x :: b) a eq_refl). Qed.
Lemma return_first_write : forall x code, x <> IReplyMissing -> return_first code -> return_first (x :: code).
Proof. intros x code X H [|y b] a E; injection E as E1 E2; [congruence|]. exact (H b a E2). Qed.

Record request_ok (r : request) (i : nat) (out : list response) : Prop := {
  ok_closed : rq_closed r = Nat.leb 2 (rank (rq_state r));
  ok_waiting : rq_started r = false -> rq_state r = Waiting;
  ok_end : rq_closed r = true \/ In IParallel (rq_code r);
  ok_notify : rq_id r = None -> out = [] /\ no_write (rq_code r);
  ok_order : return_first (rq_code r);
  ok_return : rq_started r = false -> In IReturn (rq_code r) }.

(** ** One step of one goroutine *)
Inductive request_step (i : nat) (r : request) : request -> list response -> Prop :=
| rs_start : rq_started r = false -> request_step i r (Request (rq_id r) Serial true (rq_closed r) (rq_code r)) []
| rs_skip : forall x code, rq_started r = true -> rq_code r = x :: code ->
    (x = IReturn \/ (x = IParallel /\ (2 <= rank (rq_state r))%nat) \/ (rq_id r = None /\ x <> IParallel)
     \/ (rq_id r <> None /\ rq_state r = Replied /\ ((exists b, x = IReply b) \/ x = IDefault \/ x = IReplyMissing))) ->
    request_step i r (Request (rq_id r) (rq_state r) true (rq_closed r) code) []
| rs_parallel : forall code, rq_started r = true -> rq_code r = IParallel :: code -> (rank (rq_state r) < 2)%nat -> rq_closed r = false ->
    request_step i r (Request (rq_id r) Parallel_ true true code) []
| rs_reply : forall x b code cl id, rq_started r = true -> rq_code r = x :: code -> rq_id r = Some id ->
    (x = IReply b \/ (x = IDefault /\ b = MethodNotFound) \/ (x = IReplyMissing /\ b = DidNotReply)) -> (rank (rq_state r) < 3)%nat ->
    cl = true -> (2 <= rank (rq_state r) -> rq_closed r = true)%nat ->
    request_step i r (Request (rq_id r) Replied true cl (IWrite b :: code)) []
| rs_write : forall b code id, rq_started r = true -> rq_code r = IWrite b :: code -> rq_id r = Some id ->
    request_step i r (Request (rq_id r) (rq_state r) true (rq_closed r) code) [Response i (MarshalID id) b].

Definition closed_ok (r : request) : Prop := rq_closed r = Nat.leb 2 (rank (rq_state r)).
Lemma reply_cases : forall r b code, closed_ok r -> rq_started r = true -> forall id, rq_id r = Some id ->
  (Nat.leb 3 (rank (rq_state r)) = true /\ Reply r b code = Some (Request (rq_id r) (rq_state r) true (rq_closed r) code))
  \/ ((rank (rq_state r) < 3)%nat /\ Reply r b code = Some (Request (rq_id r) Replied true true (IWrite b :: code))).
Proof.
  intros r b code CL ST id ID. unfold Reply. destruct (Nat.leb (rank Replied) (rank (rq_state r))) eqn:E.
  - left. rewrite ST. auto.
  - right. apply Nat.leb_gt in E. cbn [rank] in E. split; [exact E|]. rewrite ID. unfold Parallel. unfold closed_ok in CL.
    destruct (Nat.leb (rank Parallel_) (rank (rq_state r))) eqn:E2; cbn [rank] in E2; rewrite E2 in CL.
    + cbn. rewrite CL, ST, ID. reflexivity.
    + rewrite CL. cbn. rewrite ST, ID. reflexivity.
Qed.
Lemma step_cases : forall c i, (forall r, nth_error (cn_requests c) i = Some r -> closed_ok r) ->
  step c i <> Panic /\ forall c', step c i = Next c' ->
  exists r r' out, nth_error (cn_requests c) i = Some r /\ request_step i r r' out
    /\ (rq_started r = false -> gate c i = true) /\ c' = Conn (cn_requests (set_request c i r')) (cn_written c ++ out).
Proof.
  intros c i OK. unfold step. destruct (nth_error (cn_requests c) i) as [r|] eqn:N; [|split; [|intros c' E]; discriminate].
  specialize (OK r eq_refl).
  assert (FIN : forall r', Conn (cn_requests (set_request c i r')) (cn_written c ++ []) = set_request c i r') by (intros; rewrite app_nil_r; reflexivity).
  assert (SKIP : forall c' r', request_step i r r' [] -> (rq_started r = false -> gate c i = true) -> Next (set_request c i r') = Next c' ->
    exists r r' out, Some r = nth_error (cn_requests c) i /\ request_step i r r' out /\ (rq_started r = false -> gate c i = true) /\ c' = Conn (cn_requests (set_request c i r')) (cn_written c ++ out)).
  { intros c' r' RS G E. injection E as <-. exists r, r', []. rewrite FIN. auto. }
  assert (WRAP : forall o, (o <> Panic /\ forall c', o = Next c' -> exists r r' out, Some r = nth_error (cn_requests c) i /\ request_step i r r' out /\ (rq_started r = false -> gate c i = true) /\ c' = Conn (cn_requests (set_request c i r')) (cn_written c ++ out)) ->
    o <> Panic /\ forall c', o = Next c' -> exists r0 r' out, Some r = Some r0 /\ request_step i r0 r' out /\ (rq_started r0 = false -> gate c i = true) /\ c' = Conn (cn_requests (set_request c i r')) (cn_written c ++ out)).
  { intros o [H1 H2]. split; [exact H1|]. intros c' E. destruct (H2 c' E) as (r0 & r' & out & E1 & H). rewrite N in E1. exists r0, r', out. split; [symmetry; exact E1|exact H]. }
  apply WRAP. clear WRAP. destruct (rq_started r) eqn:ST.
  - destruct (rq_code r) as [|x code] eqn:CO; [split; [|intros c' E]; discriminate|].
    assert (NG : true = false -> gate c i = true) by discriminate.
    assert (RPL : forall b id, rq_id r = Some id -> (x = IReply b \/ (x = IDefault /\ b = MethodNotFound) \/ (x = IReplyMissing /\ b = DidNotReply)) ->
      continue c i (Reply r b code) <> Panic /\ forall c', continue c i (Reply r b code) = Next c' -> exists r r' out, Some r = nth_error (cn_requests c) i /\ request_step i r r' out /\ (rq_started r = false -> gate c i = true) /\ c' = Conn (cn_requests (set_request c i r')) (cn_written c ++ out)).
    { intros b id ID X. destruct (reply_cases r b code OK ST id ID) as [[E RE]|[E RE]]; rewrite RE; cbn [continue]; (split; [discriminate|]); intros c' EN; (eapply SKIP; [|discriminate|exact EN]).
      - eapply rs_skip; [exact ST|exact CO|]. right. right. right. split; [congruence|]. split; [apply Nat.leb_le in E; destruct (rq_state r); cbn in E; try lia; reflexivity|].
        destruct X as [->|[[-> _]|[-> _]]]; [left; eexists; reflexivity|auto|auto].
      - eapply rs_reply; [exact ST|exact CO|exact ID|exact X|exact E|reflexivity|]. intros L. unfold closed_ok in OK. rewrite OK. apply Nat.leb_le. exact L. }
    destruct x as [|b|b| | |].
    + unfold Parallel. destruct (Nat.leb (rank Parallel_) (rank (rq_state r))) eqn:E.
      * apply Nat.leb_le in E. rewrite ST. cbn [continue]. split; [discriminate|]. intros c' EN. eapply SKIP; [|discriminate|exact EN]. eapply rs_skip; eauto.
      * assert (CL : rq_closed r = false) by (unfold closed_ok in OK; rewrite OK; exact E). rewrite CL. apply Nat.leb_gt in E. rewrite ST. cbn [continue].
        split; [discriminate|]. intros c' EN. eapply SKIP; [|discriminate|exact EN]. eapply rs_parallel; eauto.
    + destruct (rq_id r) as [id|] eqn:ID; [eapply RPL; eauto|]. unfold Reply. rewrite ID, ST.
      destruct (Nat.leb (rank Replied) (rank (rq_state r))); cbn [continue]; (split; [discriminate|]); intros c' EN; (eapply SKIP; [|discriminate|exact EN]); rewrite <- ID;
        (eapply rs_skip; [exact ST|exact CO|]; right; right; left; split; [exact ID|discriminate]).
    + destruct (rq_id r) as [id|] eqn:ID; (split; [discriminate|]).
      * intros c' EN. injection EN as <-. exists r, (Request (Some id) (rq_state r) true (rq_closed r) code), [Response i (MarshalID id) b]. split; [congruence|].
        split; [rewrite <- ID; eapply rs_write; eauto|]. split; [congruence|reflexivity].
      * intros c' EN. eapply SKIP; [|discriminate|exact EN]. rewrite <- ID. eapply rs_skip; [exact ST|exact CO|]; right; right; left; split; [exact ID|discriminate].
    + destruct (rq_id r) as [id|] eqn:ID; [eapply RPL; eauto|]. split; [discriminate|]. intros c' EN. eapply SKIP; [|discriminate|exact EN]. rewrite <- ID.
      eapply rs_skip; [exact ST|exact CO|]; right; right; left; split; [exact ID|discriminate].
    + split; [discriminate|]. intros c' EN. eapply SKIP; [|discriminate|exact EN]. eapply rs_skip; [exact ST|exact CO|]. left. reflexivity.
    + destruct (rq_id r) as [id|] eqn:ID.
      * destruct (Nat.ltb (rank (rq_state r)) (rank Replied)) eqn:E; [eapply RPL; eauto|]. split; [discriminate|]. intros c' EN. eapply SKIP; [|discriminate|exact EN]. rewrite <- ID.
        eapply rs_skip; [exact ST|exact CO|]. right. right. right. split; [congruence|]. split; [|auto]. apply Nat.ltb_ge in E. destruct (rq_state r); cbn in E; try lia; reflexivity.
      * split; [discriminate|]. intros c' EN. eapply SKIP; [|discriminate|exact EN]. rewrite <- ID. eapply rs_skip; [exact ST|exact CO|]; right; right; left; split; [exact ID|discriminate].
  - destruct (gate c i) eqn:G; (split; [discriminate|]); [|discriminate]. intros c' EN. eapply SKIP; [|auto|exact EN]. apply rs_start. exact ST.
Qed.

(** ** The invariant of executions *)
Definition own (out : list response) (i : nat) : list response := List.filter (fun r => Nat.eqb (rs_request r) i) out.

Definition expected (script : list action) (delivered : bool) : option body := first_reply (goroutine script delivered).

Record good (h : list event) (c : conn) : Prop := {
  g_ok : forall i r, nth_error (cn_requests c) i = Some r -> request_ok r i (own (cn_written c) i);
  g_gate : forall i r, nth_error (cn_requests c) i = Some r -> rq_started r = true -> gate c i = true;
  g_passed : forall i r, nth_error (cn_requests c) i = Some r -> rq_started r = true -> passed h i \/ (rq_closed r = false /\ In IReturn (rq_code r));
  g_started : forall i r, nth_error (cn_requests c) i = Some r -> rq_started r = true -> has_started h i;
  g_writes : forall x, In x (cn_written c) -> (rs_request x < length (cn_requests c))%nat }.

Lemma closed_of_ok : forall r i out, request_ok r i out -> closed_ok r.
Proof. intros r i out O. exact (ok_closed _ _ _ O). Qed.

Lemma own_app : forall a b i, own (a ++ b) i = own a i ++ own b i.
Proof. intros. apply filter_app. Qed.
Lemma step_out : forall i r r' out, request_step i r r' out -> forall j, own out j = if Nat.eqb i j then out else [].
Proof.
  intros i r r' out RS j. destruct RS; try (destruct (Nat.eqb i j); reflexivity). cbn. destruct (Nat.eqb i j); reflexivity.
Qed.
Lemma step_id : forall i r r' out, request_step i r r' out -> rq_id r' = rq_id r /\ rq_started r' = true.
Proof. intros i r r' out RS. destruct RS; auto. Qed.
Lemma step_closed : forall i r r' out, request_step i r r' out -> closed_ok r -> (rq_closed r = true -> rq_closed r' = true) /\ (rq_started r = true -> closed_ok r').
Proof.
  intros i r r' out RS CL. destruct RS; cbn; unfold closed_ok in *; cbn; subst; auto; split; auto; intros; congruence.
Qed.

Lemma request_ok_step : forall i r r' out o, request_ok r i o -> request_step i r r' out -> request_ok r' i (o ++ out).
Proof.
  intros i r r' out o [O1 O2 O3 O4 O5 O6] RS. assert (TL : forall x code, rq_code r = x :: code -> return_first code) by (intros x code E; rewrite E in O5; exact (return_first_tail _ _ O5)). assert (NW : forall x code, rq_code r = x :: code -> no_write (rq_code r) -> no_write code /\ forall b, x <> IWrite b).
  { intros x code E NW. split; [intros b I; apply (NW b); rewrite E; right; exact I|]. intros b ->. apply (NW b). rewrite E. left. reflexivity. }
  destruct RS as [ST|x code ST CO X|code ST CO L CL|x b code cl id ST CO ID X L CL X2|b code id ST CO ID]; constructor; cbn; try rewrite app_nil_r; try discriminate; eauto.
  all: try (rewrite O1, (O2 ST); reflexivity).
  all: try (intros ID'; congruence).
  all: try (intros ID'; destruct (O4 ID') as [-> N]; split; [reflexivity|]; eapply NW; eauto; fail).
  - destruct O3 as [O3|O3]; [auto|]. rewrite CO in O3. destruct O3 as [->|O3]; [|auto].
    destruct X as [X|[[_ X]|[[_ X]|(_ & _ & [[b X]|[X|X]])]]]; try discriminate X; [|congruence]. left. rewrite O1. apply Nat.leb_le. exact X.
  - apply return_first_write; [discriminate|eauto].
  - destruct O3 as [O3|O3]; [auto|]. rewrite CO in O3. destruct O3 as [O3|O3]; [discriminate O3|auto].
Qed.

Lemma passed_more : forall h e i, passed h i -> passed (h ++ [e]) i.
Proof. intros h e i (b & a & c & x & -> & H). exists b, (a ++ [e]), c, x. split; [rewrite <- app_assoc; reflexivity|exact H]. Qed.
Lemma started_more : forall h e i, has_started h i -> has_started (h ++ [e]) i.
Proof. intros h e i (b & a & c & -> & H). exists b, (a ++ [e]), c. split; [rewrite <- app_assoc; reflexivity|exact H]. Qed.

Lemma gate_mono : forall c i r r' out, nth_error (cn_requests c) i = Some r -> (rq_closed r = true -> rq_closed r' = true) ->
  forall j, gate c j = true -> gate (Conn (cn_requests (set_request c i r')) out) j = true.
Proof.
  intros c i r r' out N M [|j] G; [reflexivity|]. cbn [gate cn_requests] in *. destruct (Nat.eq_dec i j) as [->|NE].
  - rewrite (set_request_at _ _ _ _ N). rewrite N in G. auto.
  - rewrite (set_request_other _ _ _ _ _ N NE). exact G.
Qed.

Lemma arrive_cases : forall c id script delivered,
  arrive c id script delivered = c \/ exists id', arrive c id script delivered = Conn (cn_requests c ++ [Request id' Waiting false false (goroutine script delivered)]) (cn_written c).
Proof.
  intros c id script delivered. unfold arrive. destruct id as [j|]; [|right; eexists; reflexivity].
  destruct j as [z|s| |]; cbn [UnmarshalID]; try (right; eexists; reflexivity); [destruct (int64 z); [right; eexists; reflexivity|left; reflexivity]|left; reflexivity].
Qed.
Lemma goroutine_no_write : forall script delivered, no_write (goroutine script delivered).
Proof.
  intros script delivered b I. unfold goroutine in I. apply in_app_or in I as [I|I]; [apply in_map_iff in I as (a & E & _); destruct a; discriminate E|].
  destruct delivered; cbn in I; repeat destruct I as [I|I]; try discriminate I; destruct I.
Qed.
Lemma goroutine_parallel : forall script delivered, In IParallel (goroutine script delivered) /\ In IReturn (goroutine script delivered).
Proof. intros script delivered. unfold goroutine. split; apply in_or_app; right; destruct delivered; cbn; tauto. Qed.

Lemma goroutine_return_first : forall script delivered, return_first (goroutine script delivered).
Proof.
  intros script delivered. unfold goroutine. induction script as [|a script IH].
  - assert (E : return_first [IReplyMissing; IParallel]).
    { intros [|x b] a E; inversion E; subst; [intros [I|I]; [discriminate I|destruct I]|].
      destruct b as [|y b]; [discriminate|]. inversion E as [[E1 E2]]. destruct b; discriminate. }
    destruct delivered; cbn; repeat (apply return_first_write; [discriminate|]); exact E.
  - cbn [map app]. apply return_first_write; [destruct a; discriminate|exact IH].
Qed.

Theorem executions_good : forall h c, execution h c -> good h c.
Proof.
  induction 1 as [|h c id script delivered EX [G1 G2 G3 G4 G5]|h c i c' EX [G1 G2 G3 G4 G5] ST].
  - constructor; try (intros [|i] r E; discriminate E). intros x [].
  - destruct (arrive_cases c id script delivered) as [->|(id' & ->)].
    + constructor; auto; intros i r N S; [destruct (G3 i r N S); [left; apply passed_more|right]; assumption|apply started_more; eauto].
    + set (r0 := Request id' Waiting false false (goroutine script delivered)).
      assert (CA : forall i r, nth_error (cn_requests c ++ [r0]) i = Some r -> nth_error (cn_requests c) i = Some r \/ (i = length (cn_requests c) /\ r = r0)).
      { intros i r N. destruct (Nat.lt_ge_cases i (length (cn_requests c))) as [L|L]; [rewrite nth_error_app1 in N by exact L; auto|].
        rewrite nth_error_app2 in N by exact L. destruct (i - length (cn_requests c))%nat as [|k] eqn:K; cbn in N; [|destruct k; discriminate N].
        right. split; [lia|congruence]. }
      assert (GM : forall i, gate c i = true -> gate (Conn (cn_requests c ++ [r0]) (cn_written c)) i = true).
      { intros [|i] G; [reflexivity|]. cbn [gate cn_requests] in *. destruct (nth_error (cn_requests c) i) as [r|] eqn:N; [|discriminate G].
        rewrite nth_error_app1 by (apply nth_error_Some; congruence). rewrite N. exact G. }
      constructor; cbn [cn_requests cn_written].
      * intros i r N. apply CA in N as [N|[-> ->]]; [auto|].
        assert (EM : own (cn_written c) (length (cn_requests c)) = []).
        { unfold own. destruct (List.filter _ (cn_written c)) as [|x l] eqn:F; [reflexivity|]. exfalso.
          assert (I : In x (List.filter (fun r => Nat.eqb (rs_request r) (length (cn_requests c))) (cn_written c))) by (rewrite F; left; reflexivity).
          apply filter_In in I as [I E]. apply Nat.eqb_eq in E. apply G5 in I. lia. }
        constructor; cbn; auto.
        -- right. apply goroutine_parallel.
        -- intros _. split; [exact EM|apply goroutine_no_write].
        -- apply goroutine_return_first.
        -- intros _. apply goroutine_parallel.
      * intros i r N S. apply CA in N as [N|[-> ->]]; [|discriminate S]. apply GM. eauto.
      * intros i r N S. apply CA in N as [N|[-> ->]]; [|discriminate S]. destruct (G3 i r N S); [left; apply passed_more; assumption|auto].
      * intros i r N S. apply CA in N as [N|[-> ->]]; [|discriminate S]. apply started_more. eauto.
      * intros x I. rewrite app_length. apply G5 in I. lia.
  - destruct (step_cases c i) as [_ SC]; [intros r N; eapply closed_of_ok; apply G1; exact N|].
    destruct (SC c' ST) as (r & r' & out & N & RS & GT & ->).
    assert (CL := step_closed _ _ _ _ RS (closed_of_ok _ _ _ (G1 i r N))). destruct (step_id _ _ _ _ RS) as [IDE STE].
    assert (OWN : forall j, own (cn_written c ++ out) j = own (cn_written c) j ++ (if Nat.eqb i j then out else [])).
    { intros j. rewrite own_app. f_equal. eapply step_out. exact RS. }
    constructor; cbn [cn_written].
    + intros j q Nj. cbn [cn_requests] in Nj. rewrite OWN. destruct (Nat.eq_dec i j) as [<-|NE].
      * rewrite (set_request_at _ _ _ _ N) in Nj. injection Nj as <-. rewrite Nat.eqb_refl. eapply request_ok_step; eauto.
      * rewrite (set_request_other _ _ _ _ _ N NE) in Nj. apply Nat.eqb_neq in NE. rewrite NE, app_nil_r. auto.
    + intros j q Nj S. cbn [cn_requests] in Nj. apply (gate_mono c i r); [exact N|apply CL|]. destruct (Nat.eq_dec i j) as [<-|NE].
      * destruct (rq_started r) eqn:SR; [eapply G2; eauto|auto].
      * rewrite (set_request_other _ _ _ _ _ N NE) in Nj. eauto.
    + intros j q Nj S. cbn [cn_requests] in Nj. destruct (Nat.eq_dec i j) as [<-|NE].
      * rewrite (set_request_at _ _ _ _ N) in Nj. injection Nj as <-.
        destruct (rq_started r) eqn:SR.
        -- destruct (G3 i r N SR) as [P|[CF IR]]; [left; apply passed_more; exact P|].
           assert (HERE : forall x code, rq_code r = x :: code -> (x = IParallel \/ (exists b, x = IReply b) \/ x = IDefault \/ x = IReturn) -> passed (h ++ [Steps i]) i).
           { intros x code CO X. exists h, [], c, x. split; [reflexivity|]. split; [exact EX|]. split; [exists r, code; auto|exact X]. }
           destruct RS as [S0|x code S0 CO X|code S0 CO L CL'|x b code cl id S0 CO ID X L CL' X2|b code id S0 CO ID]; cbn.
           ++ congruence.
           ++ rewrite CO in IR. destruct IR as [->|IR]; [left; eapply HERE; eauto|]. right. split; [exact CF|exact IR].
           ++ left. eapply HERE; eauto.
           ++ destruct X as [->|[[-> _]|[-> _]]]; [left; eapply HERE; eauto|left; eapply HERE; eauto|].
              rewrite CO in IR. destruct IR as [IR|IR]; [discriminate IR|]. exfalso.
              exact (ok_order _ _ _ (G1 i r N) [] _ CO IR).
           ++ right. split; [exact CF|]. rewrite CO in IR. destruct IR as [IR|IR]; [discriminate IR|exact IR].
        -- right. destruct RS as [S0|x code S0|code S0|x b code cl id S0|b code id S0]; try congruence. cbn. destruct (G1 i r N) as [O1 O2 _ _ _ O6].
           rewrite (O2 SR) in O1. split; [exact O1|]. exact (O6 SR).
      * rewrite (set_request_other _ _ _ _ _ N NE) in Nj. destruct (G3 j q Nj S); [left; apply passed_more; assumption|auto].
    + intros j q Nj S. cbn [cn_requests] in Nj. destruct (Nat.eq_dec i j) as [<-|NE].
      * destruct (rq_started r) eqn:SR; [apply started_more; eauto|]. exists h, [], c. split; [reflexivity|]. split; [exact EX|]. exists r, (Conn (cn_requests (set_request c i r')) (cn_written c ++ out)). auto.
      * rewrite (set_request_other _ _ _ _ _ N NE) in Nj. apply started_more. eauto.
    + intros x I. cbn [cn_requests]. rewrite (set_request_length _ _ _ _ N). apply in_app_or in I as [I|I]; [apply G5; exact I|].
      destruct RS; try destruct I. destruct H2. cbn. apply nth_error_Some. congruence. destruct H2.
Qed.

(** ** Calls are answered once *)
Lemma first_reply_goroutine : forall script delivered, first_reply (goroutine script delivered) = Some (answer script delivered).
Proof.
  intros script delivered. unfold goroutine, answer. induction script as [|[|b] script IH]; cbn; [destruct delivered; reflexivity|exact IH|reflexivity].
Qed.

Lemma stage_step : forall id b r i o r' out, request_ok r i o -> rq_id r = Some id -> call_stage id b r i o -> request_step i r r' out -> call_stage id b r' i (o ++ out).
Proof.
  intros id b r i o r' out [O1 O2 O3 O4 O5 O6] ID CS RS.
  assert (TLW : forall x code, rq_code r = x :: code -> no_write (rq_code r) -> no_write code).
  { intros x code E NW b' I. apply (NW b'). rewrite E. right. exact I. }
  destruct RS as [ST|x code ST CO X|code ST CO L CL|x b' code cl id' ST CO ID' X L CL X2|b' code id' ST CO ID'].
  - rewrite app_nil_r. destruct CS as [L NW FR|code S CO NW|S NW]; [|rewrite (O2 ST) in S; discriminate S|rewrite (O2 ST) in S; discriminate S].
    apply not_replied; cbn; auto.
  - rewrite app_nil_r. destruct CS as [L NW FR|code' S CO' NW|S NW].
    + apply not_replied; cbn; eauto. rewrite CO in FR.
      destruct X as [->|[[-> _]|[[X _]|(_ & X & _)]]]; [exact FR|exact FR|congruence|]. rewrite X in L. cbn in L. lia.
    + exfalso. rewrite CO' in CO. injection CO as <- <-. destruct X as [X|[[X _]|[[X _]|(_ & _ & [[b' X]|[X|X]])]]]; try discriminate X. congruence.
    + apply replied; cbn; eauto.
  - rewrite app_nil_r. destruct CS as [L' NW FR|code' S CO' NW|S NW]; [|rewrite S in L; cbn in L; lia|rewrite S in L; cbn in L; lia].
    apply not_replied; cbn; eauto. rewrite CO in FR. exact FR.
  - rewrite app_nil_r. destruct CS as [L' NW FR|code' S CO' NW|S NW]; [|rewrite S in L; cbn in L; lia|rewrite S in L; cbn in L; lia].
    assert (b' = b) as -> by (rewrite CO in FR; destruct X as [->|[[-> ->]|[-> ->]]]; cbn in FR; congruence).
    eapply replying; cbn; [reflexivity|reflexivity|]. eauto.
  - destruct CS as [L' NW FR|code' S CO' NW|S NW].
    + exfalso. apply (NW b'). rewrite CO. left. reflexivity.
    + rewrite CO in CO'. injection CO' as -> ->. assert (id' = id) as -> by congruence. apply replied; cbn; auto.
    + exfalso. apply (NW b'). rewrite CO. left. reflexivity.
Qed.

Definition tracks (h : list event) (c : conn) : Prop :=
  length (cn_requests c) = length (arrivals h)
  /\ forall i id script delivered, nth_error (arrivals h) i = Some (id, script, delivered) ->
     exists r, nth_error (cn_requests c) i = Some r
     /\ match id with
        | None => rq_id r = None
        | Some j => exists id', rq_id r = Some id' /\ MarshalID id' = j /\ call_stage id' (answer script delivered) r i (responses c i)
        end.
Lemma arrivals_app : forall h e, arrivals (h ++ [e]) = arrivals h ++ arrivals [e].
Proof. intros. unfold arrivals. apply flat_map_app. Qed.
Lemma usual_decodes : forall j, usual_id j -> exists id, UnmarshalID j = Some id /\ MarshalID id = j.
Proof.
  intros [z|s| |] U; cbn in U; [| |destruct U|destruct U]; cbn.
  - unfold int64. assert (E : (Z.leb (- 2 ^ 63) z && Z.ltb z (2 ^ 63))%Z = true) by (apply andb_true_intro; split; [apply Z.leb_le|apply Z.ltb_lt]; lia).
    rewrite E. eexists. split; reflexivity.
  - eexists. split; [reflexivity|]. unfold MarshalID. cbn. destruct s; [congruence|reflexivity].
Qed.
Lemma arrive_usual : forall c id script delivered, usual (Arrives id script delivered) ->
  exists id', arrive c id script delivered = Conn (cn_requests c ++ [Request id' Waiting false false (goroutine script delivered)]) (cn_written c)
  /\ match id with None => id' = None | Some j => exists x, id' = Some x /\ MarshalID x = j end.
Proof.
  intros c [j|] script delivered U; [|exists None; split; reflexivity]. cbn in U. destruct (usual_decodes j U) as (x & E & M).
  exists (Some x). split; [|eauto]. unfold arrive. destruct j; [| |destruct U|]; rewrite E; reflexivity.
Qed.

Lemma executions_track : forall h c, execution h c -> Forall usual h -> tracks h c.
Proof.
  induction 1 as [|h c id script delivered EX IH|h c i c' EX IH ST]; intros U.
  - split; [reflexivity|]. intros [|i] id script d E; discriminate E.
  - apply Forall_app in U as [U1 U2]. specialize (IH U1) as [L IH]. inversion U2 as [|? ? U3 _]; subst.
    assert (G := executions_good _ _ EX). destruct (arrive_usual c id script delivered U3) as (id' & -> & M). unfold tracks. rewrite arrivals_app. cbn [arrivals flat_map app]. split.
    { cbn [cn_requests]. rewrite !app_length, L. reflexivity. }
    intros i jd scr d N. destruct (Nat.lt_ge_cases i (length (arrivals h))) as [LT|GE].
    + rewrite nth_error_app1 in N by exact LT. destruct (IH _ _ _ _ N) as (r & Nr & R). exists r. cbn [cn_requests]. split; [rewrite nth_error_app1 by lia; exact Nr|exact R].
    + rewrite nth_error_app2 in N by exact GE. destruct (i - length (arrivals h))%nat as [|k] eqn:K; [|destruct k; discriminate N]. injection N as <- <- <-.
      assert (i = length (cn_requests c)) as -> by lia. eexists. cbn [cn_requests]. split; [rewrite nth_error_app2, Nat.sub_diag by lia; reflexivity|].
      destruct id as [j|]; [|exact M]. destruct M as (x & -> & M). exists x. split; [reflexivity|]. split; [exact M|].
      assert (EM : responses (Conn (cn_requests c ++ [Request (Some x) Waiting false false (goroutine script delivered)]) (cn_written c)) (length (cn_requests c)) = []).
      { unfold responses. cbn [cn_written]. destruct (List.filter _ (cn_written c)) as [|y l] eqn:F; [reflexivity|]. exfalso.
        assert (I : In y (List.filter (fun r => Nat.eqb (rs_request r) (length (cn_requests c))) (cn_written c))) by (rewrite F; left; reflexivity).
        apply filter_In in I as [I E]. apply Nat.eqb_eq in E. apply (g_writes _ _ G) in I. lia. }
      rewrite EM. apply not_replied; cbn; [lia|apply goroutine_no_write|apply first_reply_goroutine].
  - apply Forall_app in U as [U1 _]. specialize (IH U1) as [L IH]. assert (G := executions_good _ _ EX). unfold tracks. rewrite arrivals_app. cbn [arrivals flat_map app]. rewrite app_nil_r.
    destruct (step_cases c i) as [_ SC]; [intros r N; eapply closed_of_ok; apply (g_ok _ _ G); exact N|].
    destruct (SC c' ST) as (r & r' & out & N & RS & GT & ->). split; [cbn [cn_requests]; rewrite (set_request_length _ _ _ _ N); exact L|].
    intros j id script d A. destruct (IH _ _ _ _ A) as (q & Nq & Q). change (cn_requests (Conn (cn_requests (set_request c i r')) (cn_written c ++ out))) with (cn_requests (set_request c i r')).
    change (responses (Conn (cn_requests (set_request c i r')) (cn_written c ++ out)) j) with (own (cn_written c ++ out) j).
    rewrite own_app, (step_out _ _ _ _ RS j). destruct (Nat.eq_dec i j) as [<-|NE].
    + rewrite Nat.eqb_refl. rewrite N in Nq. injection Nq as <-. exists r'. split; [eapply set_request_at; exact N|]. destruct (step_id _ _ _ _ RS) as [ID _]. rewrite ID.
      destruct id as [jd|]; [|exact Q]. destruct Q as (x & E1 & E2 & CS). exists x. split; [exact E1|]. split; [exact E2|]. eapply stage_step; eauto. exact (g_ok _ _ G i r N).
    + exists q. split; [rewrite (set_request_other _ _ _ _ _ N NE); exact Nq|]. apply Nat.eqb_neq in NE. rewrite NE, app_nil_r. exact Q.
Qed.

Lemma stage_responses : forall id b r i o, call_stage id b r i o -> o = [] \/ o = [Response i (MarshalID id) b].
Proof. intros id b r i o CS. destruct CS; auto. Qed.

(** ** When nothing is left to do *)
Lemma rest_done : forall h c, execution h c -> at_rest c -> forall i r, nth_error (cn_requests c) i = Some r -> rq_started r = true /\ rq_code r = [].
Proof.
  intros h c EX R. assert (G := executions_good _ _ EX). induction i as [i IH] using lt_wf_ind. intros r N.
  assert (GT : gate c i = true).
  { destruct i as [|k]; [reflexivity|]. cbn [gate]. assert (L : (k < length (cn_requests c))%nat) by (assert (S k < length (cn_requests c))%nat by (apply nth_error_Some; congruence); lia).
    destruct (nth_error (cn_requests c) k) as [q|] eqn:Nq; [|apply nth_error_None in Nq; lia]. destruct (IH k (Nat.lt_succ_diag_r k) q Nq) as [_ CO].
    destruct (ok_end _ _ _ (g_ok _ _ G k q Nq)) as [C|C]; [exact C|]. rewrite CO in C. destruct C. }
  specialize (R i). unfold step in R. rewrite N, GT in R. destruct (rq_started r); [|discriminate R]. split; [reflexivity|].
  destruct (rq_code r) as [|[|b|b| | |] code]; [reflexivity| | | | | |]; exfalso.
  - unfold continue in R. destruct (Parallel r code); discriminate R.
  - unfold continue in R. destruct (Reply r b code); discriminate R.
  - destruct (rq_id r); discriminate R.
  - unfold continue in R. destruct (rq_id r); [destruct (Reply r MethodNotFound code)|]; discriminate R.
  - discriminate R.
  - unfold continue in R. destruct (rq_id r); [destruct (Nat.ltb (rank (rq_state r)) (rank Replied)); [destruct (Reply r DidNotReply code)|]|]; discriminate R.
Qed.
Lemma stage_done : forall id b r i o, call_stage id b r i o -> rq_code r = [] -> o = [Response i (MarshalID id) b].
Proof. intros id b r i o CS E. destruct CS as [L NW FR|code S CO NW|S NW]; [rewrite E in FR; discriminate FR|congruence|reflexivity]. Qed.

(** ** The goroutines come to an end *)
Definition total_cost (c : conn) : nat := list_sum (map cost (cn_requests c)).
Lemma list_sum_set : forall c i r r' out, nth_error (cn_requests c) i = Some r ->
  (total_cost (Conn (cn_requests (set_request c i r')) out) + cost r = total_cost c + cost r')%nat.
Proof.
  intros c i r r' out N. unfold total_cost, set_request. cbn [cn_requests]. destruct (nth_error_split _ _ N) as (a & b & -> & <-).
  rewrite firstn_app, Nat.sub_diag, firstn_all, app_nil_r. cbn [firstn].
  rewrite skipn_app, (skipn_all2 a) by lia. replace (S (length a) - length a)%nat with 1%nat by lia. cbn [skipn app]. rewrite ?app_nil_r.
  rewrite !map_app, !list_sum_app. cbn. lia.
Qed.
Lemma step_costs : forall i r r' out, request_step i r r' out -> (cost r' < cost r)%nat.
Proof.
  intros i r r' out RS. unfold cost. destruct RS as [ST|x code ST CO X|code ST CO L CL|x b code cl id ST CO ID X L CL X2|b code id ST CO ID]; cbn [rq_started rq_code]; rewrite ST; try rewrite CO; cbn [map]; unfold list_sum; cbn [fold_right].
  - lia.
  - destruct x; cbn [weight]; lia.
  - cbn [weight]. lia.
  - destruct X as [->|[[-> _]|[-> _]]]; cbn [weight]; lia.
  - cbn [weight]. lia.
Qed.

(** ** The order of the starts *)
Lemma started_before : forall h c i, execution h c -> gate c i = true -> forall j, (j < i)%nat ->
  exists r, nth_error (cn_requests c) j = Some r /\ rq_started r = true /\ rq_closed r = true.
Proof.
  intros h c i EX. assert (G := executions_good _ _ EX). induction i as [|i IH]; intros GT j L; [lia|].
  cbn [gate] in GT. destruct (nth_error (cn_requests c) i) as [r|] eqn:N; [|discriminate GT].
  assert (S : rq_started r = true).
  { destruct (rq_started r) eqn:S; [reflexivity|]. destruct (g_ok _ _ G i r N) as [O1 O2 _ _ _ _]. rewrite (O2 S) in O1. cbn in O1. congruence. }
  destruct (Nat.eq_dec j i) as [->|NE]; [eauto|]. apply IH; [exact (g_gate _ _ G i r N S)|lia].
Qed.
Lemma started_now : forall h c i, execution h c -> has_started h i -> exists r, nth_error (cn_requests c) i = Some r /\ rq_started r = true.
Proof.
  induction 1 as [|h c id script delivered EX IH|h c k c' EX IH ST]; intros (before & after & c0 & E & EX0 & S).
  - destruct before; discriminate E.
  - assert (H : has_started h i).
    { destruct (exists_last (l := Steps i :: after)) as (l & x & E2); [discriminate|]. rewrite E2, app_assoc in E. apply app_inj_tail in E as [-> <-].
      destruct l as [|y l]; [injection E2 as E2 _; discriminate E2|]. injection E2 as <- ->. exists before, l, c0. auto. }
    destruct (IH H) as (r & N & R). exists r. split; [|exact R]. destruct (arrive_cases c id script delivered) as [->|(id' & ->)]; [exact N|].
    cbn [cn_requests]. rewrite nth_error_app1 by (apply nth_error_Some; congruence). exact N.
  - assert (G := executions_good _ _ EX). destruct (step_cases c k) as [_ SC]; [intros r N; eapply closed_of_ok; apply (g_ok _ _ G); exact N|].
    destruct (SC c' ST) as (r & r' & out & N & RS & GT & ->). destruct (step_id _ _ _ _ RS) as [_ SR]. cbn [cn_requests].
    destruct (Nat.eq_dec k i) as [->|NE]; [exists r'; split; [eapply set_request_at; exact N|exact SR]|].
    rewrite (set_request_other _ _ _ _ _ N NE). apply IH. destruct (exists_last (l := Steps i :: after)) as (l & x & E2); [discriminate|].
    rewrite E2, app_assoc in E. apply app_inj_tail in E as [-> <-]. destruct l as [|y l]; [injection E2 as E2 _; congruence|]. injection E2 as <- ->. exists before, l, c0. auto.
Qed.
