(** Invariants of outgoing calls. *)
From Coq Require Import String.
From Coq Require Import List Bool ZArith Lia.
From Verif Require Import Base.Bytes Base.BytesProofs Rpc.ConnModel Rpc.ConnProofs Rpc.CallModel Rpc.CallSpec.
Import ListNotations.
Open Scope list_scope.

Lemma id_eqb_eq : forall a b, id_eqb a b = true <-> a = b.
Proof.
  intros [n z] [n' z']. unfold id_eqb. cbn. rewrite andb_true_iff, Z.eqb_eq, str_eqb_eq. split; [intros [-> ->]; reflexivity|intros E; injection E as -> ->; auto].
Qed.
Lemma wrap64_inj : forall a b, (Z.abs (a - b) < 2 ^ 64)%Z -> wrap64 a = wrap64 b -> a = b.
Proof.
  intros a b L E. unfold wrap64 in E. assert (E' : ((a + 2 ^ 63) mod 2 ^ 64 = (b + 2 ^ 63) mod 2 ^ 64)%Z) by lia. clear E.
  assert (D1 := Z.div_mod (a + 2 ^ 63) (2 ^ 64) ltac:(lia)). assert (D2 := Z.div_mod (b + 2 ^ 63) (2 ^ 64) ltac:(lia)). rewrite E' in D1.
  assert (Z.abs (2 ^ 64 * ((a + 2 ^ 63) / 2 ^ 64 - (b + 2 ^ 63) / 2 ^ 64)) < 2 ^ 64)%Z by (rewrite Z.mul_sub_distr_l; lia).
  assert ((a + 2 ^ 63) / 2 ^ 64 - (b + 2 ^ 63) / 2 ^ 64 = 0)%Z by nia. lia.
Qed.
Lemma call_id_inj : forall n i j, (Z.of_nat n <= 2 ^ 64)%Z -> (i < n)%nat -> (j < n)%nat -> call_id i = call_id j -> i = j.
Proof. intros n i j B I J E. unfold call_id in E. injection E as E. apply wrap64_inj in E; lia. Qed.

Lemma pending_get_some : forall m id k, pending_get m id = Some k -> In (id, k) m.
Proof.
  intros m id k. unfold pending_get. destruct (find _ m) as [[id' k']|] eqn:F; [|discriminate]. cbn. intros E. injection E as ->.
  apply find_some in F as [I E]. cbn in E. apply id_eqb_eq in E as ->. exact I.
Qed.
Lemma pending_get_in : forall m id k, In (id, k) m -> exists k', pending_get m id = Some k' /\ In (id, k') m.
Proof.
  intros m id k I. destruct (pending_get m id) as [k'|] eqn:G; [eauto using pending_get_some|]. exfalso. unfold pending_get in G.
  destruct (find _ m) eqn:F; [discriminate G|]. apply (find_none _ _ F) in I. cbn in I. assert (id_eqb id id = true) by (apply id_eqb_eq; reflexivity). congruence.
Qed.
Lemma pending_delete_in : forall m id id' k, In (id', k) (pending_delete m id) <-> In (id', k) m /\ id' <> id.
Proof.
  intros m id id' k. unfold pending_delete. rewrite filter_In. cbn. rewrite negb_true_iff. split; intros [I E]; (split; [exact I|]).
  - intros ->. assert (id_eqb id id = true) by (apply id_eqb_eq; reflexivity). congruence.
  - destruct (id_eqb id' id) eqn:X; [|reflexivity]. apply id_eqb_eq in X. contradiction.
Qed.

Lemma set_phase_at : forall s k p0 p, nth_error (cs_calls s) k = Some p0 -> nth_error (set_phase s k p) k = Some p.
Proof.
  intros s k p0 p H. unfold set_phase. assert (L : (k < length (cs_calls s))%nat) by (apply nth_error_Some; congruence).
  rewrite nth_error_app2; rewrite firstn_length_le by lia; [|lia]. rewrite Nat.sub_diag. reflexivity.
Qed.
Lemma set_phase_other : forall s k j p0 p, nth_error (cs_calls s) k = Some p0 -> k <> j -> nth_error (set_phase s k p) j = nth_error (cs_calls s) j.
Proof.
  intros s k j p0 p H NE. unfold set_phase. assert (L : (k < length (cs_calls s))%nat) by (apply nth_error_Some; congruence).
  destruct (Nat.lt_ge_cases j k) as [LT|GE].
  - rewrite nth_error_app1 by (rewrite firstn_length_le by lia; lia). apply nth_error_firstn. exact LT.
  - rewrite nth_error_app2; rewrite firstn_length_le by lia; [|lia]. destruct (j - k)%nat as [|q] eqn:K; [lia|]. cbn [nth_error].
    rewrite nth_error_skipn. f_equal. lia.
Qed.
Lemma set_phase_length : forall s k p0 p, nth_error (cs_calls s) k = Some p0 -> length (set_phase s k p) = length (cs_calls s).
Proof.
  intros s k p0 p H. unfold set_phase. assert (L : (k < length (cs_calls s))%nat) by (apply nth_error_Some; congruence).
  rewrite app_length. cbn [length]. rewrite firstn_length_le, skipn_length by lia. lia.
Qed.

(** the number of calls never shrinks *)
Lemma calls_grow : forall s e s', call_step s e = Some s' -> (length (cs_calls s) <= length (cs_calls s'))%nat.
Proof.
  intros s e s' E. destruct e as [|k|k ok|k|k|id p|]; cbn in E.
  - injection E as <-. cbn. rewrite app_length. lia.
  - destruct (nth_error (cs_calls s) k) as [[]|] eqn:N; try discriminate E. injection E as <-. cbn. rewrite (set_phase_length _ _ _ _ N). lia.
  - destruct (nth_error (cs_calls s) k) as [[]|] eqn:N; try discriminate E. injection E as <-. cbn. rewrite (set_phase_length _ _ _ _ N). lia.
  - destruct (nth_error (cs_calls s) k) as [[]|] eqn:N; try discriminate E. injection E as <-. cbn. rewrite (set_phase_length _ _ _ _ N). lia.
  - destruct (nth_error (cs_calls s) k) as [[]|] eqn:N; try discriminate E. injection E as <-. cbn. rewrite (set_phase_length _ _ _ _ N). lia.
  - destruct (cs_reader s); [|discriminate E]. destruct (pending_get (cs_pending s) id); injection E as <-; cbn; lia.
  - destruct (cs_reader s) as [|[k|] id p]; try discriminate E. destruct (nth_error (cs_calls s) k) as [[]|] eqn:N; try discriminate E. injection E as <-. cbn. rewrite (set_phase_length _ _ _ _ N). lia.
Qed.

(** what the history says about the phase of a call *)
Definition phase_ok (h : list call_event) (k : nat) (p : phase) : Prop :=
  match p with
  | CNew | CPending => forall b, ~ In (EWrite k b) h
  | CWaiting => ~ In (EWrite k false) h
  | CLeaving None | CReturned None => In (EWrite k false) h /\ ~ In (EWrite k true) h \/ In (ECancel k) h
  | CLeaving (Some r) | CReturned (Some r) => In (EResponse (call_id k) r) h
  end.
Record calls_ok (h : list call_event) (s : calls) : Prop := {
  co_phase : forall k p, nth_error (cs_calls s) k = Some p -> phase_ok h k p;
  co_none : forall k, (length (cs_calls s) <= k)%nat -> forall b, ~ In (EWrite k b) h;
  co_pending : forall id k, In (id, k) (cs_pending s) -> id = call_id k /\ (k < length (cs_calls s))%nat /\ got s k = None
                 /\ nth_error (cs_calls s) k <> Some CNew;
  co_sending : forall k id p, cs_reader s = Sending (Some k) id p -> id = call_id k /\ (k < length (cs_calls s))%nat /\ got s k = None
                 /\ ~ In (id, k) (cs_pending s) /\ nth_error (cs_calls s) k <> Some CNew;
  co_response : forall c id p, cs_reader s = Sending c id p -> In (EResponse id p) h;
  co_waiting : forall k, (nth_error (cs_calls s) k = Some CPending \/ nth_error (cs_calls s) k = Some CWaiting) ->
                 (exists p, In (EResponse (call_id k) p) h) \/ In (call_id k, k) (cs_pending s) }.

Lemma in_snoc : forall {A} (x y : A) l, In x (l ++ [y]) <-> In x l \/ y = x.
Proof. intros. rewrite in_app_iff. cbn. tauto. Qed.

Lemma phase_ok_more : forall h k p e, phase_ok h k p -> (forall b, e <> EWrite k b) -> phase_ok (h ++ [e]) k p.
Proof.
  intros h k p e H W. destruct p as [| | |[r|]|[r|]]; cbn in *; setoid_rewrite in_snoc.
  - intros b [I|I]; [exact (H b I)|exact (W b I)].
  - intros b [I|I]; [exact (H b I)|exact (W b I)].
  - intros [I|I]; [exact (H I)|exact (W false I)].
  - auto.
  - destruct H as [[H1 H2]|H]; [left; split; [auto|]; intros [I|I]; [exact (H2 I)|exact (W true I)]|auto].
  - auto.
  - destruct H as [[H1 H2]|H]; [left; split; [auto|]; intros [I|I]; [exact (H2 I)|exact (W true I)]|auto].
Qed.
Lemma got_set_other : forall s s' k j p0 p, nth_error (cs_calls s) k = Some p0 -> cs_calls s' = set_phase s k p -> k <> j -> got s' j = got s j.
Proof. intros s s' k j p0 p N E NE. unfold got. rewrite E, (set_phase_other _ _ _ _ _ N NE). reflexivity. Qed.

(** an event of one call *)
Definition event_call (e : call_event) : option nat :=
  match e with ERegister k | EWrite k _ | ECancel k | EReturn k => Some k | _ => None end.

Lemma call_event_ok : forall h s e k p p' m rd, calls_ok h s -> (Z.of_nat (length (cs_calls s)) <= 2 ^ 64)%Z ->
  nth_error (cs_calls s) k = Some p ->
  (forall j, j <> k -> forall b, e <> EWrite j b) ->
  phase_ok (h ++ [e]) k p' -> p' <> CNew ->
  (forall id j, In (id, j) m -> In (id, j) (cs_pending s) \/ (id = call_id k /\ j = k /\ p = CNew)) ->
  (forall j, j <> k -> (j < length (cs_calls s))%nat -> In (call_id j, j) (cs_pending s) -> In (call_id j, j) m) ->
  ((p' = CPending \/ p' = CWaiting) -> (exists q, In (EResponse (call_id k) q) h) \/ In (call_id k, k) m) ->
  ((forall r, p' <> CLeaving (Some r) /\ p' <> CReturned (Some r)) /\ rd = cs_reader s
   \/ rd = Reading /\ (forall id j, In (id, j) m -> j <> k)
   \/ rd = cs_reader s /\ (exists r, p = CLeaving (Some r)) /\ (forall id j, In (id, j) m -> j <> k)) ->
  calls_ok (h ++ [e]) (Calls (set_phase s k p') m rd).
Proof.
  intros h s e k p p' m rd [O1 O2 O3 O4 O5 O6] B N OTH PH NN M1 M2 W RD.
  set (s' := Calls (set_phase s k p') m rd).
  assert (LK : (k < length (cs_calls s))%nat) by (apply nth_error_Some; congruence).
  assert (GO : forall j, j <> k -> got s' j = got s j) by (intros j NE; eapply got_set_other; eauto; reflexivity).
  assert (LEN : length (cs_calls s') = length (cs_calls s)) by (cbn; eapply set_phase_length; eauto).
  assert (NK : (forall r, p' <> CLeaving (Some r) /\ p' <> CReturned (Some r)) -> got s' k = None).
  { intros X. unfold got, s'. cbn [cs_calls]. rewrite (set_phase_at _ _ _ _ N). destruct p' as [| | |[r|]|[r|]]; try reflexivity; destruct (X r); congruence. }
  assert (RDI : forall c id q, rd = Sending c id q -> cs_reader s = Sending c id q) by (intros c id q E; destruct RD as [[_ ->]|[[-> _]|[-> _]]]; [exact E|discriminate E|exact E]).
  constructor.
  - intros j q Nj. unfold s' in Nj; cbn [cs_calls] in Nj. destruct (Nat.eq_dec k j) as [<-|NE].
    + rewrite (set_phase_at _ _ _ _ N) in Nj. injection Nj as <-. exact PH.
    + rewrite (set_phase_other _ _ _ _ _ N NE) in Nj. apply phase_ok_more; auto.
  - intros j L b I. rewrite LEN in L. apply in_snoc in I as [I|I]; [exact (O2 j L b I)|]. exact (OTH j ltac:(lia) b I).
  - intros id j I. unfold s' in I; cbn [cs_pending] in I. rewrite LEN.
    assert (G : j <> k -> id = call_id j /\ (j < length (cs_calls s))%nat /\ got s' j = None /\ nth_error (cs_calls s') j <> Some CNew).
    { intros NE. destruct (M1 id j I) as [I'|(E1 & E2 & _)]; [|contradiction]. destruct (O3 id j I') as (A & B' & C & D). rewrite GO by exact NE. repeat split; auto.
      unfold s'; cbn [cs_calls]. rewrite (set_phase_other _ _ _ _ _ N) by auto. exact D. }
    destruct (Nat.eq_dec j k) as [->|NE]; [|exact (G NE)]. clear G.
    destruct RD as [[X _]|[[_ X]|(_ & _ & X)]]; [|destruct (X id k I eq_refl)|destruct (X id k I eq_refl)].
    assert (id = call_id k) by (destruct (M1 id k I) as [I'|(E1 & _)]; [apply (O3 id k I')|exact E1]).
    repeat split; auto. unfold s'; cbn [cs_calls]. rewrite (set_phase_at _ _ _ _ N). congruence.
  - intros j id q E. unfold s' in E; cbn [cs_reader] in E. assert (E' := RDI _ _ _ E). destruct (O4 _ _ _ E') as (A & B' & C & D & F). rewrite LEN. change (cs_pending s') with m.
    assert (PN : ~ In (id, j) m). { intros I. destruct (M1 id j I) as [I'|(E1 & -> & ->)]; [exact (D I')|]. apply F. exact N. }
    destruct (Nat.eq_dec j k) as [->|NE].
    + repeat split; auto; [|unfold s'; cbn [cs_calls]; rewrite (set_phase_at _ _ _ _ N); congruence].
      destruct RD as [[X _]|[[-> _]|(-> & [r ->] & _)]]; [auto|discriminate E|]. exfalso. unfold got in C. rewrite N in C. discriminate C.
    + repeat split; auto; [rewrite GO by exact NE; exact C|]. unfold s'; cbn [cs_calls]. rewrite (set_phase_other _ _ _ _ _ N) by auto. exact F.
  - intros c id q E. unfold s' in E; cbn [cs_reader] in E. apply in_snoc. left. exact (O5 _ _ _ (RDI _ _ _ E)).
  - intros j X. unfold s' in *; cbn [cs_calls cs_pending] in *. destruct (Nat.eq_dec k j) as [<-|NE].
    + rewrite (set_phase_at _ _ _ _ N) in X. assert (X' : p' = CPending \/ p' = CWaiting) by (destruct X as [X|X]; injection X; auto).
      destruct (W X') as [[q I]|I]; [left; exists q; apply in_snoc; auto|auto].
    + rewrite (set_phase_other _ _ _ _ _ N NE) in X. destruct (O6 j X) as [[q I]|I]; [left; exists q; apply in_snoc; auto|right].
      apply M2; auto. apply nth_error_Some. destruct X; congruence.
Qed.

Theorem calls_executions_ok : forall h s, call_execution h s -> (Z.of_nat (length (cs_calls s)) <= 2 ^ 64)%Z -> calls_ok h s.
Proof.
  induction 1 as [|h s e s' EX IH ST]; intros B.
  - constructor; try (intros [|k]; intros; cbn in *; discriminate); try (cbn; intros; intuition; fail); try discriminate.
    intros [|k] [X|X]; discriminate X.
  - assert (B' : (Z.of_nat (length (cs_calls s)) <= 2 ^ 64)%Z) by (assert (G := calls_grow _ _ _ ST); lia). specialize (IH B').
    assert (INJ := fun i j => call_id_inj _ i j B').
    destruct e as [|k|k ok|k|k|id p|]; cbn in ST.
    + injection ST as <-. destruct IH as [O1 O2 O3 O4 O5 O6].
      assert (AT : forall k p, nth_error (cs_calls s ++ [CNew]) k = Some p -> nth_error (cs_calls s) k = Some p \/ (k = length (cs_calls s) /\ p = CNew)).
      { intros k p N. destruct (Nat.lt_ge_cases k (length (cs_calls s))) as [L|L]; [rewrite nth_error_app1 in N by exact L; auto|].
        rewrite nth_error_app2 in N by exact L. destruct (k - length (cs_calls s))%nat as [|q] eqn:K; cbn in N; [|destruct q; discriminate N]. right. split; [lia|congruence]. }
      assert (OLD : forall k, (k < length (cs_calls s))%nat -> nth_error (cs_calls s ++ [CNew]) k = nth_error (cs_calls s) k) by (intros; apply nth_error_app1; assumption).
      constructor; cbn [cs_calls cs_pending cs_reader].
      * intros k p N. apply phase_ok_more; [|discriminate]. apply AT in N as [N|[-> ->]]; [auto|]. cbn. apply O2. lia.
      * intros k L b I. rewrite app_length in L. cbn in L. apply in_snoc in I as [I|I]; [|discriminate I]. apply (O2 k) in I; [exact I|lia].
      * intros id k I. destruct (O3 id k I) as (A1 & A2 & A3 & A4). unfold got in *. cbn [cs_calls]. rewrite (OLD k A2), app_length. repeat split; auto; lia.
      * intros k id p E. destruct (O4 k id p E) as (A1 & A2 & A3 & A4 & A5). unfold got in *. cbn [cs_calls]. rewrite (OLD k A2), app_length. repeat split; auto; lia.
      * intros c id p E. apply in_snoc. left. eauto.
      * intros k X. assert (X' : nth_error (cs_calls s) k = Some CPending \/ nth_error (cs_calls s) k = Some CWaiting).
        { destruct X as [X|X]; apply AT in X as [X|[_ X]]; auto; discriminate X. }
        destruct (O6 k X') as [[q I]|I]; [left; exists q; apply in_snoc; auto|auto].
    + destruct (nth_error (cs_calls s) k) as [[]|] eqn:N; try discriminate ST. injection ST as <-.
      assert (LK : (k < length (cs_calls s))%nat) by (apply nth_error_Some; congruence).
      eapply (call_event_ok h s _ k CNew CPending); eauto; try discriminate.
      * apply (phase_ok_more h k CPending); [exact (co_phase _ _ IH k CNew N)|discriminate].
      * intros id j [I|I]; [injection I as <- <-; auto|]. apply pending_delete_in in I as [I _]. auto.
      * intros j NE LJ I. right. apply pending_delete_in. split; [exact I|]. intros E. apply NE. exact (INJ j k LJ LK E).
      * intros _. right. left. reflexivity.
      * left. split; [|reflexivity]. intros r. split; discriminate.
    + destruct (nth_error (cs_calls s) k) as [[]|] eqn:N; try discriminate ST. injection ST as <-. assert (PH := co_phase _ _ IH k CPending N). cbn in PH.
      eapply (call_event_ok h s _ k CPending (if ok then CWaiting else CLeaving None)); eauto; try discriminate.
      * intros j NE b E. injection E as <- _. contradiction.
      * destruct ok; cbn; setoid_rewrite in_snoc; [intros [I|I]; [exact (PH _ I)|discriminate I]|left; split; [auto|intros [I|I]; [exact (PH _ I)|discriminate I]]].
      * destruct ok; discriminate.
      * intros _. apply (co_waiting _ _ IH). auto.
      * left. split; [|reflexivity]. intros r. destruct ok; split; discriminate.
    + destruct (nth_error (cs_calls s) k) as [[]|] eqn:N; try discriminate ST. injection ST as <-.
      eapply (call_event_ok h s _ k CWaiting (CLeaving None)); eauto; try discriminate.
      * cbn. right. apply in_snoc. auto.
      * intros [X|X]; discriminate X.
      * left. split; [|reflexivity]. intros r. split; discriminate.
    + destruct (nth_error (cs_calls s) k) as [[| | |g|]|] eqn:N; try discriminate ST. injection ST as <-.
      assert (LK : (k < length (cs_calls s))%nat) by (apply nth_error_Some; congruence).
      eapply (call_event_ok h s _ k (CLeaving g) (CReturned g)); eauto; try discriminate.
      * apply (phase_ok_more h k (CReturned g)); [|discriminate]. exact (co_phase _ _ IH k _ N).
      * intros id j I. apply pending_delete_in in I as [I _]. auto.
      * intros j NE LJ I. apply pending_delete_in. split; [exact I|]. intros E. apply NE. exact (INJ j k LJ LK E).
      * intros [X|X]; discriminate X.
      * destruct g as [r|]; [right; right|left; split; [|reflexivity]; intros r; split; discriminate]. split; [reflexivity|]. split; [eauto|].
        intros id j I ->. apply pending_delete_in in I as [I NE]. apply NE. exact (proj1 (co_pending _ _ IH id k I)).
    + destruct (cs_reader s) eqn:R; [|discriminate ST]. destruct IH as [O1 O2 O3 O4 O5 O6].
      assert (PH : forall k q, nth_error (cs_calls s) k = Some q -> phase_ok (h ++ [EResponse id p]) k q) by (intros; apply phase_ok_more; [auto|discriminate]).
      assert (NO : forall k, (length (cs_calls s) <= k)%nat -> forall b, ~ In (EWrite k b) (h ++ [EResponse id p])) by (intros k L b I; apply in_snoc in I as [I|I]; [exact (O2 k L b I)|discriminate I]).
      destruct (pending_get (cs_pending s) id) as [k|] eqn:G; injection ST as <-.
      * apply pending_get_some in G. destruct (O3 _ _ G) as (A1 & A2 & A3 & A4). constructor; cbn [cs_calls cs_pending cs_reader]; auto.
        -- intros id' j I. apply pending_delete_in in I as [I _]. destruct (O3 _ _ I) as (C1 & C2 & C3 & C4). auto.
        -- intros j id' q E. injection E as <- <- <-. repeat split; auto. rewrite pending_delete_in. tauto.
        -- intros c id' q E. injection E as <- <- <-. apply in_snoc. auto.
        -- intros j X. destruct (O6 j X) as [[q I]|I]; [left; exists q; apply in_snoc; auto|].
           destruct (id_eqb (call_id j) id) eqn:E; [apply id_eqb_eq in E; left; exists p; apply in_snoc; right; rewrite E; reflexivity|right].
           apply pending_delete_in. split; [exact I|]. intros E'. apply id_eqb_eq in E'. congruence.
      * constructor; cbn [cs_calls cs_pending cs_reader]; auto.
        -- intros j id' q E. discriminate E.
        -- intros c id' q E. injection E as <- <- <-. apply in_snoc. auto.
        -- intros j X. destruct (O6 j X) as [[q I]|I]; [left; exists q; apply in_snoc; auto|auto].
    + destruct (cs_reader s) as [|[k|] id p] eqn:R; try discriminate ST. destruct (nth_error (cs_calls s) k) as [[]|] eqn:N; try discriminate ST. injection ST as <-.
      destruct (co_sending _ _ IH _ _ _ R) as (A1 & A2 & A3 & A4 & A5).
      eapply (call_event_ok h s _ k CWaiting (CLeaving (Some p))); eauto; try discriminate.
      * cbn. apply in_snoc. left. rewrite <- A1. exact (co_response _ _ IH _ _ _ R).
      * intros [X|X]; discriminate X.
      * right. left. split; [reflexivity|]. intros id' j I ->. destruct (co_pending _ _ IH _ _ I) as (E & _). apply A4. rewrite A1, <- E. exact I.
Qed.

(** ** Deliveries *)
Lemma NoDup_snoc : forall {A} (l : list A) x, NoDup l -> ~ In x l -> NoDup (l ++ [x]).
Proof.
  intros A l x N I. induction N as [|y l NI N IH]; cbn; [repeat constructor; intros []|]. constructor; [|apply IH; intros J; apply I; right; exact J].
  rewrite in_app_iff. intros [J|[J|[]]]; [exact (NI J)|]. apply I. left. symmetry. exact J.
Qed.
Fixpoint held (last : option (ID * nat)) (h : list call_event) : option (ID * nat) :=
  match h with
  | [] => last
  | EResponse id p :: h => held (Some (id, p)) h
  | EDeliver :: h => held None h
  | _ :: h => held last h
  end.
Lemma deliveries_app : forall h h' last, deliveries last (h ++ h') = deliveries last h ++ deliveries (held last h) h'.
Proof.
  induction h as [|e h IH]; intros h' last; [reflexivity|]. cbn [app]. destruct e; cbn [deliveries held]; try apply IH. destruct last; [|apply IH]. cbn [app]. f_equal. apply IH.
Qed.
Lemma held_app : forall h h' last, held last (h ++ h') = held (held last h) h'.
Proof. induction h as [|e h IH]; intros h' last; [reflexivity|]. cbn [app]. destruct e; cbn [held]; apply IH. Qed.
Lemma reader_held : forall h s, call_execution h s -> held None h = match cs_reader s with Reading => None | Sending _ id p => Some (id, p) end.
Proof.
  induction 1 as [|h s e s' EX IH ST]; [reflexivity|]. rewrite held_app, IH. clear IH. destruct e as [|k|k ok|k|k|id p|]; cbn in ST; cbn [held].
  - injection ST as <-. reflexivity.
  - destruct (nth_error (cs_calls s) k) as [[]|]; try discriminate ST. injection ST as <-. reflexivity.
  - destruct (nth_error (cs_calls s) k) as [[]|]; try discriminate ST. injection ST as <-. reflexivity.
  - destruct (nth_error (cs_calls s) k) as [[]|]; try discriminate ST. injection ST as <-. reflexivity.
  - destruct (nth_error (cs_calls s) k) as [[]|]; try discriminate ST. injection ST as <-. reflexivity.
  - destruct (cs_reader s); [|discriminate ST]. destruct (pending_get (cs_pending s) id); injection ST as <-; reflexivity.
  - destruct (cs_reader s) as [|[k|] id p]; try discriminate ST. destruct (nth_error (cs_calls s) k) as [[]|]; try discriminate ST. injection ST as <-. reflexivity.
Qed.

Definition takes (s : calls) (k : nat) (d : ID * nat) : Prop := fst d = call_id k /\ got s k = Some (snd d).
Theorem deliveries_reach : forall h s, call_execution h s -> (Z.of_nat (length (cs_calls s)) <= 2 ^ 64)%Z ->
  exists ks, NoDup ks /\ Forall2 (takes s) ks (deliveries None h) /\ forall k r, got s k = Some r -> In k ks.
Proof.
  induction 1 as [|h s e s' EX IH ST]; intros B.
  - exists []. split; [constructor|]. split; [constructor|]. intros [|k] r E; discriminate E.
  - assert (B' : (Z.of_nat (length (cs_calls s)) <= 2 ^ 64)%Z) by (assert (G := calls_grow _ _ _ ST); lia).
    destruct (IH B') as (ks & ND & F2 & AL). clear IH. assert (OK := calls_executions_ok _ _ EX B').
    assert (SAME : (forall k, got s' k = got s k) -> deliveries None (h ++ [e]) = deliveries None h ->
      exists ks, NoDup ks /\ Forall2 (takes s') ks (deliveries None (h ++ [e])) /\ forall k r, got s' k = Some r -> In k ks).
    { intros GE DE. exists ks. split; [exact ND|]. rewrite DE. split; [|intros k r E; rewrite GE in E; eauto].
      clear -F2 GE. induction F2 as [|k d ks ds [T1 T2] F2 IH]; constructor; [split; [exact T1|rewrite GE; exact T2]|exact IH]. }
    assert (SETS : forall k p p', nth_error (cs_calls s) k = Some p -> cs_calls s' = set_phase s k p' ->
      match p with CLeaving r | CReturned r => r | _ => None end = match p' with CLeaving r | CReturned r => r | _ => None end -> forall j, got s' j = got s j).
    { intros k p p' N E G j. unfold got. rewrite E. destruct (Nat.eq_dec k j) as [<-|NE]; [rewrite (set_phase_at _ _ _ _ N), N; symmetry; exact G|rewrite (set_phase_other _ _ _ _ _ N NE); reflexivity]. }
    assert (DE := fun x => deliveries_app h [x] None). assert (APPN := fun l : list (ID * nat) => app_nil_r l).
    destruct e as [|k|k ok|k|k|id p|]; cbn in ST; try (specialize (DE ECall)).
    + injection ST as <-. apply SAME; [|rewrite deliveries_app; cbn; apply app_nil_r]. intros k. unfold got. cbn [cs_calls].
      destruct (Nat.lt_ge_cases k (length (cs_calls s))) as [L|L]; [rewrite nth_error_app1 by exact L; reflexivity|]. rewrite nth_error_app2 by exact L.
      assert (nth_error (cs_calls s) k = None) as -> by (apply nth_error_None; exact L). destruct (k - length (cs_calls s))%nat as [|q]; [reflexivity|destruct q; reflexivity].
    + destruct (nth_error (cs_calls s) k) as [[]|] eqn:N; try discriminate ST. injection ST as <-. apply SAME; [eapply SETS; [exact N|reflexivity|reflexivity]|rewrite deliveries_app; cbn; apply app_nil_r].
    + destruct (nth_error (cs_calls s) k) as [[]|] eqn:N; try discriminate ST. injection ST as <-. apply SAME; [eapply SETS; [exact N|reflexivity|destruct ok; reflexivity]|rewrite deliveries_app; cbn; apply app_nil_r].
    + destruct (nth_error (cs_calls s) k) as [[]|] eqn:N; try discriminate ST. injection ST as <-. apply SAME; [eapply SETS; [exact N|reflexivity|reflexivity]|rewrite deliveries_app; cbn; apply app_nil_r].
    + destruct (nth_error (cs_calls s) k) as [[]|] eqn:N; try discriminate ST. injection ST as <-. apply SAME; [eapply SETS; [exact N|reflexivity|reflexivity]|rewrite deliveries_app; cbn; apply app_nil_r].
    + destruct (cs_reader s) eqn:R; [|discriminate ST]. apply SAME; [|rewrite deliveries_app; cbn; apply app_nil_r]. destruct (pending_get (cs_pending s) id); injection ST as <-; reflexivity.
    + assert (HD := reader_held _ _ EX). destruct (cs_reader s) as [|[k|] id p] eqn:R; try discriminate ST. destruct (nth_error (cs_calls s) k) as [[]|] eqn:N; try discriminate ST. injection ST as <-.
      destruct (co_sending _ _ OK _ _ _ R) as (A1 & A2 & A3 & A4 & A5). clear SAME SETS.
      assert (NI : ~ In k ks).
      { intros I. clear -F2 I A3. induction F2 as [|j d ks ds [T1 T2] F2 IH]; [destruct I|]. destruct I as [->|I]; [congruence|auto]. }
      assert (GO : forall j, k <> j -> got (Calls (set_phase s k (CLeaving (Some p))) (cs_pending s) Reading) j = got s j) by (intros j NE; eapply got_set_other; eauto; reflexivity).
      assert (GK : got (Calls (set_phase s k (CLeaving (Some p))) (cs_pending s) Reading) k = Some p) by (unfold got; cbn [cs_calls]; rewrite (set_phase_at _ _ _ _ N); reflexivity).
      exists (ks ++ [k]). split; [apply NoDup_snoc; assumption|]. split.
      * rewrite deliveries_app, HD. cbn [deliveries]. apply Forall2_app; [|constructor; [split; [exact A1|exact GK]|constructor]].
        clear -F2 GO NI. induction F2 as [|j d ks ds [T1 T2] F2 IH]; constructor; [|apply IH; intros I; apply NI; right; exact I].
        split; [exact T1|]. rewrite GO; [exact T2|]. intros ->. apply NI. left. reflexivity.
      * intros j r E. apply in_snoc. destruct (Nat.eq_dec k j) as [<-|NE]; [auto|]. left. rewrite GO in E by exact NE. eauto.
Qed.

(** ** The reader goes on *)
Lemma prefix_well_behaved : forall h e, well_behaved (h ++ [e]) -> well_behaved h.
Proof.
  intros h e W before id p after E. destruct (W before id p (after ++ [e])) as [N (k & E1 & I & NC)]; [rewrite E, <- app_assoc; reflexivity|].
  split; [exact N|]. exists k. split; [exact E1|]. split; [exact I|]. intros C. apply NC. apply in_snoc. auto.
Qed.
Lemma written_phase : forall h s k, calls_ok h s -> In (EWrite k true) h -> ~ In (ECancel k) h -> (forall p, ~ In (EResponse (call_id k) p) h) ->
  nth_error (cs_calls s) k = Some CWaiting.
Proof.
  intros h s k OK W NC NR. destruct (nth_error (cs_calls s) k) as [p|] eqn:N; [|exfalso; apply nth_error_None in N; exact (co_none _ _ OK k N true W)].
  assert (P := co_phase _ _ OK k p N). destruct p as [| | |[r|]|[r|]]; cbn in P; try reflexivity; exfalso.
  - exact (P true W).
  - exact (P true W).
  - exact (NR r P).
  - destruct P as [[_ P]|P]; auto.
  - exact (NR r P).
  - destruct P as [[_ P]|P]; auto.
Qed.
Theorem reader_goes_on : forall h s, call_execution h s -> (Z.of_nat (length (cs_calls s)) <= 2 ^ 64)%Z -> well_behaved h ->
  forall c id p, cs_reader s = Sending c id p -> exists k, c = Some k /\ id = call_id k /\ nth_error (cs_calls s) k = Some CWaiting.
Proof.
  induction 1 as [|h s e s' EX IH ST]; intros B W c id p R; [discriminate R|].
  assert (B' : (Z.of_nat (length (cs_calls s)) <= 2 ^ 64)%Z) by (assert (G := calls_grow _ _ _ ST); lia).
  specialize (IH B' (prefix_well_behaved _ _ W)). assert (OK := calls_executions_ok _ _ EX B').
  assert (LEN : forall k b, In (EWrite k b) h -> (k < length (cs_calls s))%nat).
  { intros k b I. destruct (Nat.lt_ge_cases k (length (cs_calls s))) as [L|L]; [exact L|]. destruct (co_none _ _ OK k L b I). }
  assert (KEEP : forall j q q', nth_error (cs_calls s) j = Some q -> q <> CWaiting \/ e = ECancel j -> cs_calls s' = set_phase s j q' -> cs_reader s' = cs_reader s ->
     exists k, c = Some k /\ id = call_id k /\ nth_error (cs_calls s') k = Some CWaiting).
  { intros j q q' N Q E ER. rewrite ER in R. destruct (IH _ _ _ R) as (k & -> & E1 & Nk). exists k. split; [reflexivity|]. split; [exact E1|].
    rewrite E. destruct (Nat.eq_dec j k) as [->|NE]; [|rewrite (set_phase_other _ _ _ _ _ N NE); exact Nk].
    exfalso. destruct Q as [Q|Q]; [congruence|].
    assert (I : In (EResponse id p) h) by exact (co_response _ _ OK _ _ _ R). apply in_split in I as (l1 & l2 & E2).
    destruct (W l1 id p (l2 ++ [e])) as [_ (k' & E3 & EW & NC)]; [rewrite E2, <- app_assoc; reflexivity|].
    assert (k' = k) as ->; [|apply NC; apply in_snoc; right; exact Q].
    apply (call_id_inj (length (cs_calls s))); [exact B'| |apply nth_error_Some; congruence|congruence].
    apply (LEN k' true). rewrite E2. apply in_or_app. left. exact EW. }
  destruct e as [|k|k ok|k|k|id' p'|]; cbn in ST.
  - injection ST as <-. cbn [cs_reader] in R. destruct (IH _ _ _ R) as (k & -> & E1 & Nk). exists k. split; [reflexivity|]. split; [exact E1|].
    cbn [cs_calls]. rewrite nth_error_app1 by (apply nth_error_Some; congruence). exact Nk.
  - destruct (nth_error (cs_calls s) k) as [[]|] eqn:N; try discriminate ST. injection ST as <-. eapply KEEP; [exact N|left; discriminate|reflexivity|reflexivity].
  - destruct (nth_error (cs_calls s) k) as [[]|] eqn:N; try discriminate ST. injection ST as <-. eapply KEEP; [exact N|left; discriminate|reflexivity|reflexivity].
  - destruct (nth_error (cs_calls s) k) as [[]|] eqn:N; try discriminate ST. injection ST as <-. eapply KEEP; [exact N|right; reflexivity|reflexivity|reflexivity].
  - destruct (nth_error (cs_calls s) k) as [[]|] eqn:N; try discriminate ST. injection ST as <-. eapply KEEP; [exact N|left; discriminate|reflexivity|reflexivity].
  - destruct (cs_reader s) eqn:RS; [|discriminate ST]. destruct (W h id' p' []) as [NR (k & -> & EW & NC)]; [reflexivity|].
    assert (Nk : nth_error (cs_calls s) k = Some CWaiting).
    { eapply written_phase; eauto. intros C. apply NC. apply in_snoc. auto. }
    destruct (co_waiting _ _ OK k (or_intror Nk)) as [[q I]|I]; [destruct (NR q I)|]. apply pending_get_in in I as (k' & G & I').
    rewrite G in ST. injection ST as <-. cbn [cs_reader] in R. injection R as <- <- <-. exists k'. split; [reflexivity|].
    destruct (co_pending _ _ OK _ _ I') as (E & L & _). split; [exact E|]. cbn [cs_calls].
    assert (k = k') as <-; [|exact Nk]. apply (call_id_inj (length (cs_calls s))); [exact B'|exact (LEN k true EW)|exact L|exact E].
  - destruct (cs_reader s) as [|[k|] id' p'] eqn:RS; try discriminate ST. destruct (nth_error (cs_calls s) k) as [[]|] eqn:N; try discriminate ST. injection ST as <-. discriminate R.
Qed.

(** ** The reader stuck *)
Lemma nil_channel_stuck : forall s id p, cs_reader s = Sending None id p -> stuck s.
Proof.
  intros s id p R. split; [congruence|]. intros h. revert s R. induction h as [|e h IH]; intros s R s' E; cbn in E; [injection E as <-; reflexivity|].
  destruct (call_step s e) as [s1|] eqn:ST; [|discriminate E].
  assert (R1 : cs_reader s1 = Sending None id p).
  { destruct e as [|k|k ok|k|k|id' p'|]; cbn in ST; rewrite ?R in ST; try discriminate ST; try (injection ST as <-; first [exact R|reflexivity]);
      (destruct (nth_error (cs_calls s) k) as [[]|]; try discriminate ST; injection ST as <-; first [exact R|reflexivity]). }
  rewrite (IH s1 R1 s' E), R, R1. reflexivity.
Qed.
Definition left_call (p : phase) : Prop := match p with CLeaving _ | CReturned _ => True | _ => False end.
Lemma left_call_stuck : forall s k id p q, cs_reader s = Sending (Some k) id p -> nth_error (cs_calls s) k = Some q -> left_call q -> stuck s.
Proof.
  intros s k id p q R N L. split; [congruence|]. intros h. revert s q R N L. induction h as [|e h IH]; intros s q R N L s' E; cbn in E; [injection E as <-; reflexivity|].
  destruct (call_step s e) as [s1|] eqn:ST; [|discriminate E].
  assert (X : cs_reader s1 = Sending (Some k) id p /\ exists q1, nth_error (cs_calls s1) k = Some q1 /\ left_call q1).
  { destruct e as [|j|j ok|j|j|id' p'|]; cbn in ST; rewrite ?R in ST; try discriminate ST.
    - injection ST as <-. split; [first [exact R|reflexivity]|]. exists q. cbn [cs_calls]. rewrite nth_error_app1 by (apply nth_error_Some; congruence). auto.
    - destruct (nth_error (cs_calls s) j) as [[]|] eqn:Nj; try discriminate ST; injection ST as <-. split; [first [exact R|reflexivity]|]. exists q. cbn [cs_calls]. split; [|exact L].
      rewrite (set_phase_other _ _ _ _ _ Nj); [exact N|]. intros ->. rewrite Nj in N. injection N as <-. destruct L.
    - destruct (nth_error (cs_calls s) j) as [[]|] eqn:Nj; try discriminate ST; injection ST as <-. split; [first [exact R|reflexivity]|]. exists q. cbn [cs_calls]. split; [|exact L].
      rewrite (set_phase_other _ _ _ _ _ Nj); [exact N|]. intros ->. rewrite Nj in N. injection N as <-. destruct L.
    - destruct (nth_error (cs_calls s) j) as [[]|] eqn:Nj; try discriminate ST; injection ST as <-. split; [first [exact R|reflexivity]|]. exists q. cbn [cs_calls]. split; [|exact L].
      rewrite (set_phase_other _ _ _ _ _ Nj); [exact N|]. intros ->. rewrite Nj in N. injection N as <-. destruct L.
    - destruct (nth_error (cs_calls s) j) as [[| | |g|]|] eqn:Nj; try discriminate ST; injection ST as <-. split; [first [exact R|reflexivity]|]. cbn [cs_calls]. destruct (Nat.eq_dec j k) as [->|NE].
      + exists (CReturned g). split; [eapply set_phase_at; exact Nj|exact I].
      + exists q. rewrite (set_phase_other _ _ _ _ _ Nj NE). auto.
    - rewrite N in ST. destruct q; try discriminate ST. destruct L. }
  destruct X as (R1 & q1 & N1 & L1). rewrite (IH s1 q1 R1 N1 L1 s' E), R, R1. reflexivity.
Qed.
Lemma run_execution : forall h s h' s', call_execution h s -> run s h' = Some s' -> call_execution (h ++ h') s'.
Proof.
  intros h s h'. revert h s. induction h' as [|e h' IH]; intros h s s' EX E; cbn in E; [injection E as <-; rewrite app_nil_r; exact EX|].
  destruct (call_step s e) as [s1|] eqn:ST; [|discriminate E]. change (e :: h') with ([e] ++ h'). rewrite app_assoc. eapply IH; [|exact E]. eapply ce_step; eauto.
Qed.
