(** Proofs about when diagnostics are sent. *)
From Coq Require Import String.
From Coq Require Import List Bool Lia.
From Verif Require Import Base.Bytes Base.BytesProofs Ide.PublishModel Ide.PublishSpec.
Import ListNotations.
Open Scope list_scope.

Section Proofs.
Context {doc diag world : Type}.
Variables (immediate : doc -> list diag) (deprecated : world -> doc -> list diag).
Notation server := (server doc diag).
Notation event := (event doc world).
Notation step := (step immediate deprecated).
Notation run := (run immediate deprecated).

Lemma text_snoc : forall (h : list event) e u d since, text_is (h ++ [e]) u d since ->
  (e = Change u d /\ since = []) \/ (exists since', since = since' ++ [e] /\ text_is h u d since' /\ forall d', e <> Change u d').
Proof.
  intros h e u d since (earlier & E & N). destruct since as [|x since'] using rev_ind.
  - left. apply app_inj_tail in E as (_ & ->). auto.
  - right. exists since'. rewrite app_comm_cons, app_assoc in E. apply app_inj_tail in E as (-> & ->). split; [reflexivity|]. split.
    + exists earlier. split; [reflexivity|]. intros d' I. apply (N d'). apply in_or_app. left. exact I.
    + intros d' ->. apply (N d'). apply in_or_app. right. left. reflexivity.
Qed.
Lemma changed_snoc : forall (h : list event) e u d since, last_changed (h ++ [e]) u d since ->
  (e = Change u d /\ since = []) \/ (exists since', since = since' ++ [e] /\ last_changed h u d since' /\ forall u' d', e <> Change u' d').
Proof.
  intros h e u d since (earlier & E & N). destruct since as [|x since'] using rev_ind.
  - left. apply app_inj_tail in E as (_ & ->). auto.
  - right. exists since'. rewrite app_comm_cons, app_assoc in E. apply app_inj_tail in E as (-> & ->). split; [reflexivity|]. split.
    + exists earlier. split; [reflexivity|]. intros u' d' I. apply (N u' d'). apply in_or_app. left. exact I.
    + intros u' d' ->. apply (N u' d'). apply in_or_app. right. left. reflexivity.
Qed.
Lemma uri_dec : forall u v : gostr, u = v \/ u <> v.
Proof. intros u v. destruct (str_eqb u v) eqn:E; [left; apply str_eqb_eq; exact E|right; intros ->; rewrite str_eqb_refl in E; discriminate E]. Qed.
Lemma shows_new : forall ha pe jo sent u l, shows (Server ha pe jo ((u, l) :: sent) : server) u l.
Proof. intros. exists [], sent. split; [reflexivity|]. intros l' []. Qed.
Lemma shows_other : forall ha pe jo (s : server) u v l l', u <> v -> shows s u l -> shows (Server ha pe jo ((v, l') :: sv_sent s) : server) u l.
Proof.
  intros ha pe jo s u v l l' N (newer & older & E & F). exists ((v, l') :: newer), older. cbn [sv_sent]. rewrite E. split; [reflexivity|]. intros x [I|I]; [congruence|exact (F x I)].
Qed.
Lemma shows_same : forall (s t : server) u l, sv_sent t = sv_sent s -> shows s u l -> shows t u l.
Proof. intros s t u l E (n & o & H & F). exists n, o. rewrite E. auto. Qed.

(** what a list of jobs is after a step *)
Lemma in_removed : forall A (l : list A) i x, In x (remove_nth l i) -> In x l.
Proof. intros A l i x I. unfold remove_nth in I. rewrite <- (firstn_skipn i l). apply in_app_or in I as [I|I]; apply in_or_app; [left; exact I|right]. rewrite <- (firstn_skipn 1 (skipn i l)). apply in_or_app. right. rewrite skipn_skipn. exact I. Qed.
Lemma in_replaced : forall A (l : list A) i y x, In x (set_nth l i y) -> In x l \/ x = y.
Proof.
  intros A l i y x I. unfold set_nth in I. apply in_app_or in I as [I|[I|I]]; [|right; symmetry; exact I|]; left.
  - rewrite <- (firstn_skipn i l). apply in_or_app. left. exact I.
  - rewrite <- (firstn_skipn (S i) l). apply in_or_app. right. exact I.
Qed.
Lemma length_removed : forall A (l : list A) i x, nth_error l i = Some x -> length (remove_nth l i) = pred (length l).
Proof.
  intros A l i x N. assert (L : i < length l) by (apply nth_error_Some; congruence). unfold remove_nth. rewrite app_length, firstn_length, skipn_length. lia.
Qed.
Lemma length_replaced : forall A (l : list A) i x y, nth_error l i = Some x -> length (set_nth l i y) = length l.
Proof.
  intros A l i x y N. assert (L : i < length l) by (apply nth_error_Some; congruence). unfold set_nth. rewrite app_length, firstn_length. cbn [length]. rewrite skipn_length. lia.
Qed.

(** *** Nobody types while hints are searched *)
Definition hints_since (since : list event) (d : doc) (l : list diag) : Prop := exists i w, In (Compute i w) since /\ l = deprecated w d.
Lemma since_more : forall since e d l, hints_since since d l -> hints_since (since ++ [e]) d l.
Proof. intros since e d l (i & w & I & E). exists i, w. split; [apply in_or_app; left; exact I|exact E]. Qed.
Definition good_job (since : list event) (d : doc) (j : job doc diag) : Prop :=
  j_doc j = d /\ match j_hints j with Some l => hints_since since d l | None => True end.
Lemma good_more : forall since e d j, good_job since d j -> good_job (since ++ [e]) d j.
Proof. intros since e d j (E & H). split; [exact E|]. destruct (j_hints j); [apply since_more; exact H|exact I]. Qed.
Definition fresh (h : list event) (s : server) : Prop := forall u d since, text_is h u d since ->
  (forall d', sv_handler s = Some (u, d') -> d' = d) /\ (forall d', sv_pending s = Some (u, d') -> d' = d) /\
  (forall j, In j (sv_jobs s) -> j_uri j = u -> good_job since d j) /\
  ((exists d', sv_handler s = Some (u, d')) \/ exists extra, shows s u (immediate d ++ extra) /\ (extra = [] \/ hints_since since d extra)).
Lemma fresh_step : forall h s e s', fresh h s -> step s e = Some s' -> (forall u d, e = Change u d -> sv_jobs s = []) -> fresh (h ++ [e]) s'.
Proof.
  intros h s e s' F E P u d since T. apply text_snoc in T as [(-> & ->)|(since' & -> & T & N)].
  - cbn [step] in E. specialize (P u d eq_refl). cbn in E. destruct (sv_handler s) as [x|]; [discriminate E|]. injection E as <-. cbn [sv_handler sv_pending sv_jobs].
    split; [intros d' H; congruence|]. split; [intros d' H; congruence|]. split; [intros j I; rewrite P in I; destruct I|]. left. exists d. reflexivity.
  - destruct (F u d since' T) as (Fh & Fp & Fj & Fs). destruct e as [u0 d0| | |i w|i]; cbn in E.
    + destruct (sv_handler s) as [x|] eqn:Hh; [discriminate E|]. injection E as <-. cbn [sv_handler sv_pending sv_jobs]. assert (Nu : u0 <> u) by (intros ->; exact (N d0 eq_refl)).
      split; [intros d' H; congruence|]. split; [intros d' H; congruence|]. split; [intros j I U; apply good_more; exact (Fj j I U)|]. right.
      destruct Fs as [(d' & H)|(extra & Sh & X)]; [congruence|]. exists extra. split; [exact (shows_same s _ u _ eq_refl Sh)|]. destruct X as [X|X]; [left; exact X|right; apply since_more; exact X].
    + destruct (sv_handler s) as [(u0, d0)|] eqn:Hh; [|discriminate E]. injection E as <-. cbn [sv_handler sv_pending sv_jobs]. split; [intros d' H; discriminate H|]. split; [exact Fp|].
      split; [intros j I U; apply good_more; exact (Fj j I U)|]. right. destruct (uri_dec u u0) as [<-|Nu].
      * rewrite (Fh d0 eq_refl). exists []. split; [rewrite app_nil_r; apply shows_new|left; reflexivity].
      * destruct Fs as [(d' & H)|(extra & Sh & X)]; [congruence|]. exists extra. split; [apply shows_other; [exact Nu|exact Sh]|]. destruct X as [X|X]; [left; exact X|right; apply since_more; exact X].
    + destruct (sv_pending s) as [(u0, d0)|] eqn:Hp; [|discriminate E]. injection E as <-. cbn [sv_handler sv_pending sv_jobs]. split; [exact Fh|]. split; [intros d' H; discriminate H|].
      split.
      * intros j I U. apply in_app_or in I as [I|[<-|[]]]; [apply good_more; exact (Fj j I U)|]. cbn in U. subst u0. split; [exact (Fp d0 eq_refl)|exact I].
      * destruct Fs as [H|(extra & Sh & X)]; [left; exact H|right]. exists extra. split; [exact (shows_same s _ u _ eq_refl Sh)|]. destruct X as [X|X]; [left; exact X|right; apply since_more; exact X].
    + destruct (nth_error (sv_jobs s) i) as [[u0 d0 [x|]]|] eqn:Hj; try discriminate E. injection E as <-. cbn [sv_handler sv_pending sv_jobs]. split; [exact Fh|]. split; [exact Fp|]. split.
      * intros j I U. apply in_replaced in I as [I| ->]; [apply good_more; exact (Fj j I U)|]. cbn in U. subst u0. destruct (Fj _ (nth_error_In _ _ Hj) eq_refl) as (Ed & _). cbn in Ed. subst d0.
        split; [reflexivity|]. cbn. exists i, w. split; [apply in_or_app; right; left; reflexivity|reflexivity].
      * destruct Fs as [H|(extra & Sh & X)]; [left; exact H|right]. exists extra. split; [exact (shows_same s _ u _ eq_refl Sh)|]. destruct X as [X|X]; [left; exact X|right; apply since_more; exact X].
    + destruct (nth_error (sv_jobs s) i) as [[u0 d0 [x|]]|] eqn:Hj; try discriminate E. injection E as <-. cbn [sv_handler sv_pending sv_jobs]. split; [exact Fh|]. split; [exact Fp|].
      split; [intros j I U; apply good_more; exact (Fj j (in_removed _ _ _ _ I) U)|]. destruct (uri_dec u u0) as [<-|Nu].
      * right. destruct (Fj _ (nth_error_In _ _ Hj) eq_refl) as (Ed & Eh). cbn in Ed, Eh. subst d0. exists x. split; [apply shows_new|right; apply since_more; exact Eh].
      * destruct Fs as [H|(extra & Sh & X)]; [left; exact H|right]. exists extra. split; [apply shows_other; [exact Nu|exact Sh]|]. destruct X as [X|X]; [left; exact X|right; apply since_more; exact X].
Qed.
Lemma jobs_step : forall s e s', step s e = Some s' -> length (sv_jobs s') = match e with Fire => S (length (sv_jobs s)) | Send _ => pred (length (sv_jobs s)) | _ => length (sv_jobs s) end.
Proof.
  intros s e s' E. destruct e as [u0 d0| | |i w|i]; cbn in E.
  - destruct (sv_handler s); [discriminate E|]. injection E as <-. reflexivity.
  - destruct (sv_handler s) as [(u, d)|]; [|discriminate E]. injection E as <-. reflexivity.
  - destruct (sv_pending s) as [(u, d)|]; [|discriminate E]. injection E as <-. cbn [sv_jobs]. rewrite app_length. cbn. lia.
  - destruct (nth_error (sv_jobs s) i) as [[u0 d0 [x|]]|] eqn:Hj; try discriminate E. injection E as <-. exact (length_replaced _ _ _ _ _ Hj).
  - destruct (nth_error (sv_jobs s) i) as [[u0 d0 [x|]]|] eqn:Hj; try discriminate E. injection E as <-. exact (length_removed _ _ _ _ Hj).
Qed.
Lemma prompt_fresh : forall more h s s', fresh h s -> prompt (length (sv_jobs s)) more -> run s more = Some s' -> fresh (h ++ more) s'.
Proof.
  induction more as [|e more IH]; intros h s s' F P R; cbn [PublishModel.run] in R.
  - injection R as <-. rewrite app_nil_r. exact F.
  - destruct (step s e) as [s1|] eqn:E; [|discriminate R]. replace (h ++ e :: more) with ((h ++ [e]) ++ more) by (rewrite <- app_assoc; reflexivity).
    pose proof (jobs_step _ _ _ E) as J. apply (IH (h ++ [e]) s1 s'); [|rewrite J; destruct e; cbn in P; tauto|exact R].
    apply (fresh_step h s e s1 F E). intros u d ->. cbn in P. destruct P as (P & _). apply length_zero_iff_nil. exact P.
Qed.

(** *** The file that was changed last *)
Definition phase (h : list event) (s : server) : Prop := forall u d since, last_changed h u d since ->
  sv_pending s = Some (u, d) \/
  (sv_pending s = None /\ sv_handler s = None /\ exists older j, sv_jobs s = older ++ [j] /\ j_uri j = u /\ good_job since d j) \/
  (sv_pending s = None /\ sv_handler s = None /\ sv_jobs s = [] /\ exists hints, hints_since since d hints /\ shows s u (immediate d ++ hints)).
Lemma snoc_cases : forall A (l : list A) x older j, x :: l = older ++ [j] -> (older = [] /\ x = j /\ l = []) \/ exists older', older = x :: older' /\ l = older' ++ [j].
Proof. intros A l x older j E. destruct older as [|y older]; cbn in E; injection E as -> ->; [left; auto|right; eexists; auto]. Qed.
Lemma replace_last : forall A (older : list A) j i x y, nth_error (older ++ [j]) i = Some x ->
  (exists older', set_nth (older ++ [j]) i y = older' ++ [j]) \/ (x = j /\ set_nth (older ++ [j]) i y = older ++ [y]).
Proof.
  intros A older j i x y N. destruct (PeanoNat.Nat.lt_ge_cases i (length older)) as [L|L].
  - left. exists (set_nth older i y). unfold set_nth. rewrite firstn_app, skipn_app. replace (i - length older) with 0 by lia. replace (S i - length older) with 0 by lia.
    cbn [firstn skipn]. rewrite app_nil_r, <- app_assoc. reflexivity.
  - right. assert (L2 : i < length (older ++ [j])) by (apply nth_error_Some; congruence). rewrite app_length in L2. cbn in L2. assert (Ei : i = length older) by lia. subst i.
    rewrite nth_error_app2 in N by lia. rewrite PeanoNat.Nat.sub_diag in N. cbn in N. injection N as ->. split; [reflexivity|]. unfold set_nth.
    rewrite firstn_app, PeanoNat.Nat.sub_diag, firstn_all, skipn_all2 by (rewrite app_length; cbn; lia). cbn [firstn]. rewrite app_nil_r. reflexivity.
Qed.
Lemma phase_step : forall h s e s', phase h s -> step s e = Some s' -> (e = Fire -> sv_handler s = None) -> (forall i, e = Send i -> i = 0) -> phase (h ++ [e]) s'.
Proof.
  intros h s e s' F E Ti Tu u d since T. apply changed_snoc in T as [(-> & ->)|(since' & -> & T & N)].
  - cbn in E. destruct (sv_handler s) as [x|]; [discriminate E|]. injection E as <-. left. reflexivity.
  - specialize (F u d since' T). destruct e as [u0 d0| | |i w|i]; [destruct (N u0 d0 eq_refl)| | | |]; cbn in E.
    + destruct (sv_handler s) as [(u0, d0)|] eqn:Hh; [|discriminate E]. injection E as <-. destruct F as [F|[(_ & F & _)|(_ & F & _)]]; [|discriminate F|discriminate F]. left. exact F.
    + specialize (Ti eq_refl). destruct (sv_pending s) as [(u0, d0)|] eqn:Hp; [|discriminate E]. injection E as <-. destruct F as [F|[(F & _)|(F & _)]]; [|discriminate F|discriminate F].
      injection F as -> ->. right. left. split; [reflexivity|]. split; [exact Ti|]. eexists _, _. split; [reflexivity|]. split; [reflexivity|]. split; [reflexivity|exact I].
    + destruct (nth_error (sv_jobs s) i) as [[u0 d0 [x|]]|] eqn:Hj; try discriminate E. injection E as <-. cbn [sv_handler sv_pending sv_jobs].
      destruct F as [F|[(Fp & Fh & older & j & Fj & U & G)|(_ & _ & F & _)]]; [left; exact F| |rewrite F in Hj; destruct i; discriminate Hj]. right. left. split; [exact Fp|]. split; [exact Fh|].
      rewrite Fj in *. destruct (replace_last _ older j i _ (Job u0 d0 (Some (deprecated w d0))) Hj) as [(older' & Eo)|(Ej & Eo)]; rewrite Eo.
      * exists older', j. split; [reflexivity|]. split; [exact U|]. apply good_more. exact G.
      * exists older, (Job u0 d0 (Some (deprecated w d0))). split; [reflexivity|]. subst j. cbn in U. subst u0. destruct G as (Gd & _). cbn in Gd. subst d0. split; [reflexivity|]. split; [reflexivity|].
        cbn. exists i, w. split; [apply in_or_app; right; left; reflexivity|reflexivity].
    + rewrite (Tu i eq_refl) in *. cbn [nth_error] in E. destruct (sv_jobs s) as [|[u0 d0 [x|]] js] eqn:Hjs; try discriminate E. injection E as <-. unfold remove_nth in *. cbn [firstn skipn app sv_handler sv_pending sv_jobs] in *.
      destruct F as [F|[(Fp & Fh & older & j & Fj & U & G)|(_ & _ & F & _)]]; [left; exact F| |discriminate F]. right.
      destruct (snoc_cases _ _ _ _ _ Fj) as [(_ & <- & ->)|(older' & _ & ->)].
      * right. split; [exact Fp|]. split; [exact Fh|]. split; [reflexivity|]. cbn in U. subst u0. destruct G as (Gd & Gh). cbn in Gd, Gh. subst d0. exists x. split; [apply since_more; exact Gh|apply shows_new].
      * left. split; [exact Fp|]. split; [exact Fh|]. exists older', j. split; [reflexivity|]. split; [exact U|]. apply good_more. exact G.
Qed.
Lemma handler_step : forall s e s' b, step s e = Some s' -> (b = false -> sv_handler s = None) ->
  (match e with Change _ _ => true | Publish => false | _ => b end = false -> sv_handler s' = None).
Proof.
  intros s e s' b E H. destruct e as [u0 d0| | |i w|i]; cbn in E; intros Hb; [discriminate Hb| | | |].
  - destruct (sv_handler s) as [(u, d)|]; [|discriminate E]. injection E as <-. reflexivity.
  - destruct (sv_pending s) as [(u, d)|]; [|discriminate E]. injection E as <-. exact (H Hb).
  - destruct (nth_error (sv_jobs s) i) as [[u0 d0 [x|]]|]; try discriminate E. injection E as <-. exact (H Hb).
  - destruct (nth_error (sv_jobs s) i) as [[u0 d0 [x|]]|]; try discriminate E. injection E as <-. exact (H Hb).
Qed.
Lemma in_turn_phase : forall more h s s' b, phase h s -> (b = false -> sv_handler s = None) -> timely b more -> in_turn more -> run s more = Some s' -> phase (h ++ more) s'.
Proof.
  induction more as [|e more IH]; intros h s s' b F B Ti Tu R; cbn [PublishModel.run] in R.
  - injection R as <-. rewrite app_nil_r. exact F.
  - destruct (step s e) as [s1|] eqn:E; [|discriminate R]. replace (h ++ e :: more) with ((h ++ [e]) ++ more) by (rewrite <- app_assoc; reflexivity).
    pose proof (handler_step _ _ _ b E B) as B1.
    apply (IH (h ++ [e]) s1 s' (match e with Change _ _ => true | Publish => false | _ => b end)).
    + apply (phase_step h s e s1 F E); [intros ->; apply B; cbn in Ti; tauto|intros i ->; apply Tu; left; reflexivity].
    + exact B1.
    + destruct e; cbn in Ti; tauto.
    + intros i I. apply Tu. right. exact I.
    + exact R.
Qed.
Lemma fresh_start : fresh [] start.
Proof. intros u d since (e & E & _). destruct e; discriminate E. Qed.
Lemma phase_start : phase [] start.
Proof. intros u d since (e & E & _). destruct e; discriminate E. Qed.
End Proofs.
