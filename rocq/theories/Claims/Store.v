(** Claims about the symbol index of a workspace. *)
From Coq Require Import String.
From Coq Require Import List Bool NArith ZArith Lia Permutation.
From Coq.Strings Require Import Byte.
From Verif Require Import Base.Bytes Base.BytesProofs Base.Protocol Base.Decimal
  Codec.CodecSpec Symbols.Symbols Symbols.KeysModel Words.TokeniserSpec
  Storage.KvModel Store.FilterModel Store.StoreModel Store.StoreSpec Store.StoreProofs Store.LookupKinds
  Store.RefTheorems Store.StoreTheorems Store.IndexProofs Store.ClaimProofs Store.Examples.
Import ListNotations.
Open Scope list_scope.

(** ** C08, C09 look-ups are exact *)
(** After any history, a look-up returns exactly the declarations that bear the
    name in the latest indexed contents of all files.  Property look-ups need
    that no file's URI ends in a digit; class constants are in C09. *)
Theorem C08_look_ups_exact_partial : forall (T : Text) (X : XorFilter) root h st q,
  text_ok T -> Forall event_ok h -> run root h = Some st ->
  (forall n, In n (query_names q) -> ~ In NUL n) ->
  query_kind q <> KClassConst -> (query_kind q = KProperty -> plain_uris h) ->
  exists l, ask st q = Some l /\ exactly shown (fun s => current h s /\ wanted q s) l.
Proof.
  intros T X root h st q TOK OK R N NC NP. destruct (ask_exact TOK root h st q OK R N) as (l & A & E).
  - destruct q; simpl in *; auto; congruence.
  - exists l. split; [exact A|]. now apply exact_answer_exactly.
Qed.
Print Assumptions C08_look_ups_exact_partial.

(** Without the restriction on URIs it is false: the property of the file
    a.php5 at lines 1-51 and the property of a.php at line 51 share a key, and
    only the one indexed last is found. *)
Definition prop_a : doc := Doc (B "file:///w/a.php") (B "1")
  [a_property (B "file:///w/a.php") "\A" "$x" (line_range 51 51)] [] [].
Definition prop_a5 : doc := Doc (B "file:///w/a.php5") (B "2")
  [a_property (B "file:///w/a.php5") "\A" "$x" (line_range 1 51)] [] [].
Theorem C08_properties_exact_refuted : exists h st l s,
  Forall event_ok h /\ run root_uri h = Some st /\ ask st (QProperty (B "\A") (B "$x")) = Some l
  /\ current h s /\ wanted (QProperty (B "\A") (B "$x")) s /\ forall x, In x l -> ~ shown s x.
Proof.
  exists [EvSync prop_a; EvSync prop_a5]. eexists. eexists. exists (a_property (B "file:///w/a.php") "\A" "$x" (line_range 51 51)).
  split; [constructor; [unfold prop_a; cbn [event_ok]; ok|constructor; [unfold prop_a5; cbn [event_ok]; ok|constructor]]|].
  split; [vm_compute; reflexivity|]. split; [vm_compute; reflexivity|]. split; [|split; [split; reflexivity|]].
  - exists (B "file:///w/a.php"), prop_a. split; [reflexivity|]. split; [exact I|]. exists [], []. split; [reflexivity|]. intros s' [].
  - intros x [<-|[]] H. cbn [shown a_property] in H. destruct H as (H & _). discriminate H.
Qed.
Print Assumptions C08_properties_exact_refuted.

(** Class constants are found exactly when no two files declare the same
    constant and no other constant's name starts with the one looked up. *)
Theorem C09_class_constants_exact_partial : forall (T : Text) (X : XorFilter) root h st q,
  text_ok T -> Forall event_ok h -> run root h = Some st ->
  (forall n, In n (query_names q) -> ~ In NUL n) -> covered h q ->
  exists l, ask st q = Some l /\ exactly shown (fun s => current h s /\ wanted q s) l.
Proof.
  intros T X root h st q TOK OK R N C. destruct (ask_exact TOK root h st q OK R N C) as (l & A & E).
  exists l. split; [exact A|]. now apply exact_answer_exactly.
Qed.
Print Assumptions C09_class_constants_exact_partial.

(** Looking up FOO also returns FOOBAR: GetClassConsts scans the prefix
    without a separator behind the name. *)
Definition const_doc : doc := Doc uri_a (B "1") [a_constant uri_a "\A" "FOO" "1"; a_constant uri_a "\A" "FOOBAR" "2"] [] [].
Theorem C09_class_constants_exact_refuted : exists h st l x,
  Forall event_ok h /\ run root_uri h = Some st /\ ask st (QClassConst (B "\A") (B "FOO")) = Some l
  /\ In (SClassConst x) l /\ cc_name x = B "FOOBAR".
Proof.
  exists [EvSync const_doc]. eexists. eexists. eexists.
  split; [constructor; [unfold const_doc; cbn [event_ok]; ok|constructor]|].
  split; [vm_compute; reflexivity|]. split; [vm_compute; reflexivity|]. split; [right; left; reflexivity|reflexivity].
Qed.
Print Assumptions C09_class_constants_exact_refuted.

(** the example history: two files, a restart, one file indexed again *)
Example C08_hypotheses_met :
  text_ok ascii_text /\ Forall event_ok example
  /\ (exists st, run root_uri example = Some st
      /\ option_map (map kind_of) (ask st (QMethod (B "\App\Shop") (B "BUY"))) = Some [KMethod]
      /\ ask st (QMethod (B "\App\Shop") (B "sell")) = Some []
      /\ option_map (map kind_of) (ask st (QClass (B "\App\customer"))) = Some [KClass]
      /\ option_map (map kind_of) (ask st (QClassConst (B "\App\Customer") (B "OPEN"))) = Some [KClassConst])
  /\ plain_uris example.
Proof.
  split; [exact ascii_text_ok|]. split; [exact example_ok|]. split.
  - eexists. split; [vm_compute; reflexivity|]. compute_all.
  - intros d [<-|[<-|[<-|[]]]]; (split; [discriminate|]); intros (p & b & E & D); cbn [d_uri doc_a doc_b doc_a2] in E.
    all: assert (L : last (p ++ [b]) NUL = b) by apply last_last; rewrite <- E in L; vm_compute in L; subst b; discriminate D.
Qed.
Ltac const_cases J :=
  cbn in J; repeat (let J' := fresh in destruct J as [J'|J]; [first [discriminate J'|injection J' as <-]|]); try (exfalso; exact J).
Example C09_hypotheses_met : covered example (QClassConst (B "\App\Customer") (B "OPEN")).
Proof.
  split.
  - intros d1 d2 c1 c2 I1 I2 J1 J2 S _. cbn in I1, I2.
    destruct I1 as [<-|[<-|[<-|[]]]]; const_cases J1; destruct I2 as [<-|[<-|[<-|[]]]]; const_cases J2;
    first [reflexivity|discriminate S].
  - intros d c t I J S Nm. cbn in I. destruct I as [<-|[<-|[<-|[]]]]; const_cases J; try discriminate S.
    cbn [cc_name] in Nm. rewrite <- (app_nil_r (B "OPEN")) in Nm at 1. apply app_inv_head in Nm. congruence.
Qed.

(** ** C10 *)
(** Methods and properties that another file declares stay findable. *)
Theorem C10_members_kept_partial : forall (T : Text) (X : XorFilter) root h st d st' s,
  text_ok T -> Forall event_ok h -> doc_ok d -> run root h = Some st -> SyncDocument st d = Some st' ->
  current h s -> symbol_uri s <> d_uri d ->
  match s with
  | SMethod m => exists l x, GetMethods st' (ts_fqn (m_scope m)) (m_name m) = Some l /\ In x l /\ shown s (SMethod x)
  | SProperty p => plain_uris (h ++ [EvSync d]) ->
      exists l x, GetProperties st' (ts_fqn (pr_scope p)) (pr_name p) = Some l /\ In x l /\ shown s (SProperty x)
  | _ => True
  end.
Proof.
  intros T X root h st d st' s TOK OK DOK R S C U.
  assert (R' : run root (h ++ [EvSync d]) = Some st') by (rewrite run_snoc, R; exact S).
  assert (OK' : Forall event_ok (h ++ [EvSync d])) by (apply Forall_app; split; [exact OK|constructor; [exact DOK|constructor]]).
  destruct (current_names TOK h s OK C) as [_ N].
  assert (C' : current (h ++ [EvSync d]) s) by (apply current_sync; auto).
  assert (G : forall q, (forall n, In n (query_names q) -> ~ In NUL n) -> covered (h ++ [EvSync d]) q -> wanted q s ->
     exists l x, ask st' q = Some l /\ In x l /\ shown s x).
  { intros q QN CV W. destruct (ask_exact TOK root _ st' q OK' R' QN CV) as (l & A & E). apply exact_answer_exactly in E as (_ & _ & E).
    destruct (E s (conj C' W)) as (x & Ix & Sx). eauto. }
  destruct s as [s|s|s|s|s|s|s|s|s|s]; try exact I.
  - destruct (G (QMethod (ts_fqn (m_scope s)) (m_name s))) as (l & x & A & Ix & Sx); [exact N|exact I|split; reflexivity|].
    cbn [ask] in A. destruct (GetMethods st' _ _) as [l'|] eqn:E; [|discriminate]. injection A as <-.
    apply in_map_iff in Ix as (x' & <- & Ix). exists l', x'. auto.
  - intros P. destruct (G (QProperty (ts_fqn (pr_scope s)) (pr_name s))) as (l & x & A & Ix & Sx); [exact N|exact P|split; reflexivity|].
    cbn [ask] in A. destruct (GetProperties st' _ _) as [l'|] eqn:E; [|discriminate]. injection A as <-.
    apply in_map_iff in Ix as (x' & <- & Ix). exists l', x'. auto.
Qed.
Print Assumptions C10_members_kept_partial.

(** Class constants of the other file are replaced. *)
Definition const_a : doc := Doc uri_a (B "1") [a_constant uri_a "\A" "FOO" "1"] [] [].
Definition const_b : doc := Doc uri_b (B "2") [a_constant uri_b "\A" "FOO" "2"] [] [].
Definition const_a_empty : doc := Doc uri_a (B "3") [] [] [].
Lemma const_a_ok : doc_ok const_a. Proof. unfold const_a. ok. Qed.
Lemma const_b_ok : doc_ok const_b. Proof. unfold const_b. ok. Qed.
Lemma const_a_empty_ok : doc_ok const_a_empty. Proof. unfold const_a_empty. ok. Qed.
Theorem C10_class_constants_kept_refuted : exists h st d st' s l,
  Forall event_ok h /\ doc_ok d /\ run root_uri h = Some st /\ SyncDocument st d = Some st'
  /\ current h (SClassConst s) /\ symbol_uri (SClassConst s) <> d_uri d
  /\ GetClassConsts st' (ts_fqn (cc_scope s)) (cc_name s) = Some l
  /\ forall x, In x l -> ~ shown (SClassConst s) (SClassConst x).
Proof.
  exists [EvSync const_a]. eexists. exists const_b. eexists. eexists. eexists.
  split; [constructor; [exact const_a_ok|constructor]|]. split; [exact const_b_ok|].
  split; [vm_compute; reflexivity|]. split; [vm_compute; reflexivity|]. split; [|split; [|split]].
  - exists uri_a, const_a. split; [reflexivity|]. split; [exact I|]. exists [], []. split; [reflexivity|]. intros s' [].
  - discriminate.
  - vm_compute. reflexivity.
  - intros x [<-|[]] H. destruct H as (H & _). discriminate H.
Qed.
Print Assumptions C10_class_constants_kept_refuted.

Example C10_hypotheses_met : exists st st' l,
  run root_uri [EvSync doc_b] = Some st /\ SyncDocument st doc_a = Some st'
  /\ current [EvSync doc_b] (a_method uri_b "\App\Customer" "sell")
  /\ GetMethods st' (B "\App\Customer") (B "sell") = Some l /\ List.length l = 1%nat.
Proof.
  eexists. eexists. eexists. split; [vm_compute; reflexivity|]. split; [vm_compute; reflexivity|]. split; [|split; [vm_compute; reflexivity|reflexivity]].
  exists uri_b, doc_b. split; [reflexivity|]. split; [exact I|].
  exists [a_class uri_b "\App\Customer"], [a_constant uri_b "\App\Customer" "OPEN" "2"; a_property uri_b "\App\Customer" "$name" (line_range 7 7)].
  split; [reflexivity|]. intros s' [<-|[<-|[]]] _ H; exact H.
Qed.

(** ** C11 kinds *)
(** Leaving out of every indexed document all symbols of the other kinds
    changes no answer about this kind. *)
Theorem C11_kinds_apart : forall (T : Text) (X : XorFilter) root h st st' q,
  text_ok T -> Forall event_ok h -> run root h = Some st ->
  run root (map (only_kind_event (query_kind q)) h) = Some st' ->
  (forall n, In n (query_names q) -> ~ In NUL n) -> covered h q ->
  exists l l', ask st q = Some l /\ ask st' q = Some l' /\ Permutation l l'.
Proof. intros T X root h st st' q TOK. now apply kinds_apart. Qed.
Print Assumptions C11_kinds_apart.

(** Whatever a look-up returns shows a current declaration of its kind. *)
Theorem C11_answers_have_the_kind : forall (T : Text) (X : XorFilter) root h st q l x,
  text_ok T -> Forall event_ok h -> run root h = Some st ->
  (forall n, In n (query_names q) -> ~ In NUL n) -> covered h q ->
  ask st q = Some l -> In x l -> exists s, current h s /\ kind_of s = query_kind q /\ shown s x.
Proof.
  intros T X root h st q l x TOK OK R N C A Ix. destruct (ask_exact TOK root h st q OK R N C) as (l' & A' & E).
  rewrite A in A'. injection A' as <-. apply exact_answer_exactly in E as (_ & E & _). destruct (E x Ix) as (s & (Cu & W) & S).
  exists s. split; [exact Cu|]. split; [now apply wanted_kind|exact S].
Qed.
Print Assumptions C11_answers_have_the_kind.
Example C11_hypotheses_met : exists st st' l, run root_uri example = Some st
  /\ run root_uri (map (only_kind_event KMethod) example) = Some st'
  /\ ask st' (QAllMethods (B "\App\Customer")) = Some l /\ ask st (QAllMethods (B "\App\Customer")) = Some l
  /\ ask st' (QClass (B "\App\Customer")) = Some [] /\ List.length l = 1%nat.
Proof. do 3 eexists. compute_all. Qed.

(** ** C12 re-indexing *)
(** After indexing [d], look-ups show the declarations of [d], and of the other
    files what they showed before. *)
Theorem C12_sync_replaces_own_symbols_partial : forall (T : Text) (X : XorFilter) root h st d st' q,
  text_ok T -> Forall event_ok h -> doc_ok d -> run root h = Some st -> SyncDocument st d = Some st' ->
  (forall n, In n (query_names q) -> ~ In NUL n) -> covered (h ++ [EvSync d]) q ->
  exists l, ask st' q = Some l /\ exactly shown (fun s =>
      ((symbol_uri s = d_uri d /\ declares d s) \/ (symbol_uri s <> d_uri d /\ current h s)) /\ wanted q s) l.
Proof.
  intros T X root h st d st' q TOK OK DOK R S N C.
  assert (R' : run root (h ++ [EvSync d]) = Some st') by (rewrite run_snoc, R; exact S).
  assert (OK' : Forall event_ok (h ++ [EvSync d])) by (apply Forall_app; split; [exact OK|constructor; [exact DOK|constructor]]).
  destruct (ask_exact TOK root _ st' q OK' R' N C) as (l & A & E). exists l. split; [exact A|].
  apply exact_answer_exactly in E. revert E. apply exactly_ext. intros s. rewrite current_sync by assumption. tauto.
Qed.
Print Assumptions C12_sync_replaces_own_symbols_partial.

(** For class constants declared in two files it is false: re-indexing one
    file removes the constant although the other file still declares it. *)
Theorem C12_other_files_unchanged_refuted : exists h st d st' s,
  Forall event_ok h /\ doc_ok d /\ run root_uri h = Some st /\ SyncDocument st d = Some st'
  /\ current h (SClassConst s) /\ symbol_uri (SClassConst s) <> d_uri d
  /\ GetClassConsts st' (ts_fqn (cc_scope s)) (cc_name s) = Some [].
Proof.
  exists [EvSync const_a; EvSync const_b]. eexists. exists const_a_empty. eexists. eexists.
  split; [constructor; [exact const_a_ok|constructor; [exact const_b_ok|constructor]]|]. split; [exact const_a_empty_ok|].
  split; [vm_compute; reflexivity|]. split; [vm_compute; reflexivity|]. split; [|split].
  - exists uri_b, const_b. split; [reflexivity|]. split; [exact I|]. exists [], []. split; [reflexivity|]. intros s' [].
  - discriminate.
  - vm_compute. reflexivity.
Qed.
Print Assumptions C12_other_files_unchanged_refuted.
Example C12_hypotheses_met : exists st st', run root_uri [EvSync doc_a; EvSync doc_b] = Some st /\ SyncDocument st doc_a2 = Some st'
  /\ ask st' (QMethod (B "\App\Shop") (B "sell")) = Some []
  /\ option_map (@List.length _) (ask st' (QMethod (B "\App\Shop") (B "buy"))) = Some 1%nat
  /\ ask st' (QFunction (B "\App\helper")) = Some []
  /\ option_map (@List.length _) (ask st' (QMethod (B "\App\Customer") (B "sell"))) = Some 1%nat.
Proof. do 2 eexists. compute_all. Qed.

(** ** C13 *)
Theorem C13_sync_idempotent : forall (T : Text) (X : XorFilter) root h st d st1 st2 q,
  Forall event_ok h -> doc_ok d -> run root h = Some st ->
  SyncDocument st d = Some st1 -> SyncDocument st1 d = Some st2 -> ask st2 q = ask st1 q.
Proof. intros T X. exact sync_twice. Qed.
Print Assumptions C13_sync_idempotent.
Example C13_hypotheses_met : exists st st1 st2, run root_uri [EvSync doc_b; EvSync doc_a] = Some st
  /\ SyncDocument st doc_a2 = Some st1 /\ SyncDocument st1 doc_a2 = Some st2
  /\ ask st2 (QAllMethods (B "\App\Shop")) <> Some [] /\ ask st2 (QAllMethods (B "\App\Shop")) <> ask st (QAllMethods (B "\App\Shop")).
Proof. do 3 eexists. repeat (split; [vm_compute; reflexivity|]). split; vm_compute; discriminate. Qed.

(** ** C14 deleting *)
Theorem C14_delete_removes_own_symbols_partial : forall (T : Text) (X : XorFilter) root h st u st' q,
  text_ok T -> Forall event_ok h -> ~ In NUL u -> run root h = Some st -> DeleteDocument st u = Some st' ->
  (forall n, In n (query_names q) -> ~ In NUL n) -> covered h q ->
  exists l, ask st' q = Some l /\ exactly shown (fun s => symbol_uri s <> u /\ current h s /\ wanted q s) l.
Proof.
  intros T X root h st u st' q TOK OK NU R S N C.
  assert (R' : run root (h ++ [EvDelete u]) = Some st') by (rewrite run_snoc, R; exact S).
  assert (OK' : Forall event_ok (h ++ [EvDelete u])) by (apply Forall_app; split; [exact OK|constructor; [exact NU|constructor]]).
  assert (SD : synced_docs (h ++ [EvDelete u]) = synced_docs h) by (rewrite synced_docs_app; apply app_nil_r).
  destruct (ask_exact TOK root _ st' q OK' R' N) as (l & A & E).
  { destruct q; simpl in *; unfold plain_uris, no_shared_constants, no_longer_constant in *; rewrite ?SD; exact C. }
  exists l. split; [exact A|].
  apply exact_answer_exactly in E. revert E. apply exactly_ext. intros s. rewrite current_delete by assumption. tauto.
Qed.
Print Assumptions C14_delete_removes_own_symbols_partial.

Theorem C14_other_files_kept_refuted : exists h st u st' s,
  Forall event_ok h /\ run root_uri h = Some st /\ DeleteDocument st u = Some st'
  /\ current h (SClassConst s) /\ symbol_uri (SClassConst s) <> u
  /\ GetClassConsts st' (ts_fqn (cc_scope s)) (cc_name s) = Some [].
Proof.
  exists [EvSync const_a; EvSync const_b]. eexists. exists uri_a. eexists. eexists.
  split; [constructor; [exact const_a_ok|constructor; [exact const_b_ok|constructor]]|].
  split; [vm_compute; reflexivity|]. split; [vm_compute; reflexivity|]. split; [|split].
  - exists uri_b, const_b. split; [reflexivity|]. split; [exact I|]. exists [], []. split; [reflexivity|]. intros s' [].
  - discriminate.
  - vm_compute. reflexivity.
Qed.
Print Assumptions C14_other_files_kept_refuted.
Example C14_hypotheses_met : exists st st', run root_uri example = Some st /\ DeleteDocument st uri_a = Some st'
  /\ ask st' (QClass (B "\App\Shop")) = Some []
  /\ option_map (@List.length _) (ask st' (QClass (B "\App\Customer"))) = Some 1%nat.
Proof. do 2 eexists. compute_all. Qed.

(** ** C16, C17 indexing a folder *)
(** When indexing the files of a folder has finished, look-ups show exactly the
    declarations of those files and of the documents outside the file system
    (stubs); of files not seen again nothing is left. *)
Theorem C16_vanished_files_cleaned_partial : forall (T : Text) (X : XorFilter) root h st files st' q,
  text_ok T -> Forall event_ok h -> run root h = Some st -> s_synced st = [] ->
  NoDup (map d_uri files) -> Forall doc_ok files -> index_folder st files = Some st' ->
  (forall n, In n (query_names q) -> ~ In NUL n) -> covered (h ++ map EvSync files) q ->
  exists l, ask st' q = Some l
    /\ exactly shown (fun s => held (after_indexing h files) s /\ wanted q s) l.
Proof.
  intros T X root h st files st' q TOK OK R SY NF DF IX N C.
  destruct (index_folder_run root h st files OK R SY NF DF st' IX) as (hs & R' & OKs & SD & LA & _).
  assert (OK' : Forall event_ok (h ++ hs)) by (apply Forall_app; auto).
  assert (IS : forall d, In d (synced_docs (h ++ hs)) -> In d (synced_docs (h ++ map EvSync files))).
  { intros d. rewrite !synced_docs_app, SD. intros I. apply in_app_or in I as [I|I]; apply in_or_app; [left; exact I|right].
    apply filter_In in I as [I _]. clear - I. induction files as [|a fs IHf]; [destruct I|]. destruct I as [->|I]; [left; reflexivity|right; auto]. }
  destruct (ask_exact TOK root _ st' q OK' R' N) as (l & A & E).
  { assert (P : plain_uris (h ++ map EvSync files) -> plain_uris (h ++ hs)) by (intros P d I; apply P; auto).
    assert (P' : no_shared_constants (h ++ map EvSync files) -> no_shared_constants (h ++ hs)) by (intros P' d1 d2 c1 c2 I1 I2; apply P'; auto).
    destruct q; simpl in *; auto. destruct C as [C1 C2]. split; [auto|]. intros d c t I. apply C2. auto. }
  exists l. split; [exact A|]. apply exact_answer_exactly in E. revert E. apply exactly_ext. intros s.
  unfold current, held. split; intros ((u & d & L & D) & W); (split; [exists u, d|exact W]); (split; [|exact D]).
  - rewrite <- LA. exact L.
  - rewrite LA. exact L.
Qed.
Print Assumptions C16_vanished_files_cleaned_partial.

(** During folder indexing a file is analysed (synced) exactly when it was not
    indexed before or its hash differs from that of the indexed content; the
    run has the effect of a history [hs] in which just those were synced. *)
Theorem C17_changed_files_analysed_partial : forall (T : Text) (X : XorFilter) root h st files st',
  Forall event_ok h -> run root h = Some st -> s_synced st = [] ->
  NoDup (map d_uri files) -> Forall doc_ok files -> index_folder st files = Some st' ->
  exists hs, run root (h ++ hs) = Some st'
    /\ synced_docs hs = List.filter (fun d =>
         match latest h (d_uri d) with Some d0 => negb (str_eqb (d_hash d) (d_hash d0)) | None => true end) files
    /\ forall u, latest (h ++ hs) u = after_indexing h files u.
Proof.
  intros T X root h st files st' OK R SY NF DF IX.
  destruct (index_folder_run root h st files OK R SY NF DF st' IX) as (hs & R' & OKs & SD & LA & _).
  exists hs. split; [exact R'|]. split; [exact SD|exact LA].
Qed.
Print Assumptions C17_changed_files_analysed_partial.

(** Not so when a document changes between the start of the run and its turn:
    the hash compared with is the one recorded at the start.  Here a.php is
    indexed with unsaved content after the start, then compared in its old
    form: it is skipped, and the old content is not found. *)
Theorem C17_changed_during_indexing_refuted : exists h st st1 st2 st3 st4,
  Forall event_ok h /\ run root_uri h = Some st /\ PrepareForIndexing st = Some st1
  /\ SyncDocument st1 doc_a2 = Some st2
  /\ d_uri doc_a = d_uri doc_a2 /\ d_hash doc_a <> d_hash doc_a2
  /\ CompareAndIndexDocument st2 doc_a = Some st3 /\ FinishIndexing st3 = Some st4
  /\ declares doc_a (a_function uri_a "\App\helper")
  /\ ask st4 (QFunction (B "\App\helper")) = Some [].
Proof.
  exists [EvSync doc_a]. do 5 eexists. split; [constructor; [exact doc_a_ok|constructor]|].
  split; [vm_compute; reflexivity|]. split; [vm_compute; reflexivity|]. split; [vm_compute; reflexivity|].
  split; [reflexivity|]. split; [discriminate|]. split; [vm_compute; reflexivity|]. split; [vm_compute; reflexivity|]. split; [|vm_compute; reflexivity].
  split; [exact I|]. eexists. exists []. split; [|intros s' []]. unfold doc_a. cbn [d_symbols].
  instantiate (1 := [_; _; _; _]). reflexivity.
Qed.
Print Assumptions C17_changed_during_indexing_refuted.

Example C16_hypotheses_met : exists st st', run root_uri [EvSync doc_a; EvSync doc_b] = Some st /\ s_synced st = []
  /\ index_folder st [doc_a2] = Some st'
  /\ ask st' (QClass (B "\App\Customer")) = Some []
  /\ option_map (@List.length _) (ask st' (QMethod (B "\App\Shop") (B "buy"))) = Some 1%nat
  /\ after_indexing [EvSync doc_a; EvSync doc_b] [doc_a2] uri_b = None
  /\ after_indexing [EvSync doc_a; EvSync doc_b] [doc_a2] uri_a = Some doc_a2.
Proof. do 2 eexists. compute_all. Qed.

(** ** C22 the reference filter *)
(** After any use of the filter, what is inserted and committed is reported as
    possibly present, through any number of save and load cycles. *)
Theorem C22_no_false_negatives_partial : forall (X : XorFilter) ops l r n,
  xor_ok X -> populates X -> In r l ->
  Lookup (Nat.iter n reload (Commit (fold_left Insert l (filter_run ops)))) r = Some true.
Proof. intros X ops l r n XOK P I. now apply (filter_found XOK ops l r n I). Qed.
Print Assumptions C22_no_false_negatives_partial.
(** Without assuming that building the xor filter succeeds, it is never
    reported absent; but Lookup may fail, and then the file is skipped. *)
Theorem C22_never_reported_absent : forall (X : XorFilter) ops l r n,
  xor_ok X -> In r l ->
  Lookup (Nat.iter n reload (Commit (fold_left Insert l (filter_run ops)))) r <> Some false.
Proof. intros X ops l r n XOK I. now apply (filter_found XOK ops l r n I). Qed.
Print Assumptions C22_never_reported_absent.

Definition failing_filter : XorFilter := {| sum64 := fun _ => 0%Z; populate := fun _ => None; xor_contains := fun _ _ => true |}.
Lemma failing_filter_ok : xor_ok failing_filter. Proof. intros hs x H. discriminate H. Qed.
Theorem C22_populate_failure_refuted : exists (X : XorFilter) l r,
  xor_ok X /\ In r l /\ Lookup (Commit (fold_left Insert l NewFilter)) r = None.
Proof.
  exists failing_filter, [B "a"], (B "a"). split; [exact failing_filter_ok|]. split; [left; reflexivity|reflexivity].
Qed.
Print Assumptions C22_populate_failure_refuted.
Example C22_hypotheses_met : xor_ok maybe_filter /\ populates maybe_filter
  /\ Lookup (Nat.iter 2 reload (Commit (fold_left Insert [B "b"; B "a"; B "b"] (filter_run [FInsert (B "z"); FCommit; FReload])))) (B "b") = Some true.
Proof. split; [exact maybe_filter_ok|]. split; [exact maybe_filter_populates|]. reflexivity. Qed.

(** ** C23 find references *)
(** For files below the workspace folder, find-references returns exactly the
    locations recorded by the latest indexing, if xor filters can be built. *)
Theorem C23_references_exact_partial : forall (T : Text) (X : XorFilter) root h st ref,
  xor_ok X -> populates X -> Forall event_ok h -> Forall (event_in root) h -> run root h = Some st ->
  exists l, GetReferences st ref = Some l /\ forall loc, In loc l <-> referenced h ref loc.
Proof. intros T X root h st ref XOK P. now apply references_exact. Qed.
Print Assumptions C23_references_exact_partial.
(** In any case nothing else is returned. *)
Theorem C23_references_sound : forall (T : Text) (X : XorFilter) root h st ref,
  xor_ok X -> Forall event_ok h -> Forall (event_in root) h -> run root h = Some st ->
  exists l, GetReferences st ref = Some l /\ forall loc, In loc l -> referenced h ref loc.
Proof. intros T X root h st ref XOK. now apply references_sound. Qed.
Print Assumptions C23_references_sound.

(** A failing filter loses references. *)
Theorem C23_filter_failure_refuted : exists (X : XorFilter) h (st : store) loc,
  xor_ok X /\ Forall event_ok h /\ Forall (event_in root_uri) h /\ run root_uri h = Some st
  /\ referenced h (B "\App\Shop") loc /\ GetReferences st (B "\App\Shop") = Some [].
Proof.
  exists failing_filter, [EvSync doc_b]. eexists. exists (Loc uri_b (line_range 2 2)).
  split; [exact failing_filter_ok|]. split; [constructor; [exact doc_b_ok|constructor]|].
  split; [constructor; [|constructor]; intros _; exists (B "/b.php"); split; reflexivity|].
  split; [vm_compute; reflexivity|]. split; [|vm_compute; reflexivity].
  exists doc_b, (EntryInfo (B "\App\Shop") (line_range 2 2)). repeat split. left. reflexivity.
Qed.
Print Assumptions C23_filter_failure_refuted.

Lemma example_in : Forall (event_in root_uri) example.
Proof.
  constructor; [intros _; exists (B "/a.php"); split; reflexivity|]. constructor; [intros _; exists (B "/b.php"); split; reflexivity|].
  constructor; [exact I|]. constructor; [intros _; exists (B "/a.php"); split; reflexivity|constructor].
Qed.
Example C23_hypotheses_met : Forall (event_in root_uri) example /\ exists st, run root_uri example = Some st
  /\ GetReferences st (B "\App\Shop") = Some [Loc uri_b (line_range 2 2)]
  /\ GetReferences st (B "\App\Customer") = Some [].
Proof. split; [exact example_in|]. eexists. compute_all. Qed.

(** ** C58 indexing never fails *)
(** Any history of indexing, deleting, clearing and restarting runs through
    without a panic, if names are valid UTF-8. *)
Theorem C58_indexing_never_fails_partial : forall (T : Text) (X : XorFilter) root h,
  xor_ok X -> Forall event_ok h -> Forall event_encoded h -> exists st, run root h = Some st.
Proof. intros T X root h XOK. now apply run_total. Qed.
Print Assumptions C58_indexing_never_fails_partial.
Theorem C58_folder_indexing_never_fails_partial : forall (T : Text) (X : XorFilter) root h st files,
  xor_ok X -> Forall event_ok h -> Forall event_encoded h -> run root h = Some st -> s_synced st = [] ->
  NoDup (map d_uri files) -> Forall doc_ok files -> Forall encoded_doc files ->
  exists st', index_folder st files = Some st'.
Proof. intros T X. exact index_folder_total. Qed.
Print Assumptions C58_folder_indexing_never_fails_partial.
(** PHP identifiers may contain any bytes from 0x80; an invalid sequence makes
    the word splitter panic. *)
Definition bad_name : gostr := B "\A" ++ [xe2] ++ B "b".
Definition bad_doc : doc := Doc uri_a (B "1")
  [SFunction (Function (at_line uri_a 1 1) (at_line uri_a 1 1) (TS bad_name bad_name 0) [] [] [] None)] [] [].
Theorem C58_indexing_fails_refuted : exists h, Forall event_ok h /\ run root_uri h = None.
Proof.
  exists [EvSync bad_doc]. split; [|vm_compute; reflexivity].
  constructor; [|constructor]. cbn [event_ok]. unfold bad_doc. ok.
Qed.
Print Assumptions C58_indexing_fails_refuted.

(** ** C59 deleting a folder *)
(** Deleting a folder removes the files whose URI starts with the folder's. *)
Theorem C59_delete_folder_by_prefix_partial : forall (T : Text) (X : XorFilter) root h st p st' q,
  text_ok T -> Forall event_ok h -> run root h = Some st -> DeleteFolder st p = Some st' ->
  (forall n, In n (query_names q) -> ~ In NUL n) -> covered h q ->
  exists l, ask st' q = Some l
    /\ exactly shown (fun s => has_prefix p (symbol_uri s) = false /\ current h s /\ wanted q s) l.
Proof.
  intros T X root h st p st' q TOK OK R D N C.
  destruct (delete_folder_run root h st p OK R) as (us & E & IU & NU). rewrite D in E. symmetry in E.
  assert (OKd := deletes_ok us NU).
  assert (OK' : Forall event_ok (h ++ map EvDelete us)) by (apply Forall_app; auto).
  assert (SD : synced_docs (h ++ map EvDelete us) = synced_docs h) by (rewrite synced_docs_app, synced_docs_deletes; apply app_nil_r).
  destruct (ask_exact TOK root _ st' q OK' E N) as (l & A & EX).
  { destruct q; simpl in *; unfold plain_uris, no_shared_constants, no_longer_constant in *; rewrite ?SD; exact C. }
  exists l. split; [exact A|]. apply exact_answer_exactly in EX. revert EX. apply exactly_ext. intros s.
  rewrite !current_iff by assumption. rewrite latest_app_deletes.
  destruct (existsb (fun u' => str_eqb u' (symbol_uri s)) us) eqn:Ex.
  - apply existsb_exists in Ex as (u' & I & Eu). apply str_eqb_eq in Eu. subst u'. apply IU in I as [_ P]. rewrite P.
    split; [intros ((d & H & _) & _); discriminate|]. intros (H & _). discriminate.
  - split; [|tauto]. intros ((d & L & DD) & W). split; [|split; [eauto|exact W]].
    destruct (has_prefix p (symbol_uri s)) eqn:P; [|reflexivity]. exfalso.
    assert (I : In (symbol_uri s) us) by (apply IU; rewrite L; split; [discriminate|exact P]).
    assert (F : existsb (fun u' => str_eqb u' (symbol_uri s)) us = true); [|congruence].
    apply existsb_exists. exists (symbol_uri s). split; [exact I|apply str_eqb_refl].
Qed.
Print Assumptions C59_delete_folder_by_prefix_partial.

(** So the files of a sibling folder whose name is longer go as well. *)
Definition uri_src2 : gostr := B "file:///w/src2/c.php".
Definition doc_src2 : doc := Doc uri_src2 (B "1") [a_class uri_src2 "\C"] [] [].
Theorem C59_sibling_folder_kept_refuted : exists h st st' s,
  Forall event_ok h /\ run root_uri h = Some st /\ DeleteFolder st (B "file:///w/src") = Some st'
  /\ current h (SClass s) /\ has_prefix (B "file:///w/src/") (c_location s).(l_uri) = false
  /\ ask st' (QClass (ts_fqn (c_name s))) = Some [].
Proof.
  exists [EvSync doc_src2]. do 2 eexists.
  exists (Class (B "doc") (at_line uri_src2 1 1) (at_line uri_src2 1 9) NoClassModifier (ty "\C") (ty "") [] [] None).
  split; [constructor; [|constructor]; cbn [event_ok]; unfold doc_src2; ok|].
  split; [vm_compute; reflexivity|]. split; [vm_compute; reflexivity|]. split; [|split; [reflexivity|vm_compute; reflexivity]].
  exists uri_src2, doc_src2. split; [reflexivity|]. split; [exact I|]. exists [], []. split; [reflexivity|]. intros s' [].
Qed.
Print Assumptions C59_sibling_folder_kept_refuted.
Example C59_hypotheses_met : exists st st', run root_uri (EvSync doc_src2 :: example) = Some st
  /\ DeleteFolder st (B "file:///w/src2/") = Some st'
  /\ ask st' (QClass (B "\C")) = Some [] /\ option_map (@List.length _) (ask st' (QClass (B "\App\Shop"))) = Some 1%nat.
Proof. do 2 eexists. compute_all. Qed.
