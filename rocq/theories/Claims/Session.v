(** C90: the documents of a session. *)
From Coq Require Import String.
From Coq Require Import List Bool NArith ZArith Lia.
From Coq.Strings Require Import Byte.
From Verif Require Import Base.Bytes Base.BytesProofs Base.Protocol Base.Utf8 Codec.CodecSpec Codec.SymbolCodecSpec Symbols.Symbols Symbols.KeysModel Words.TokeniserSpec
  Text.TextModel Text.TextSpec Text.TextProofs Claims.Text
  Store.FilterModel Store.StoreModel Store.StoreSpec Store.StoreProofs Store.LookupKinds Store.StoreTheorems Store.Examples
  Session.SessionModel Session.SessionSpec Session.SessionProofs.
Import ListNotations.
Open Scope list_scope.
Open Scope nat_scope.

(** After a careful session, however long: no message has made the server
    panic; the server has for every open document the text the editor shows;
    the index holds the analysis of that text; and for every closed file whose
    last change the server was told of, the index holds the analysis of what is
    on the disk (or of a text with the same hash), and nothing if there is no
    such file. *)
Theorem C90_careful_partial : forall (T : Text) (X : XorFilter) root analyse hash decode es v,
  careful root analyse hash decode start es v ->
  exists w h, happen analyse hash decode (World [] (Session (empty_store root) [])) es = Some w
    /\ run root h = Some (se_store (w_session w)) /\ Forall event_ok h
    /\ (forall u t, v_editor v u = Some t ->
          (exists m, assoc_get (se_docs (w_session w)) u = Some m /\ td_text (md_text m) = t /\ td_lines (md_text m) = td_lines (SetText t))
          /\ latest h u = Some (document analyse hash u t true))
    /\ (forall u, v_editor v u = None -> assoc_get (se_docs (w_session w)) u = None)
    /\ (forall u t, v_editor v u = None -> v_told v u -> v_disk v u = Some t ->
          exists t0, hash t0 = hash t /\ latest h u = Some (document analyse hash u t0 true))
    /\ (forall u, v_editor v u = None -> v_told v u -> v_disk v u = None -> latest h u = None).
Proof.
  intros T X root analyse hash decode es v C.
  destruct (careful_inv root analyse hash decode _ _ _ C _ _ (start_inv root analyse hash)) as (w & h & E & [I1 I2 I3 I4 I5 IM I6 I7 I8]).
  exists w, h. split; [exact E|]. split; [exact I2|]. split; [exact I3|]. split; [|split; [exact I7|split]].
  - intros u t V. destruct (I6 u t V) as (_ & _ & L & m & M & _ & _ & MT & ML). eauto.
  - intros u t V TO D. assert (S := I8 u V TO). rewrite D in S. exact S.
  - intros u V TO D. assert (S := I8 u V TO). rewrite D in S. exact S.
Qed.
Print Assumptions C90_careful_partial.

(** So when the server has been told of every change and no two texts have the
    same hash, a lookup gives exactly the declarations in the texts of the open
    documents and of the closed files. *)
Theorem C90_lookups_partial : forall (T : Text) (X : XorFilter) root analyse hash decode es v q,
  text_ok T -> (forall t t', hash t = hash t' -> t = t') ->
  careful root analyse hash decode start es v -> (forall u, v_editor v u = None -> v_told v u) ->
  (forall n, In n (query_names q) -> ~ In NUL n) -> (forall h, covered h q) ->
  exists w l, happen analyse hash decode (World [] (Session (empty_store root) [])) es = Some w
    /\ ask (se_store (w_session w)) q = Some l
    /\ exactly shown (fun s => wanted q s /\ exists u t,
         (v_editor v u = Some t \/ (v_editor v u = None /\ v_disk v u = Some t)) /\ declares (document analyse hash u t true) s) l.
Proof.
  intros T X root analyse hash decode es v q TOK INJ C TOLD N COV.
  destruct (C90_careful_partial T X root analyse hash decode es v C) as (w & h & E & R & OK & HO & _ & HC & HN).
  destruct (ask_exact TOK root h _ q OK R N (COV h)) as (l & A & EX). exists w, l. split; [exact E|]. split; [exact A|].
  apply exact_answer_exactly in EX. revert EX. apply exactly_ext. intros s. split.
  - intros ((u & d & L & D) & W). split; [exact W|]. exists u. destruct (v_editor v u) as [t|] eqn:V.
    + exists t. split; [auto|]. destruct (HO u t V) as (_ & L'). rewrite L' in L. injection L as <-. exact D.
    + destruct (v_disk v u) as [t|] eqn:VD.
      * exists t. split; [auto|]. destruct (HC u t V (TOLD u V) VD) as (t0 & H0 & L'). apply INJ in H0 as ->. rewrite L' in L. injection L as <-. exact D.
      * rewrite (HN u V (TOLD u V) VD) in L. discriminate.
  - intros (W & u & t & [V|(V & VD)] & D); split; try exact W; exists u, (document analyse hash u t true); (split; [|exact D]).
    + now destruct (HO u t V).
    + destruct (HC u t V (TOLD u V) VD) as (t0 & H0 & L'). now apply INJ in H0 as ->.
Qed.
Print Assumptions C90_lookups_partial.

(** ** An analyser for the examples: the text is the name of the one class *)
Definition toy (u t : gostr) : list symbol * list gostr * list entry_info :=
  ([SClass (Class (B "doc") (at_line u 1 1) (at_line u 1 9) NoClassModifier (TS (BSL :: t) (BSL :: t) 0) (ty "") [] [] None)], [], []).
Definition same (t : gostr) : gostr := t.
Definition as_is (u : gostr) : option gostr := Some u.
Definition told (es : list happening) : option world := happen toy same as_is (World [] (Session (empty_store root_uri) [])) es.
(** the files in which the class is found *)
Definition found (w : world) (name : string) : option (list gostr) :=
  option_map (map symbol_uri) (ask (se_store (w_session w)) (QClass (B name))).

Ltac toygood := split; [apply ascii_plain; [isascii|apply no_lone_check; reflexivity]|split;
  [unfold document, toy, same; split; [ok|split; [ok|split; [cbn [d_symbols]; constructor; [|constructor]|split; [ok|ok]]]];
     (split; [cbv beta iota delta [symbol_ok]; unfold class_ok; repeat match goal with |- _ /\ _ => split end; ok|split; [reflexivity|split;
       [let n := fresh in let H := fresh in intros n H; cbn [symbol_names In] in H; repeat (destruct H as [H|H]; [rewrite <- H; not_in|]); destruct H|split; [exact I|ok]]]])
  |unfold document, toy, same; split; cbn [d_symbols d_namespaces];
     [let s := fresh in let c := fresh in let n := fresh in let J := fresh in let E := fresh in
      intros s c n [J|J] E; [subst s; vm_compute in E; injection E as <- <-;
        match goal with |- well_encoded ?x => destruct (ascii_good x ltac:(isascii)) as [?G _]; now apply well_encoded_good end|destruct J]
     |intros ? ? []]]].

Definition uri_c : gostr := B "file:///w/src/c.php".
Definition rename_change : change := Change (Some (Rng (Pos 0 1) (Pos 0 2))) (B "_").
(** files are created and notified, one of them as part of its folder; one is
    opened, changed, asked about, saved, closed; one is deleted *)
Definition a_session : list happening :=
  [Writes uri_a (B "Abc"); Writes uri_c (B "Cat"); Tells (Changed uri_a); Tells (Changed (B "file:///w/src"));
   Tells (DidOpen uri_a (B "Abc")); Tells (DidChange uri_a [rename_change]); Tells (Request uri_a true);
   Writes uri_a (B "A_c"); Tells (Changed uri_a); Tells (DidClose uri_a);
   Writes uri_b (B "Bee"); Tells (Changed uri_b); Tells (DidOpen uri_b (B "Bee"));
   Removes uri_c; Tells (Deleted uri_c)].

Lemma good_Abc : good toy same uri_a (B "Abc"). Proof. toygood. Qed.
Lemma good_A_c : good toy same uri_a (B "A_c"). Proof. toygood. Qed.
Lemma good_Cat : good toy same uri_c (B "Cat"). Proof. toygood. Qed.
Lemma good_Bee : good toy same uri_b (B "Bee"). Proof. toygood. Qed.

Ltac files H := cbn [v_disk] in H; unfold set in H; repeat
  (match type of H with (if str_eqb ?u ?w then _ else _) = Some _ =>
     let Q := fresh "Q" in destruct (str_eqb u w) eqn:Q; [apply str_eqb_eq in Q; subst w; (discriminate H || (injection H as <-))|] end).

Ltac next c := eapply careful_cons; [apply c|]; cbn [v_disk v_editor v_told].
Lemma a_session_careful : exists v, careful root_uri toy same as_is start a_session v
  /\ v_editor v uri_b = Some (B "Bee") /\ v_editor v uri_a = None /\ v_disk v uri_a = Some (B "A_c") /\ v_disk v uri_c = None
  /\ (forall u, v_editor v u = None -> v_told v u).
Proof.
  eexists. split; unfold a_session.
  - next goes_write. next goes_write.
    eapply careful_cons; [apply goes_changed; [reflexivity|]|]; cbn [v_disk v_editor v_told].
    { intros w t _ V. split; [reflexivity|]. files V; [exact good_Cat|exact good_Abc|discriminate V]. }
    eapply careful_cons; [apply goes_changed; [reflexivity|]|]; cbn [v_disk v_editor v_told].
    { intros w t _ V. split; [reflexivity|]. files V; [exact good_Cat|exact good_Abc|discriminate V]. }
    eapply careful_cons; [eapply goes_open; [reflexivity|reflexivity|reflexivity|exact good_Abc]|]; cbn [v_disk v_editor v_told].
    eapply careful_cons; [eapply (goes_change _ _ _ _ _ _ (B "Abc") _ (B "A_c")); [reflexivity| | |exact good_A_c]|]; cbn [v_disk v_editor v_told].
    { eapply edits_cons; [|constructor]. apply (edit_range (B "A") (B "b") (B "c")).
      - apply (at_check [] (B "A") (B "bc") []); [apply lines_last; oneline|reflexivity|oneline|isascii|reflexivity|reflexivity].
      - apply (at_check [] (B "Ab") (B "c") []); [apply lines_last; oneline|reflexivity|oneline|isascii|reflexivity|reflexivity]. }
    { intros c [<-|[]]. apply ascii_plain; [isascii|apply no_lone_check; reflexivity]. }
    eapply careful_cons; [apply goes_request; discriminate|]; cbn [v_disk v_editor v_told]. next goes_write.
    eapply careful_cons; [apply goes_changed; [reflexivity|]|]; cbn [v_disk v_editor v_told].
    { intros w t _ V. split; [reflexivity|]. files V; [exact good_A_c|exact good_Cat|discriminate V]. }
    eapply careful_cons; [eapply goes_close; reflexivity|]; cbn [v_disk v_editor v_told]. next goes_write.
    eapply careful_cons; [apply goes_changed; [reflexivity|]|]; cbn [v_disk v_editor v_told].
    { intros w t _ V. split; [reflexivity|]. files V; [exact good_Bee|exact good_A_c|exact good_Cat|discriminate V]. }
    eapply careful_cons; [eapply goes_open; [reflexivity|reflexivity|reflexivity|exact good_Bee]|]; cbn [v_disk v_editor v_told].
    next goes_remove. eapply careful_cons; [|constructor].
    apply goes_deleted; [reflexivity|reflexivity|not_in|]. intros w P. apply has_prefix_spec in P as [x ->]. split; destruct x; reflexivity.
  - split; [reflexivity|split; [reflexivity|split; [reflexivity|split; [reflexivity|]]]].
    intros u V. cbn [v_editor v_told v_disk] in *. unfold set, concerns in *. cbn [v_disk] in *.
    destruct (str_eqb uri_c u) eqn:Qc; [apply str_eqb_eq in Qc as <-; left; reflexivity|].
    destruct (str_eqb uri_b u) eqn:Qb; [discriminate|].
    destruct (str_eqb uri_a u) eqn:Qa.
    + right. right. exact I.
    + right. right. right. right. right. exact I.
Qed.
Example C90_hypotheses_met : exists v w, careful root_uri toy same as_is start a_session v
  /\ (forall u, v_editor v u = None -> v_told v u)
  /\ v_editor v uri_b = Some (B "Bee") /\ told a_session = Some w
  /\ found w "\A_c" = Some [uri_a] /\ found w "\Bee" = Some [uri_b] /\ found w "\Abc" = Some [] /\ found w "\Cat" = Some [].
Proof.
  destruct a_session_careful as (v & C & E & _ & _ & _ & TO). exists v.
  destruct (told a_session) as [w|] eqn:W; [|vm_compute in W; discriminate]. exists w.
  vm_compute in W. injection W as <-. split; [exact C|]. split; [exact TO|]. split; [exact E|]. split; [reflexivity|]. compute_all.
Qed.

(** ** Where the sessions of an editor are not careful *)
(** The text an editor opens a document with is ignored: with a text that is
    not the one on the disk (an unsaved backup, a file changed meanwhile) the
    server goes on with the file's. *)
Theorem C90_opened_text_refuted : exists w, told [Writes uri_a (B "Old"); Tells (Changed uri_a); Tells (DidOpen uri_a (B "New"))] = Some w
  /\ found w "\New" = Some [] /\ found w "\Old" = Some [uri_a]
  /\ option_map (fun m => td_text (md_text m)) (assoc_get (se_docs (w_session w)) uri_a) = Some (B "Old").
Proof. eexists. split; [vm_compute; reflexivity|]. compute_all. Qed.
Print Assumptions C90_opened_text_refuted.

(** A request about a file that is not open leaves its text in memory; the next
    change of the file is then not noticed, even when the file is opened. *)
Theorem C90_stale_document_refuted : exists w, told [Writes uri_a (B "Old"); Tells (Changed uri_a); Tells (Request uri_a false);
    Writes uri_a (B "New"); Tells (DidOpen uri_a (B "New"))] = Some w
  /\ found w "\New" = Some [] /\ found w "\Old" = Some [uri_a].
Proof. eexists. split; [vm_compute; reflexivity|]. compute_all. Qed.
Print Assumptions C90_stale_document_refuted.
Theorem C90_stale_notification_refuted : exists w, told [Writes uri_a (B "Old"); Tells (Changed uri_a); Tells (Request uri_a false);
    Writes uri_a (B "New"); Tells (Changed uri_a)] = Some w
  /\ found w "\New" = Some [] /\ found w "\Old" = Some [uri_a].
Proof. eexists. split; [vm_compute; reflexivity|]. compute_all. Qed.
Print Assumptions C90_stale_notification_refuted.

(** Changes that are discarded when a document is closed stay in the index. *)
Theorem C90_discarded_refuted : exists w, told [Writes uri_a (B "Old"); Tells (Changed uri_a); Tells (DidOpen uri_a (B "Old"));
    Tells (DidChange uri_a [Change None (B "Draft")]); Tells (DidClose uri_a)] = Some w
  /\ found w "\Draft" = Some [uri_a] /\ found w "\Old" = Some [] /\ assoc_get (w_files w) uri_a = Some (B "Old").
Proof. eexists. split; [vm_compute; reflexivity|]. compute_all. Qed.
Print Assumptions C90_discarded_refuted.

(** A file deleted while it is open comes back when its document is closed. *)
Theorem C90_ghost_refuted : exists w, told [Writes uri_a (B "Old"); Tells (Changed uri_a); Tells (DidOpen uri_a (B "Old"));
    Removes uri_a; Tells (Deleted uri_a); Tells (DidClose uri_a)] = Some w
  /\ found w "\Old" = Some [uri_a] /\ assoc_get (w_files w) uri_a = None.
Proof. eexists. split; [vm_compute; reflexivity|]. compute_all. Qed.
Print Assumptions C90_ghost_refuted.

(** A document that is opened before its file exists, then saved and closed, is
    gone from the index, and stays so when the file is notified again. *)
Theorem C90_new_file_refuted : exists w, told [Tells (DidOpen uri_a (B "New")); Writes uri_a (B "New"); Tells (Changed uri_a);
    Tells (DidClose uri_a); Tells (Changed uri_a)] = Some w
  /\ found w "\New" = Some [] /\ assoc_get (w_files w) uri_a = Some (B "New").
Proof. eexists. split; [vm_compute; reflexivity|]. compute_all. Qed.
Print Assumptions C90_new_file_refuted.

(** Deletions and creations are handled by different goroutines
    (workspaceStore.go:42-47), so that a file deleted and written again may be
    notified in this order. *)
Theorem C90_reordered_refuted : exists w, told [Writes uri_a (B "Old"); Tells (Changed uri_a); Removes uri_a; Writes uri_a (B "Old");
    Tells (Changed uri_a); Tells (Deleted uri_a)] = Some w
  /\ found w "\Old" = Some [] /\ assoc_get (w_files w) uri_a = Some (B "Old").
Proof. eexists. split; [vm_compute; reflexivity|]. compute_all. Qed.
Print Assumptions C90_reordered_refuted.
