From Coq Require Import String.
From Coq Require Import List Bool NArith ZArith Lia.
From Coq.Strings Require Import Byte.
From Verif Require Import Base.Bytes Base.BytesProofs Base.Protocol Symbols.Symbols Symbols.KeysModel
  Text.TextModel Text.TextSpec Text.TextProofs
  Store.FilterModel Store.StoreModel Store.StoreSpec Store.StoreProofs Store.LookupProofs Store.RefProofs Store.StoreTheorems Store.IndexProofs
  Session.SessionModel Session.SessionSpec.
Import ListNotations.
Open Scope list_scope.
Open Scope nat_scope.

Section S.
Context {T : Text} {X : XorFilter}.

(** ** Steps of the store *)
Lemma delete_fields : forall st u st', DeleteDocument st u = Some st' -> s_uri st' = s_uri st /\ s_synced st' = s_synced st.
Proof.
  intros st u st' H. unfold DeleteDocument in H. destruct (newCompletionIndexDeletor (s_db st) u) as [[a b]|]; [|discriminate].
  destruct (newSymbolDeletor (s_greb st) u); [|discriminate]. injection H as <-. split; reflexivity.
Qed.

Lemma sync_step : forall root h st d, Forall event_ok h -> run root h = Some st -> doc_ok d -> encoded_doc d ->
  exists st', SyncDocument st d = Some st' /\ run root (h ++ [EvSync d]) = Some st' /\ Forall event_ok (h ++ [EvSync d])
    /\ s_uri st' = s_uri st /\ s_synced st' = s_synced st.
Proof.
  intros root h st d OK R DOK E. destruct (sync_total root h st d OK R E) as (st' & S). exists st'. split; [exact S|].
  split; [rewrite run_snoc, R; exact S|]. split; [apply Forall_app; split; [exact OK|constructor; [exact DOK|constructor]]|].
  apply sync_inv in S. split; [apply (sp_uri _ _ _ S)|apply (sp_synced _ _ _ S)].
Qed.

Lemma delete_step : forall root h st u, Forall event_ok h -> run root h = Some st -> ~ In NUL u ->
  exists st', DeleteDocument st u = Some st' /\ run root (h ++ [EvDelete u]) = Some st' /\ Forall event_ok (h ++ [EvDelete u])
    /\ s_uri st' = s_uri st /\ s_synced st' = s_synced st.
Proof.
  intros root h st u OK R N. assert (D : exists st', DeleteDocument st u = Some st').
  { unfold DeleteDocument. rewrite (ciDeletor_empty _ _ _ u R). assert (GI := greb_invariant _ _ _ OK R u). unfold greb_keys in GI. rewrite GI. eauto. }
  destruct D as (st' & D). exists st'. split; [exact D|]. split; [rewrite run_snoc, R; exact D|].
  split; [apply Forall_app; split; [exact OK|constructor; [exact N|constructor]]|]. eapply delete_fields; eauto.
Qed.

Lemma deletes_step : forall us root h st, Forall event_ok h -> run root h = Some st -> (forall u, In u us -> ~ In NUL u) ->
  exists st', run root (h ++ map EvDelete us) = Some st' /\ Forall event_ok (h ++ map EvDelete us)
    /\ s_uri st' = s_uri st /\ s_synced st' = s_synced st.
Proof.
  induction us as [|u us IH]; intros root h st OK R N; [exists st; rewrite app_nil_r; auto|].
  destruct (delete_step root h st u OK R (N u (or_introl eq_refl))) as (st1 & _ & R1 & OK1 & U1 & S1).
  destruct (IH root _ st1 OK1 R1 (fun x I => N x (or_intror I))) as (st2 & R2 & OK2 & U2 & S2).
  exists st2. rewrite <- app_assoc in R2, OK2. simpl in R2, OK2. simpl map. repeat split; congruence || assumption.
Qed.

Lemma compare_eq : forall root h st d, Forall event_ok h -> run root h = Some st -> s_synced st = [] ->
  CompareAndIndexDocument st d = match latest h (d_uri d) with
    | Some d0 => if str_eqb (d_hash d) (d_hash d0) then Some st else SyncDocument st d
    | None => SyncDocument st d end.
Proof.
  intros root h st d OK R SY. unfold CompareAndIndexDocument. rewrite SY. cbn [assoc_get]. rewrite (doc_value_hash root h st _ OK R).
  destruct (latest h (d_uri d)); reflexivity.
Qed.

Variables (root : gostr) (analyse : gostr -> gostr -> list symbol * list gostr * list entry_info)
  (hash : gostr -> gostr) (decode : gostr -> option gostr).
Notation made u t := (document analyse hash u t true).

Lemma document_uri : forall u t b, d_uri (document analyse hash u t b) = u.
Proof. intros. unfold document. destruct b; [destruct (analyse u t) as [[a b] c]|]; reflexivity. Qed.
Lemma document_hash : forall u t b, d_hash (document analyse hash u t b) = hash t.
Proof. intros. unfold document. destruct b; [destruct (analyse u t) as [[a b] c]|]; reflexivity. Qed.

(** the index has the analysis of this text, or of one with the same hash *)
Definition shows (h : list event) (u : gostr) (o : option gostr) : Prop :=
  match o with
  | None => latest h u = None
  | Some t => exists t0, hash t0 = hash t /\ latest h u = Some (made u t0)
  end.

Definition kept (h : list event) (docs : list (gostr * mem_doc)) (u t : gostr) : Prop :=
  has_prefix root u = true /\ good analyse hash u t /\ latest h u = Some (made u t)
  /\ exists m, assoc_get docs u = Some m /\ md_open m = true /\ md_loaded m = true
       /\ td_text (md_text m) = t /\ td_lines (md_text m) = td_lines (SetText t).

Record inv (v : view) (w : world) (h : list event) : Prop := {
  i_files : forall u, assoc_get (w_files w) u = v_disk v u;
  i_run : run root h = Some (se_store (w_session w));
  i_ok : Forall event_ok h;
  i_synced : s_synced (se_store (w_session w)) = [];
  i_root : s_uri (se_store (w_session w)) = root;
  i_made : forall u d, latest h u = Some d -> exists t, d = made u t;
  i_open : forall u t, v_editor v u = Some t -> kept h (se_docs (w_session w)) u t;
  i_closed : forall u, v_editor v u = None -> assoc_get (se_docs (w_session w)) u = None;
  i_told : forall u, v_editor v u = None -> v_told v u -> shows h u (v_disk v u) }.

Lemma shows_same : forall h h' u o, latest h' u = latest h u -> shows h u o -> shows h' u o.
Proof. intros h h' u o E H. unfold shows in *. rewrite E. exact H. Qed.

Lemma kept_same : forall h h' docs docs' u t, latest h' u = latest h u -> assoc_get docs' u = assoc_get docs u -> kept h docs u t -> kept h' docs' u t.
Proof. intros h h' docs docs' u t E1 E2 H. unfold kept in *. rewrite E1, E2. exact H. Qed.

Lemma latest_sync : forall h u t w, latest (h ++ [EvSync (made u t)]) w = if str_eqb u w then Some (made u t) else latest h w.
Proof. intros. rewrite latest_snoc, document_uri. reflexivity. Qed.

Lemma inv_told : forall d e (P Q : gostr -> Prop) w h, (forall u, Q u -> P u) -> inv (View d e P) w h -> inv (View d e Q) w h.
Proof. intros d e P Q w h H [I1 I2 I3 I4 I5 IM I6 I7 I8]. constructor; try assumption. intros u E TQ. apply (I8 u E). now apply H. Qed.

Lemma set_same : forall A (f : gostr -> A) u a, set f u a u = a.
Proof. intros. unfold set. now rewrite str_eqb_refl. Qed.
Lemma set_other : forall A (f : gostr -> A) u a u', str_eqb u u' = false -> set f u a u' = f u'.
Proof. intros. unfold set. now rewrite H. Qed.

(** ** One job of a creator *)
Lemma creator_inv : forall v fs se h x t, inv v (World fs se) h -> has_prefix root x = true -> decode x = Some x ->
  v_disk v x = Some t -> good analyse hash x t ->
  exists se' h', creator analyse hash decode fs se x = Some se'
    /\ inv (View (v_disk v) (v_editor v) (fun y => y = x \/ v_told v y)) (World fs se') h'.
Proof.
  intros v fs se h x t [I1 I2 I3 I4 I5 IM I6 I7 I8] P D V G. cbn [w_files w_session] in *.
  unfold creator. rewrite D. unfold in_store. rewrite I5, P. unfold CompareAndIndex, GetOrCreateDocument.
  destruct (v_editor v x) as [te|] eqn:E.
  - (* an open document: nothing to do *)
    destruct (I6 x te E) as (_ & _ & L & m & M & MO & ML & MT & MLn). rewrite M.
    rewrite (compare_eq root h _ _ I3 I2 I4), document_uri, L, !document_hash, MT, str_eqb_refl.
    unfold releaseDocIfNotOpen. rewrite MO. exists se, h. split; [destruct se; reflexivity|].
    constructor; cbn [w_files w_session v_disk v_editor v_told]; try assumption.
    intros u Eu [->|Tu]; [congruence|now apply I8].
  - rewrite (I7 x E), I1, V. cbn [md_text]. unfold SaveDocOnStore. cbn [se_store].
    assert (RM : forall u, assoc_get (assoc_remove (assoc_set (se_docs se) x (Mem (SetText t) false false)) x) u = assoc_get (se_docs se) u).
    { intros u. rewrite assoc_remove_get, assoc_get_set. destruct (str_eqb x u) eqn:Q; [|reflexivity]. apply str_eqb_eq in Q as <-. symmetry. now apply I7. }
    rewrite (compare_eq root h _ _ I3 I2 I4), document_uri. cbn [md_text]. rewrite SetText_text.
    assert (DONE : forall h' st', run root h' = Some st' -> Forall event_ok h' -> s_synced st' = [] -> s_uri st' = root ->
       (forall u, str_eqb x u = false -> latest h' u = latest h u) -> shows h' x (Some t) ->
       inv (View (v_disk v) (v_editor v) (fun y => y = x \/ v_told v y))
         (World fs (releaseDocIfNotOpen (Session st' (assoc_set (se_docs se) x (Mem (SetText t) false false))) x (Mem (SetText t) false false))) h').
    { intros h' st' R' OK' S' U' LO SH. constructor; cbn [releaseDocIfNotOpen md_open w_files w_session v_disk v_editor v_told se_store se_docs]; try assumption.
      - intros u d Lu. destruct (str_eqb x u) eqn:Q; [|rewrite (LO u Q) in Lu; now apply IM].
        apply str_eqb_eq in Q as <-. destruct SH as (t0 & _ & SH). exists t0. congruence.
      - intros u tu Eu. assert (N : str_eqb x u = false) by (apply str_eqb_neq; congruence).
        apply (kept_same h h' (se_docs se)); [now apply LO|apply RM|now apply I6].
      - intros u Eu. rewrite RM. now apply I7.
      - intros u Eu Tu. destruct (str_eqb x u) eqn:Q.
        + apply str_eqb_eq in Q as <-. rewrite V. exact SH.
        + apply (shows_same h); [now apply LO|]. apply I8; [exact Eu|]. destruct Tu as [->|Tu]; [rewrite str_eqb_refl in Q; discriminate|exact Tu]. }
    assert (SYNC : exists st' h', SyncDocument (se_store se) (made x t) = Some st' /\
      inv (View (v_disk v) (v_editor v) (fun y => y = x \/ v_told v y))
         (World fs (releaseDocIfNotOpen (Session st' (assoc_set (se_docs se) x (Mem (SetText t) false false))) x (Mem (SetText t) false false))) h').
    { destruct G as (_ & GO & GE). destruct (sync_step root h _ _ I3 I2 GO GE) as (st' & S & R' & OK' & U' & S').
      exists st', (h ++ [EvSync (made x t)]). split; [exact S|]. apply DONE; [exact R'|exact OK'|congruence|congruence| |].
      - intros u N. now rewrite latest_sync, N.
      - exists t. split; [reflexivity|]. now rewrite latest_sync, str_eqb_refl. }
    destruct (latest h x) as [d0|] eqn:L.
    + destruct (str_eqb (d_hash (made x t)) (d_hash d0)) eqn:Q.
      * (* the same hash: nothing is analysed *)
        cbn [se_docs]. eexists. exists h. split; [reflexivity|].
        destruct (IM x d0 L) as (t0 & ->). apply str_eqb_eq in Q. rewrite !document_hash in Q.
        apply DONE; auto. exists t0. split; [now symmetry|exact L].
      * destruct SYNC as (st' & h' & -> & IV). eauto.
    + destruct SYNC as (st' & h' & -> & IV). eauto.
Qed.

Lemma creators_none : forall fs jobs, fold_left (fun o w => match o with Some se => creator analyse hash decode fs se w | None => None end) jobs None = None.
Proof. induction jobs as [|j jobs IH]; [reflexivity|exact IH]. Qed.

Lemma creators_inv : forall jobs v fs se h, inv v (World fs se) h ->
  (forall x, In x jobs -> has_prefix root x = true /\ decode x = Some x /\ exists t, v_disk v x = Some t /\ good analyse hash x t) ->
  exists se' h', creators analyse hash decode fs se jobs = Some se'
    /\ inv (View (v_disk v) (v_editor v) (fun y => In y jobs \/ v_told v y)) (World fs se') h'.
Proof.
  induction jobs as [|x jobs IH]; intros v fs se h IV H.
  - exists se, h. split; [reflexivity|]. destruct v as [d e P]. cbn [v_disk v_editor v_told]. apply (inv_told d e P); [|exact IV]. intros u [[]|Q]; exact Q.
  - destruct (H x (or_introl eq_refl)) as (P & D & t & V & G). destruct (creator_inv v fs se h x t IV P D V G) as (se1 & h1 & C1 & IV1).
    destruct (IH _ fs se1 h1 IV1) as (se' & h' & C & IV'); [intros y I; apply H; now right|].
    exists se', h'. split.
    + unfold creators in *. simpl. rewrite C1. exact C.
    + cbn [v_disk v_editor v_told] in IV'. revert IV'. apply inv_told. intros u [[->|Q]|Q]; auto.
Qed.

Lemma jobs_in : forall v fs u w, (forall u, assoc_get fs u = v_disk v u) -> In w (creator_jobs fs u) <-> concerns v u w.
Proof.
  intros v fs u w F. unfold creator_jobs, concerns. rewrite F. destruct (v_disk v u) as [t|] eqn:V.
  - destruct (is_php u) eqn:P; simpl.
    + split.
      * intros [<-|[]]. split; [congruence|]. auto.
      * intros (_ & _ & [->|(Q & _)]); [auto|discriminate].
    + split; [tauto|]. intros (_ & Q & [->|(Q' & _)]); congruence.
  - rewrite filter_In, andb_true_iff, <- F. assert (K := assoc_none_keys _ fs w). split.
    + intros (I & P1 & P2). split; [intros N; apply K in N; contradiction|]. auto.
    + intros (N & P & Q). assert (In w (map fst fs)) by (destruct (in_dec (list_eq_dec Byte.byte_eq_dec) w (map fst fs)) as [I|I]; [exact I|apply K in I; contradiction]).
      destruct Q as [->|(_ & Q)]; [rewrite F in N; contradiction|auto].
Qed.

Lemma has_prefix_trans : forall a b c, has_prefix a b = true -> has_prefix b c = true -> has_prefix a c = true.
Proof.
  intros a b c H1 H2. apply has_prefix_spec in H1 as [x ->]. apply has_prefix_spec in H2 as [y ->]. apply has_prefix_spec. exists (x ++ y). now rewrite app_assoc.
Qed.
Lemma has_prefix_app : forall a b c, has_prefix (a ++ b) c = true -> has_prefix a c = true.
Proof. intros a b c H. apply has_prefix_spec in H as [x ->]. apply has_prefix_spec. exists (b ++ x). now rewrite app_assoc. Qed.

(** ** One happening *)
Lemma goes_inv : forall v e v' w h, goes root analyse hash decode v e v' -> inv v w h ->
  exists w' h', happens analyse hash decode w e = Some w' /\ inv v' w' h'.
Proof.
  intros v e v' [fs [st docs]] h GO IV. assert (IV0 := IV). destruct IV as [I1 I2 I3 I4 I5 IM I6 I7 I8]. cbn [w_files w_session se_store se_docs] in *.
  destruct GO as [v u t|v u|v u t P E V G|v u t cs t' E ED PC G|v u t E V|v u loads E|v u P H|v u P D N H]; unfold happens; cbn [w_files w_session handle].
  - (* a file is written *)
    eexists. exists h. split; [reflexivity|]. constructor; cbn [w_files w_session se_store se_docs v_disk v_editor v_told]; try assumption.
    + intros x. rewrite assoc_get_set, I1. reflexivity.
    + intros x Ex Tx. unfold set in Tx |- *. destruct (str_eqb u x); [destruct Tx|now apply I8].
  - (* a file is removed *)
    eexists. exists h. split; [reflexivity|]. constructor; cbn [w_files w_session se_store se_docs v_disk v_editor v_told]; try assumption.
    + intros x. rewrite assoc_remove_get, I1. reflexivity.
    + intros x Ex Tx. unfold set in Tx |- *. destruct (str_eqb u x); [destruct Tx|now apply I8].
  - (* a document is opened *)
    unfold in_store. cbn [se_store]. rewrite I5, P. unfold OpenDocument, GetOrCreateDocument. cbn [se_docs]. rewrite (I7 u E), I1, V.
    unfold SaveDocOnStore, sync. cbn [se_store se_docs]. unfold doc_of. cbn [md_text md_loaded]. rewrite SetText_text.
    assert (G0 := G). destruct G as (PT & GO & GE). destruct (sync_step root h _ _ I3 I2 GO GE) as (st' & S & R' & OK' & U' & S'). rewrite S.
    cbn [option_map releaseDocIfNotOpen md_open se_docs]. eexists. exists (h ++ [EvSync (made u t)]). split; [reflexivity|].
    assert (AG : forall x, assoc_get (assoc_set (assoc_set docs u (Mem (SetText t) false false)) u (Mem (SetText t) true true)) x
       = if str_eqb u x then Some (Mem (SetText t) true true) else assoc_get docs x).
    { intros x. rewrite !assoc_get_set. destruct (str_eqb u x); reflexivity. }
    constructor; cbn [w_files w_session se_store se_docs v_disk v_editor v_told]; try assumption; try congruence.
    + intros x d. rewrite latest_sync. destruct (str_eqb u x) eqn:Q; [|apply IM]. apply str_eqb_eq in Q as <-. intros [= <-]. now eexists.
    + intros x tx. unfold set. destruct (str_eqb u x) eqn:Q.
      * apply str_eqb_eq in Q as <-. intros [= <-]. split; [exact P|]. split; [exact G0|]. split; [now rewrite latest_sync, str_eqb_refl|].
        exists (Mem (SetText t) true true). rewrite AG, str_eqb_refl. cbn [md_open md_loaded md_text]. now rewrite SetText_text.
      * intros Ex. apply (kept_same h _ docs); [now rewrite latest_sync, Q|now rewrite AG, Q|now apply I6].
    + intros x. unfold set. destruct (str_eqb u x) eqn:Q; [discriminate|]. intros Ex. rewrite AG, Q. now apply I7.
    + intros x. unfold set. destruct (str_eqb u x) eqn:Q; [discriminate|]. intros Ex Tx.
      apply (shows_same h); [now rewrite latest_sync, Q|now apply I8].
  - (* a document is changed *)
    destruct (I6 u t E) as (P & (PT & _) & L & m & M & MO & ML & MT & MLn). unfold in_store. cbn [se_store]. rewrite I5, P.
    unfold changeDocument, GetOrCreateDocument. cbn [se_docs]. rewrite M.
    destruct (edits_correct _ _ _ ED PT PC (md_text m) MT MLn) as (PT' & td & A & TD & LD). rewrite A.
    unfold sync, doc_of. cbn [md_text md_loaded se_store se_docs]. rewrite TD.
    assert (G0 := G). destruct G as (_ & GO & GE). destruct (sync_step root h _ _ I3 I2 GO GE) as (st' & S & R' & OK' & U' & S'). rewrite S.
    cbn [option_map SaveDocOnStore se_store se_docs]. eexists. exists (h ++ [EvSync (made u t')]). split; [reflexivity|].
    constructor; cbn [w_files w_session se_store se_docs v_disk v_editor v_told SaveDocOnStore]; try assumption; try congruence.
    + intros x d. rewrite latest_sync. destruct (str_eqb u x) eqn:Q; [|apply IM]. apply str_eqb_eq in Q as <-. intros [= <-]. now eexists.
    + intros x tx. unfold set. destruct (str_eqb u x) eqn:Q.
      * apply str_eqb_eq in Q as <-. intros [= <-]. split; [exact P|]. split; [exact G0|]. split; [now rewrite latest_sync, str_eqb_refl|].
        exists (Mem td (md_open m) true). rewrite assoc_get_set, str_eqb_refl. cbn [md_open md_loaded md_text]. auto.
      * intros Ex. apply (kept_same h _ docs); [now rewrite latest_sync, Q|now rewrite assoc_get_set, Q|now apply I6].
    + intros x. unfold set. destruct (str_eqb u x) eqn:Q; [discriminate|]. intros Ex. rewrite assoc_get_set, Q. now apply I7.
    + intros x. unfold set. destruct (str_eqb u x) eqn:Q; [discriminate|]. intros Ex Tx.
      apply (shows_same h); [now rewrite latest_sync, Q|now apply I8].
  - (* a document is closed *)
    destruct (I6 u t E) as (P & (PT & GO & GE) & L & m & M & MO & ML & MT & MLn). unfold in_store. cbn [se_store]. rewrite I5, P.
    unfold CloseDocument, GetOrCreateDocument. cbn [se_docs]. rewrite M. unfold SaveDocOnStore, sync, doc_of. cbn [md_text md_loaded se_store se_docs]. rewrite ML, MT.
    destruct (sync_step root h _ _ I3 I2 GO GE) as (st' & S & R' & OK' & U' & S'). rewrite S.
    cbn [option_map releaseDocIfNotOpen md_open se_store se_docs]. eexists. exists (h ++ [EvSync (made u t)]). split; [reflexivity|].
    assert (AG : forall x m', assoc_get (assoc_remove (assoc_set docs u m') u) x = if str_eqb u x then None else assoc_get docs x).
    { intros x m'. rewrite assoc_remove_get, assoc_get_set. destruct (str_eqb u x); reflexivity. }
    constructor; cbn [w_files w_session se_store se_docs v_disk v_editor v_told]; try assumption; try congruence.
    + intros x d. rewrite latest_sync. destruct (str_eqb u x) eqn:Q; [|apply IM]. apply str_eqb_eq in Q as <-. intros [= <-]. now eexists.
    + intros x tx. unfold set. destruct (str_eqb u x) eqn:Q; [discriminate|].
      intros Ex. apply (kept_same h _ docs); [now rewrite latest_sync, Q|now rewrite AG, Q|now apply I6].
    + intros x. unfold set. rewrite AG. destruct (str_eqb u x) eqn:Q; [reflexivity|]. apply I7.
    + intros x. unfold set. destruct (str_eqb u x) eqn:Q.
      * apply str_eqb_eq in Q as <-. intros _ _. rewrite V. exists t. split; [reflexivity|]. now rewrite latest_sync, str_eqb_refl.
      * intros Ex Tx. apply (shows_same h); [now rewrite latest_sync, Q|now apply I8].
  - (* a request *)
    destruct (v_editor v u) as [t|] eqn:Eu; [|contradiction]. destruct (I6 u t Eu) as (P & G & L & m & M & MO & ML & MT & MLn).
    unfold in_store. cbn [se_store]. rewrite I5, P. unfold GetOrCreateDocument. cbn [se_docs]. rewrite M. cbn [option_map SaveDocOnStore se_store se_docs].
    rewrite ML. cbn [orb]. assert (AG : forall x, assoc_get (assoc_set docs u (Mem (md_text m) (md_open m) true)) x = assoc_get docs x).
    { intros x. rewrite assoc_get_set. destruct (str_eqb u x) eqn:Q; [|reflexivity]. apply str_eqb_eq in Q as <-. rewrite M, <- ML. now destruct m. }
    eexists. exists h. split; [reflexivity|].
    constructor; cbn [w_files w_session se_store se_docs SaveDocOnStore]; try assumption.
    + intros x tx Ex. apply (kept_same h _ docs); [reflexivity|apply AG|now apply I6].
    + intros x Ex. rewrite AG. now apply I7.
  - (* a change of files is notified *)
    destruct (creators_inv (creator_jobs fs u) v fs _ h IV0) as (se' & h' & C & IV').
    { intros x I. apply (jobs_in v fs u x I1) in I. assert (I' := I). destruct I' as (DN & PH & Q).
      destruct (v_disk v x) as [t|] eqn:V; [|contradiction]. destruct (H x t I V) as (D & G).
      split; [|split; [exact D|eauto]]. destruct Q as [->|(_ & Q)]; [exact P|]. apply has_prefix_app in Q. eapply has_prefix_trans; eauto. }
    rewrite C. cbn [option_map]. exists (World fs se'), h'. split; [reflexivity|]. revert IV'. apply inv_told.
    intros x [Q|Q]; [left; now apply (jobs_in v)|auto].
  - (* a deletion is notified *)
    unfold deletor. rewrite D. unfold in_store. cbn [se_store]. rewrite I5, P. unfold removeDocument. cbn [se_store se_docs].
    destruct (delete_step root h st u I3 I2 N) as (st1 & D1 & R1 & OK1 & U1 & S1). rewrite D1.
    destruct (delete_folder_run root _ st1 u OK1 R1) as (us & DF & IU & NU). rewrite DF.
    destruct (deletes_step us root _ st1 OK1 R1 NU) as (st2 & R2 & OK2 & U2 & S2). rewrite R2.
    cbn [option_map]. eexists. exists ((h ++ [EvDelete u]) ++ map EvDelete us). split; [reflexivity|].
    assert (LA : forall x, latest ((h ++ [EvDelete u]) ++ map EvDelete us) x = if has_prefix u x then None else latest h x).
    { intros x. rewrite latest_app_deletes. destruct (existsb (fun u' => str_eqb u' x) us) eqn:EX.
      - apply existsb_exists in EX as (x' & I & Q). apply str_eqb_eq in Q as ->. apply IU in I as [_ ->]. reflexivity.
      - rewrite latest_snoc. destruct (str_eqb u x) eqn:Q.
        + apply str_eqb_eq in Q as <-. destruct (has_prefix u u) eqn:HP; [reflexivity|]. exfalso.
          assert (has_prefix u u = true) by (apply has_prefix_spec; exists []; symmetry; apply app_nil_r). congruence.
        + destruct (has_prefix u x) eqn:HP; [|reflexivity]. destruct (latest h x) as [d|] eqn:L; [|reflexivity]. exfalso.
          assert (I : In x us) by (apply IU; rewrite latest_snoc, Q, L; split; [discriminate|exact HP]).
          assert (existsb (fun u' => str_eqb u' x) us = true); [|congruence]. apply existsb_exists. exists x. split; [exact I|apply str_eqb_refl]. }
    constructor; cbn [w_files w_session se_store se_docs v_disk v_editor v_told]; try assumption; try congruence.
    + intros x d. rewrite LA. destruct (has_prefix u x); [discriminate|apply IM].
    + intros x tx Ex. apply (kept_same h _ docs); [|reflexivity|now apply I6]. rewrite LA. destruct (has_prefix u x) eqn:HP; [|reflexivity].
      destruct (H x HP); congruence.
    + intros x Ex Tx. destruct (has_prefix u x) eqn:HP.
      * destruct (H x HP) as [-> _]. cbn [shows]. now rewrite LA, HP.
      * destruct Tx as [Tx|Tx]; [discriminate|]. apply (shows_same h); [now rewrite LA, HP|now apply I8].
Qed.

Definition empty_world : world := World [] (Session (empty_store root) []).

Lemma start_inv : inv start empty_world [].
Proof. constructor; cbn; try reflexivity; try constructor; try discriminate. Qed.

Lemma careful_inv : forall v es v', careful root analyse hash decode v es v' -> forall w h, inv v w h ->
  exists w' h', happen analyse hash decode w es = Some w' /\ inv v' w' h'.
Proof.
  induction 1 as [v|v e v' es v'' G C IH]; intros w h IV; [exists w, h; split; [reflexivity|exact IV]|].
  destruct (goes_inv v e v' w h G IV) as (w1 & h1 & E1 & IV1). destruct (IH w1 h1 IV1) as (w' & h' & E & IV').
  exists w', h'. split; [|exact IV']. unfold happen in *. simpl. rewrite E1. exact E.
Qed.
End S.
