From Coq Require Import String.
From Coq Require Import List Bool NArith ZArith Lia.
From Coq.Strings Require Import Byte.
From Verif Require Import Base.Bytes Base.BytesProofs Base.Protocol Base.Decimal
  Codec.CodecModel Codec.CodecSpec Symbols.Symbols Symbols.KeysModel Storage.KvModel Storage.KvSpec Storage.KvProofs
  Store.FilterModel Store.StoreModel Store.StoreSpec Store.StoreProofs Store.LookupProofs Store.LookupKinds
  Store.RefProofs Store.StoreTheorems Store.WorldModel Store.WorldProofs.
Import ListNotations.
Open Scope list_scope.

Section S.
Context {T : Text} {X : XorFilter}.
Hypothesis TOK : text_ok T.

Lemma synced_docs_map : forall l, synced_docs (map EvSync l) = l.
Proof. induction l as [|d l IH]; [reflexivity|]. cbn. f_equal. exact IH. Qed.
Lemma events_map : forall l, Forall doc_ok l -> Forall event_ok (map EvSync l).
Proof. induction 1; constructor; auto. Qed.

(** what the index shows *)
Definition showing (w : world) (s : symbol) : Prop := exists u, owned s u w /\ key_inv s u w (Some s).

Lemma symbol_at_inv : forall d k s, doc_symbol_at d k = Some s -> In s (d_symbols d) /\ indexed_kind s /\ symbol_key s = k.
Proof.
  intros d k s S. unfold doc_symbol_at in S. apply find_some in S as [S1 S2]. apply str_eqb_eq in S2.
  rewrite <- in_rev in S1. apply filter_In in S1 as [S1 S3]. apply has_key_iff in S3. auto.
Qed.

Lemma owned_covered : forall w q s d, sound w -> covered (map EvSync (w_seen w)) q ->
  In d (w_seen w) -> In s (d_symbols d) -> indexed_kind s -> GetCollection s = query_collection q -> owned s (d_uri d) w.
Proof.
  intros w q s d W COV I J IK EC d' I' K. apply in_doc_keys in K as (s' & J' & IK' & E).
  assert (EC' : GetCollection s' = query_collection q) by (rewrite <- EC; now apply key_coll).
  apply (covered_own TOK (map EvSync (w_seen w)) q) with (s1 := s') (s2 := s); auto; rewrite ?synced_docs_map; auto.
  apply events_map. exact (so_seen w W).
Qed.

Lemma world_holds : forall root w q, reachable False root w -> covered (map EvSync (w_seen w)) q ->
  holds (s_db (w_store w)) (query_collection q) (showing w).
Proof.
  intros root w q R COV. assert (W := reachable_sound root w R). destruct (query_collection_ok q) as (C1 & C2 & C3).
  split.
  - intros k v G IC. destruct (so_keys w W k v G) as [(d & I & K)|[K|[(u & K)|K]]].
    + apply in_doc_keys in K as (s & Is & IK & <-). apply (so_done w W) in I as I0.
      assert (EC : GetCollection s = query_collection q).
      { destruct IC as [r E]. apply in_newEntry in E as [E _]; auto using GetCollection_nul. }
      assert (OWN : owned s (d_uri d) w) by (apply (owned_covered w q); auto).
      destruct (key_value s (d_uri d) root w R OWN) as (m & KI). assert (V := ki_value _ _ _ _ KI). rewrite G in V.
      destruct m as [s'|]; [|discriminate]. injection V as ->.
      destruct (ki_source _ _ _ _ KI s' eq_refl) as (d' & I' & U' & S'). destruct (symbol_at_inv _ _ _ S') as (J & IK' & SK).
      exists s'. split; [|split; [|split; [exact SK|split; [reflexivity|split; [exact IK'|]]]]].
      * exists (d_uri d). split; [unfold owned in *; rewrite SK; exact OWN|]. destruct KI. split; rewrite ?SK; auto.
      * rewrite <- EC. now apply key_coll.
      * exists (d_uri d'). assert (DOK := so_seen w W). rewrite Forall_forall in DOK. apply (so_done w W) in I'.
        destruct (DOK d' I') as (_ & _ & F & _). rewrite Forall_forall in F. auto.
    + exfalso. eapply in_coll_other with (c := query_collection q) (c' := referenceIndexCollection); eauto. nul_free.
    + exfalso. eapply in_coll_other with (c := query_collection q) (c' := documentCollection); eauto; [nul_free|]. subst. exists u. reflexivity.
    + exfalso. destruct IC as [r E]. assert (N : ~ In NUL versionKey) by nul_free. apply N. rewrite <- K, E.
      unfold newEntry, KeySep. apply in_or_app. right. left. reflexivity.
  - intros s (u & OWN & KI) EC. destruct (ki_source _ _ _ _ KI s eq_refl) as (d & I & U & S). destruct (symbol_at_inv _ _ _ S) as (J & IK & _).
    split; [exact IK|]. split; [exact (ki_value _ _ _ _ KI)|]. exists (d_uri d).
    assert (DOK := so_seen w W). rewrite Forall_forall in DOK. apply (so_done w W) in I.
    destruct (DOK d I) as (_ & _ & F & _). rewrite Forall_forall in F. auto.
Qed.

Lemma showing_sound : forall root w s, reachable False root w -> showing w s ->
  (current (w_done w) s \/ (In (symbol_uri s) (w_cut w) /\ exists d, In (EvSync d) (w_done w) /\ declares d s)).
Proof.
  intros root w s R (u & OWN & KI). assert (W := reachable_sound root w R).
  assert (SRC := ki_source _ _ _ _ KI s eq_refl). destruct SRC as (d & I & U & S). destruct (symbol_at_inv _ _ _ S) as (J & IK & _).
  assert (DOK := so_seen w W). rewrite Forall_forall in DOK. assert (I0 := so_done w W d I). assert (DO := DOK d I0).
  assert (SU : symbol_uri s = u).
  { destruct DO as (_ & _ & F & _). rewrite Forall_forall in F. destruct (F s J) as (_ & E & _). congruence. }
  assert (D : declares d s) by (apply declares_iff; auto).
  destruct (in_key_dec u (w_cut w)) as [C|NC].
  - right. rewrite SU. split; [exact C|]. exists d. split; [|exact D]. unfold synced_docs in I. apply in_flat_map in I as (e & Ie & Id).
    destruct e; cbn in Id; try contradiction. destruct Id as [<-|[]]. exact Ie.
  - left. assert (EX := ki_exact _ _ _ _ KI NC). destruct (latest (w_done w) u) as [d'|] eqn:L; [|discriminate].
    exists u, d'. split; [exact L|]. apply declares_iff; [exact TOK| |].
    + apply latest_in in L as [L _]. apply DOK. now apply (so_done w W).
    + symmetry in EX. destruct (symbol_at_inv _ _ _ EX) as (J' & _). auto.
Qed.

Lemma current_showing : forall root w q s, reachable False root w -> covered (map EvSync (w_seen w)) q -> GetCollection s = query_collection q ->
  current (w_done w) s -> showing w s.
Proof.
  intros root w q s R COV EC (u & d & L & D). assert (W := reachable_sound root w R).
  apply latest_in in L as L'. destruct L' as [I U]. assert (I0 := so_done w W d I).
  assert (DOK := so_seen w W). rewrite Forall_forall in DOK. apply declares_iff in D; [|exact TOK|auto]. destruct D as (IK & J & S).
  assert (OWN : owned s u w) by (rewrite <- U; apply (owned_covered w q); auto).
  exists u. split; [exact OWN|]. destruct (key_value s u root w R OWN) as (m & KI).
  rewrite (ki_complete _ _ _ _ KI d L (doc_symbol_keys d _ _ S)), S in KI. exact KI.
Qed.

Lemma wanted_collection : forall q s, wanted q s -> GetCollection s = query_collection q.
Proof. intros q s W. destruct q, s; simpl in W; try contradiction; reflexivity. Qed.

Theorem world_answers : forall root w q, reachable False root w ->
  (forall n, In n (query_names q) -> ~ In NUL n) -> covered (map EvSync (w_seen w)) q ->
  exists l, ask (w_store w) q = Some l /\ NoDup l
   /\ (forall x, In x l -> exists s, wanted q s /\ shown s x
        /\ (current (w_done w) s \/ (In (symbol_uri s) (w_cut w) /\ exists d, In (EvSync d) (w_done w) /\ declares d s)))
   /\ (forall s, current (w_done w) s -> wanted q s -> exists x, In x l /\ shown s x).
Proof.
  intros root w q R QN COV. assert (W := reachable_sound root w R).
  destruct (ask_general TOK (w_store w) (showing w) q (so_asc w W) (world_holds root w q R COV) QN) as (l & A & ND & H).
  { destruct q; auto. destruct COV as [_ NL]. intros a t (u & OWN & KI) SC EN. destruct (ki_source _ _ _ _ KI _ eq_refl) as (d & I & _ & S).
    destruct (symbol_at_inv _ _ _ S) as (J & _). apply (NL d a t); auto. rewrite synced_docs_map. now apply (so_done w W). }
  exists l. split; [exact A|]. split; [exact ND|]. split.
  - intros x I. apply H in I as (s & Sh & Wa & ->). exists s. split; [exact Wa|]. split; [apply keep_shown|]. eapply showing_sound; eauto.
  - intros s C Wa. exists (keep s). split; [|apply keep_shown]. apply H. exists s. split; [|auto].
    apply (current_showing root w q); auto. now apply wanted_collection.
Qed.

Theorem world_exact : forall root w q, reachable False root w -> w_cut w = [] ->
  (forall n, In n (query_names q) -> ~ In NUL n) -> covered (map EvSync (w_seen w)) q ->
  exists l, ask (w_store w) q = Some l /\ exactly shown (fun s => current (w_done w) s /\ wanted q s) l.
Proof.
  intros root w q R CUT QN COV. destruct (world_answers root w q R QN COV) as (l & A & ND & S1 & S2).
  exists l. split; [exact A|]. split; [exact ND|]. split.
  - intros x I. destruct (S1 x I) as (s & Wa & Sh & [C|[C _]]); [eauto|]. rewrite CUT in C. destruct C.
  - intros s [C Wa]. now apply S2.
Qed.

(** the same answers as a store that did the completed work step by step *)
Lemma covered_done : forall w q, sound w -> covered (map EvSync (w_seen w)) q -> covered (w_done w) q.
Proof.
  intros w q W C. assert (SD : forall d, In d (synced_docs (w_done w)) -> In d (synced_docs (map EvSync (w_seen w)))).
  { intros d I. rewrite synced_docs_map. exact (so_done w W d I). }
  assert (NS : no_shared_constants (map EvSync (w_seen w)) -> no_shared_constants (w_done w)).
  { intros N d1 d2 c1 c2 I1 I2. apply N; auto. }
  assert (PU : plain_uris (map EvSync (w_seen w)) -> plain_uris (w_done w)) by (intros N d I; apply N; auto).
  destruct q; cbn [covered] in *; auto. destruct C as [C1 C2]. split; [auto|]. intros d s t I. apply C2. auto.
Qed.
Theorem world_serial : forall root w q st, reachable False root w -> w_cut w = [] ->
  (forall n, In n (query_names q) -> ~ In NUL n) -> covered (map EvSync (w_seen w)) q ->
  run root (w_done w) = Some st ->
  exists l l', ask (w_store w) q = Some l /\ ask st q = Some l' /\ NoDup l /\ NoDup l' /\ forall x, In x l <-> In x l'.
Proof.
  intros root w q st R CUT QN COV RUN. assert (W := reachable_sound root w R).
  destruct (ask_general TOK (w_store w) (showing w) q (so_asc w W) (world_holds root w q R COV) QN) as (l & A & ND & H).
  { destruct q; auto. destruct COV as [_ NL]. intros a t (u & OWN & KI) SC EN. destruct (ki_source _ _ _ _ KI _ eq_refl) as (d & I & _ & S).
    destruct (symbol_at_inv _ _ _ S) as (J & _). apply (NL d a t); auto. rewrite synced_docs_map. now apply (so_done w W). }
  destruct (ask_exact TOK root (w_done w) st q (so_events w W) RUN QN (covered_done w q W COV)) as (l' & A' & ND' & H').
  exists l, l'. split; [exact A|]. split; [exact A'|]. split; [exact ND|]. split; [exact ND'|].
  intros x. rewrite H, H'. split; intros (s & Sh & Wa & ->); exists s; (split; [|auto]).
  - destruct (showing_sound root w s R Sh) as [C|[C _]]; [exact C|]. rewrite CUT in C. destruct C.
  - apply (current_showing root w q); auto. now apply wanted_collection.
Qed.

(** ** Nothing gets stuck *)
Hypothesis XOK : xor_ok X.

Definition ref_put_ok (k v : gostr) : Prop := in_coll referenceIndexCollection k ->
  exists c, ~ In NUL c /\ (k = ref_key c \/ (k = ref_filter_key c /\ exists f, settled f /\ v = Encode NewEncoder f)).
Definition eff_refs_ok (e : eff) : Prop :=
  match e with
  | EffRef c f => ~ In NUL c /\ settled f
  | EffDb ops => forall k v, In (BPut k v) ops -> ref_put_ok k v
  | _ => True
  end.
Definition world_refs (w : world) : Prop :=
  refs_shape (w_store w) /\ forall d es e, In (d, es) (w_running w) -> In e es -> eff_refs_ok e.

Lemma apply_bops_value : forall ops m k v, kv_get (apply_bops m ops) k = Some v -> kv_get m k = Some v \/ In (BPut k v) ops.
Proof.
  induction ops as [|o ops IH] using rev_ind; intros m k v H; [left; exact H|].
  rewrite apply_bops_app in H. simpl in H. destruct o as [k' v'|k']; simpl in H.
  - rewrite kv_get_put in H. destruct (str_eqb k' k) eqn:E.
    + apply str_eqb_eq in E. injection H as ->. subst. right. apply in_or_app. right. left. reflexivity.
    + apply IH in H as [H|H]; [auto|right; apply in_or_app; auto].
  - rewrite kv_get_del in H. destruct (str_eqb k' k); [discriminate|]. apply IH in H as [H|H]; [auto|right; apply in_or_app; auto].
Qed.

Lemma batch_shape : forall st ops, refs_shape st -> (forall k v, In (BPut k v) ops -> ref_put_ok k v) ->
  forall k v, kv_get (apply_bops (ldb (s_db st)) ops) k = Some v -> ref_put_ok k v.
Proof.
  intros st ops [_ _ S] P k v G. apply apply_bops_value in G as [G|G]; [|now apply P]. intros IC. exact (S k v G IC).
Qed.

Lemma refs_step : forall w w', sound w -> world_refs w -> wstep False w w' -> world_refs w'.
Proof.
  intros w w' W [SH RU] St. destruct St as [w d es OK [[]|NR] E|w r1 d e es r2 E|w u st' NU [[]|NR] E|w E|w v|w m|w st' E].
  - split; [exact SH|]. cbn [w_running]. intros x y e I J. apply in_app_or in I as [I|[I|[]]]; [exact (RU x y e I J)|]. injection I as <- <-.
    destruct (sync_effects_inv _ _ _ E) as (old & com & _ & ->).
    assert (NC := canonical_nul (s_uri (w_store w)) _ (doc_ok_uri _ OK)).
    unfold ref_index in J. destruct (haveReferences (d_uri d)) eqn:HR.
    2:{ cbn in J. destruct J as [<-|[<-|[<-|[<-|[]]]]]; try exact Logic.I. intros k v I IC. exfalso. unfold sync_ops in I. rewrite !in_app_iff in I.
        unfold ref_deleteURI in I. rewrite HR in I. destruct I as [[]|[I|[[]|[I|I]]]].
        - apply in_map_iff in I as (s & I & _). injection I as <- _. exact (refInd_not_symbol s _ IC eq_refl).
        - apply in_map_iff in I as (? & I & _). discriminate.
        - destruct I as [I|[]]. injection I as <- _.
          apply (in_coll_other documentCollection referenceIndexCollection (newEntry documentCollection (d_uri d))); [nul_free|nul_free|discriminate|eexists; reflexivity|exact IC]. }
    set (c := CanonicaliseURI (s_uri (w_store w)) (d_uri d)) in *.
    set (f0 := match assoc_get (s_refs (w_store w)) c with Some f => f | None => NewFilter end) in *.
    set (f1 := Commit (fold_left Insert (map ei_ref (d_refs d)) f0)) in *.
    assert (S1 : settled f1).
    { apply (commit_settled XOK). unfold f0. destruct (assoc_get (s_refs (w_store w)) c) eqn:Q; [|auto]. left. apply assoc_get_in in Q. now apply (rs_entries _ SH) in Q. }
    cbn in J. destruct J as [<-|[<-|[<-|[<-|[<-|[]]]]]]; try exact Logic.I; [split; [exact NC|exact S1]|].
    intros k v I IC. unfold sync_ops in I. rewrite !in_app_iff in I. destruct I as [I|[I|[I|[I|I]]]].
    + exfalso. unfold ref_deleteURI in I. rewrite HR in I. destruct (assoc_get _ _); [|destruct I]. destruct I as [I|[I|[]]]; discriminate.
    + exfalso. apply in_map_iff in I as (s & I & _). injection I as <- _. exact (refInd_not_symbol s _ IC eq_refl).
    + cbn in I. destruct I as [I|[I|[]]]; injection I as <- <-; exists c; (split; [exact NC|]); [left; reflexivity|right]. split; [reflexivity|]. exists f1. auto.
    + exfalso. apply in_map_iff in I as (? & I & _). discriminate.
    + exfalso. destruct I as [I|[]]. injection I as <- _.
      apply (in_coll_other documentCollection referenceIndexCollection (newEntry documentCollection (d_uri d))); [nul_free|nul_free|discriminate|eexists; reflexivity|exact IC].
  - assert (IE : eff_refs_ok e).
    { apply (RU d (e :: es)); [rewrite E; apply in_or_app; right; left; reflexivity|left; reflexivity]. }
    split.
    + cbn [w_store]. destruct e as [k v|c f|ops|ops]; cbn [apply_eff].
      * destruct SH as [S1 S2 S3]. split; auto.
      * destruct SH as [S1 S2 S3]. destruct IE as [N S]. split; cbn [s_refs s_db]; auto; [now apply assoc_set_nodup|].
        intros c' f' I. apply assoc_set_in in I as [[-> ->]|I]; auto.
      * destruct SH as [S1 S2 S3]. split; auto.
      * assert (BS := batch_shape _ ops SH IE). destruct SH as [S1 S2 S3]. split; cbn [s_refs s_db]; auto.
        intros k v G. unfold ldb_Get in G. rewrite ldb_batch in G. now apply BS.
    + cbn [w_running]. intros x y e' I J. rewrite !in_app_iff in I. destruct I as [I|[I|I]].
      * apply (RU x y); [rewrite E; apply in_or_app; auto|exact J].
      * apply remaining_in in I as (-> & -> & _). apply (RU d (e :: es)); [rewrite E; apply in_or_app; right; left; reflexivity|right; exact J].
      * apply (RU x y); [rewrite E; apply in_or_app; right; right; exact I|exact J].
  - split; [|exact RU]. destruct (delete_world w u st' W E) as (g & _ & _ & DB). apply delete_inv in E as (? & ? & ? & _ & _ & _ & _ & _ & RE & _ & _).
    assert (BS : forall k v, kv_get (ldb (s_db st')) k = Some v -> ref_put_ok k v).
    { rewrite DB. apply batch_shape; [exact SH|]. intros k v Q. exfalso. rewrite !in_app_iff in Q. destruct Q as [Q|[Q|Q]].
      - apply in_map_iff in Q as (? & Q & _). discriminate.
      - unfold ref_deleteURI in Q. destruct (haveReferences u); [|destruct Q]. destruct (assoc_get _ _); [|destruct Q].
        destruct Q as [Q|[Q|[]]]; discriminate.
      - destruct Q as [Q|[]]. discriminate. }
    destruct SH as [S1 S2 S3]. split; cbn [w_store]; rewrite ?RE; auto.
  - split; [|intros d es e []]. destruct SH as [S1 S2 S3]. split; cbn [w_store]; auto.
    intros k v G. change (ldb_Get (ldb_Clear (s_db (w_store w))) k = Some v) in G. rewrite ldb_Clear_get in G. discriminate.
  - split; [|exact RU]. destruct SH as [S1 S2 S3]. split; cbn [w_store]; auto.
    intros k v' G IC. apply (S3 k v'); [|exact IC]. unfold ldb_Get in *. cbn [PutVersion with_db s_db ldb_Put ldb] in G. rewrite kv_get_put_other in G; [exact G|].
    intros Q. destruct IC as [r ->]. assert (N : ~ In NUL versionKey) by nul_free. apply N. rewrite Q. apply in_or_app. right. left. reflexivity.
  - split; [|exact RU]. destruct SH as [S1 S2 S3]. split; auto.
  - split; [|intros d es e []]. unfold NewStore in E.
    destruct (newReferenceIndex_spec (s_db (w_store w)) (so_asc w W) (rs_db _ SH)) as (m & Q & J1 & J2 & _).
    rewrite Q in E. injection E as <-. destruct SH as [S1 S2 S3]. split; cbn [w_store s_refs s_db]; auto.
Qed.

Theorem reachable_refs : forall root w, reachable False root w -> world_refs w.
Proof.
  intros root w R. induction R as [|w w' R IH St].
  - split; [|intros d es e []]. split; [constructor|intros ? ? []|discriminate].
  - eapply refs_step; eauto. eapply reachable_sound; eauto.
Qed.

(** the server starts again after a kill at any moment *)
Theorem kill_recovers : forall root w, reachable False root w ->
  exists st', NewStore (s_uri (w_store w)) (s_db (w_store w)) (s_com (w_store w)) (s_greb (w_store w)) = Some st'.
Proof.
  intros root w R. destruct (reachable_refs root w R) as [SH _]. unfold NewStore.
  destruct (newReferenceIndex_spec (s_db (w_store w)) (so_asc w (reachable_sound root w R)) (rs_db _ SH)) as (m & -> & _). eauto.
Qed.

Theorem start_total : forall root w d, reachable False root w -> encoded_doc d -> exists es, sync_effects (w_store w) d = Some es.
Proof.
  intros root w d R E. destruct (so_greb w (reachable_sound root w R) (d_uri d)) as (g & GK & _). now apply (effects_total _ d g).
Qed.
Theorem delete_total : forall root w u, reachable False root w -> exists st', DeleteDocument (w_store w) u = Some st'.
Proof.
  intros root w u R. assert (W := reachable_sound root w R). unfold DeleteDocument. rewrite (ci_empty w u W).
  destruct (so_greb w W u) as (g & GK & _). unfold greb_keys in GK. rewrite GK. eauto.
Qed.
End S.
