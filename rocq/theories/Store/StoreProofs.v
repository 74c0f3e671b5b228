From Coq Require Import String.
From Coq Require Import List Bool NArith ZArith Lia.
From Coq.Strings Require Import Byte.
From Verif Require Import Base.Bytes Base.BytesProofs Base.Protocol Base.Decimal Base.DecimalProofs
  Codec.CodecModel Codec.CodecSpec Codec.CodecProofs Codec.SymbolCodecModel Codec.SymbolCodecSpec Codec.SymbolCodecProofs
  Symbols.Symbols Symbols.KeysModel Words.TokeniserModel Storage.KvModel Storage.KvSpec Storage.KvProofs
  Store.FilterModel Store.StoreModel Store.StoreSpec.
Import ListNotations.
Open Scope list_scope.

Lemma filter_length_le : forall A (f : A -> bool) l, (length (List.filter f l) <= length l)%nat.
Proof. induction l as [|a l IH]; simpl; [lia|]. destruct (f a); simpl; lia. Qed.

Definition bkey (o : bop) : gostr := match o with BPut k _ => k | BDel k => k end.

Lemma apply_bops_app : forall a b m, apply_bops m (a ++ b) = apply_bops (apply_bops m a) b.
Proof. intros. unfold apply_bops. apply fold_left_app. Qed.

Lemma get_unaffected : forall ops m k, (forall o, In o ops -> bkey o <> k) ->
  kv_get (apply_bops m ops) k = kv_get m k.
Proof.
  induction ops as [|o ops IH]; intros m k H; [reflexivity|]. simpl.
  rewrite IH by (intros; apply H; right; assumption).
  specialize (H o (or_introl eq_refl)). destruct o; simpl in *;
    [apply kv_get_put_other|apply kv_get_del_other]; assumption.
Qed.

Lemma get_dels_in : forall ks m k, In k ks -> kv_get (apply_bops m (map BDel ks)) k = None.
Proof.
  intros ks m k H. rewrite dels_get.
  assert (existsb (fun k' => str_eqb k' k) ks = true) as ->; [|reflexivity].
  apply existsb_exists. exists k. split; [assumption|apply str_eqb_refl].
Qed.

Lemma get_dels_out : forall ks m k, ~ In k ks -> kv_get (apply_bops m (map BDel ks)) k = kv_get m k.
Proof.
  intros ks m k H. apply get_unaffected. intros o Ho. apply in_map_iff in Ho as (k' & <- & I).
  simpl. intros ->. contradiction.
Qed.

(** puts: the last put for a key wins *)
Lemma get_puts : forall A (f g : A -> gostr) l m k,
  kv_get (apply_bops m (map (fun s => BPut (f s) (g s)) l)) k =
  match find (fun s => str_eqb (f s) k) (rev l) with
  | Some s => Some (g s)
  | None => kv_get m k
  end.
Proof.
  intros A f g. induction l as [|a l IH] using rev_ind; intros m k; [reflexivity|].
  rewrite map_app, apply_bops_app, rev_app_distr. simpl.
  destruct (str_eqb (f a) k) eqn:E.
  - apply str_eqb_eq in E. subst k. apply kv_get_put_same.
  - apply str_eqb_neq in E. rewrite kv_get_put_other by assumption. apply IH.
Qed.

Lemma set_remove_in : forall set k x, In x (set_remove set k) <-> In x set /\ x <> k.
Proof.
  intros. unfold set_remove. rewrite filter_In. rewrite negb_true_iff, str_eqb_neq. tauto.
Qed.
Lemma set_remove_all_in : forall ks set x,
  In x (fold_left set_remove ks set) <-> In x set /\ ~ In x ks.
Proof.
  induction ks as [|k ks IH]; intros; simpl; [tauto|]. rewrite IH, set_remove_in.
  split; intros H; intuition.
Qed.

Lemma concat_opt_some : forall A (l : list (option (list A))) r,
  concat_opt l = Some r -> forall x, In x r <-> exists y, In (Some y) l /\ In x y.
Proof.
  induction l as [|[a|] l IH]; intros r H x; simpl in H.
  - injection H as <-. split; [intros []|intros (y & [] & _)].
  - destruct (concat_opt l) as [r'|] eqn:E; [|discriminate]. injection H as <-.
    rewrite in_app_iff, (IH r' eq_refl). split.
    + intros [H|(y & H1 & H2)]; [exists a; simpl; auto|exists y; simpl; auto].
    + intros (y & [H1|H1] & H2); [injection H1 as <-; auto|right; eauto].
  - discriminate.
Qed.
Lemma concat_opt_none : forall A (l : list (option (list A))),
  (forall o, In o l -> o <> None) -> exists r, concat_opt l = Some r.
Proof.
  induction l as [|[a|] l IH]; intros H; simpl; [eauto|..].
  - destruct IH as [r ->]; [intros; apply H; right; assumption|]. eauto.
  - exfalso. apply (H None); [left; reflexivity|reflexivity].
Qed.

Lemma in_newEntry : forall c k c' k', ~ In NUL c -> ~ In NUL c' ->
  newEntry c k = newEntry c' k' -> c = c' /\ k = k'.
Proof. intros c k c' k' H H' E. unfold newEntry, KeySep in E. simpl in E. now apply sep_cancel in E. Qed.

Ltac nul_free := let H := fresh in intros H; vm_compute in H; repeat (destruct H as [H|H]; [discriminate H|]); exact H.

Definition sym_coll (c : gostr) : Prop := exists s, c = GetCollection s.
Lemma GetCollection_nul : forall s, ~ In NUL (GetCollection s).
Proof. destruct s; nul_free. Qed.

Section S.
Context {T : Text} {X : XorFilter}.

(** ** The keys of a document *)
Definition doc_keys (d : doc) : list gostr := map symbol_key (List.filter has_key (d_symbols d)).
Definition doc_symbol_at (d : doc) (k : gostr) : option symbol :=
  find (fun s => str_eqb (symbol_key s) k) (rev (List.filter has_key (d_symbols d))).
Definition doc_value (d : doc) (k : gostr) : option gostr :=
  match doc_symbol_at d k with Some s => Some (Serialise s) | None => None end.

Lemma doc_value_none : forall d k, ~ In k (doc_keys d) -> doc_value d k = None.
Proof.
  intros d k H. unfold doc_value, doc_symbol_at. destruct (find _ _) as [s|] eqn:E; [|reflexivity].
  apply find_some in E as [I E]. exfalso. apply H. apply str_eqb_eq in E. subst k.
  unfold doc_keys. apply in_map. apply in_rev. assumption.
Qed.
Lemma doc_value_some : forall d k, In k (doc_keys d) -> exists s, doc_symbol_at d k = Some s.
Proof.
  intros d k H. unfold doc_symbol_at. destruct (find _ _) as [s|] eqn:E; [eauto|].
  apply in_map_iff in H as (s & <- & I). apply in_rev in I.
  apply (find_none _ _ E) in I. rewrite str_eqb_refl in I. discriminate.
Qed.

(** ** The list kept in greb *)
Definition ds_enc (s : doc_symbol) : gostr := bytes_enc (ds_collection s) ++ bytes_enc (ds_key s) ++ bytes_enc (ds_name s).
Lemma ds_serialise_app : forall e s, doc_symbol_serialise e s = e ++ ds_enc s.
Proof. intros. unfold doc_symbol_serialise, ds_enc. rewrite !WriteString_app, !app_assoc. reflexivity. Qed.

Lemma rt_ds : forall s, go_len (ds_collection s) -> go_len (ds_key s) -> go_len (ds_name s) ->
  rt (ds_enc s) readDocumentSymbol s.
Proof.
  intros [c k n] H1 H2 H3. simpl in *. unfold ds_enc, readDocumentSymbol, ReadString. simpl.
  replace (bytes_enc c ++ bytes_enc k ++ bytes_enc n) with (bytes_enc c ++ bytes_enc k ++ bytes_enc n ++ []) by now rewrite app_nil_r.
  eapply rt_bind; [now apply rt_bytes|]. eapply rt_bind; [now apply rt_bytes|].
  eapply rt_bind; [now apply rt_bytes|]. apply rt_ret.
Qed.

Lemma go_len_coll : forall s, go_len (GetCollection s).
Proof. destruct s; vm_compute; reflexivity. Qed.

Lemma read_doc_list : forall greb key syms,
  go_len syms -> Forall (fun s => go_len (GetKey s)) syms ->
  kv_get greb key = Some (write_list doc_symbol_serialise NewEncoder
                            (map (fun s => DocSymbol (GetCollection s) (GetKey s) []) syms)) ->
  readDocumentSymbols greb key = Some (map (fun s => DocSymbol (GetCollection s) (GetKey s) []) syms).
Proof.
  intros greb key syms L F H. unfold readDocumentSymbols. rewrite H.
  set (l := map _ syms) in *.
  rewrite (write_list_app _ _ _ ds_serialise_app). unfold NewEncoder. simpl app.
  assert (R : rt (le 8 (Z.of_nat (length l)) ++ flat_map ds_enc l) (read_list readDocumentSymbol) (map (fun x => x) l)).
  { apply rt_list with (f := ds_enc).
    - unfold go_len, l in *. now rewrite map_length.
    - apply Forall_forall. intros s I. apply in_map_iff in I as (s' & <- & I). apply rt_ds; simpl.
      + apply go_len_coll.
      + rewrite Forall_forall in F. now apply F.
      + reflexivity. }
  rewrite map_id in R. specialize (R []). rewrite app_nil_r in R.
  destruct (le 8 (Z.of_nat (length l)) ++ flat_map ds_enc l) eqn:E.
  - apply (f_equal (@length _)) in E. rewrite app_length, le_length in E. discriminate.
  - rewrite R. reflexivity.
Qed.

(** keys recorded in greb for [u] *)
Definition greb_keys (st : store) (u : gostr) : option (list gostr) := newSymbolDeletor (s_greb st) u.

Definition last_synced (h : list event) (u : gostr) : option doc :=
  fold_left (fun o e => match e with EvSync d => if str_eqb (d_uri d) u then Some d else o | _ => o end) h None.

Lemma last_synced_snoc : forall h e u, last_synced (h ++ [e]) u =
  match e with EvSync d => if str_eqb (d_uri d) u then Some d else last_synced h u | _ => last_synced h u end.
Proof. intros. unfold last_synced. rewrite fold_left_app. reflexivity. Qed.
Lemma latest_snoc : forall h e u, latest (h ++ [e]) u =
  match e with
  | EvSync d => if str_eqb (d_uri d) u then Some d else latest h u
  | EvDelete u' => if str_eqb u' u then None else latest h u
  | EvClear => None
  | _ => latest h u
  end.
Proof. intros. unfold latest. rewrite fold_left_app. destruct e; reflexivity. Qed.

Lemma latest_last_synced : forall h u d, latest h u = Some d -> last_synced h u = Some d.
Proof.
  induction h as [|e h IH] using rev_ind; intros u d H; [discriminate|].
  rewrite latest_snoc in H. rewrite last_synced_snoc. destruct e as [d'|u'| | | |]; auto.
  - destruct (str_eqb (d_uri d') u); auto.
  - destruct (str_eqb u' u); [discriminate|auto].
  - discriminate.
Qed.
Lemma last_synced_in : forall h u d, last_synced h u = Some d -> In d (synced_docs h) /\ d_uri d = u.
Proof.
  induction h as [|e h IH] using rev_ind; intros u d H; [discriminate|].
  rewrite last_synced_snoc in H. unfold synced_docs. rewrite flat_map_app, in_app_iff.
  destruct e as [d'|u'| | | |]; try (destruct (IH u d H); auto; fail).
  destruct (str_eqb (d_uri d') u) eqn:E.
  - injection H as <-. apply str_eqb_eq in E. simpl. auto.
  - destruct (IH u d H). auto.
Qed.
Lemma latest_in : forall h u d, latest h u = Some d -> In d (synced_docs h) /\ d_uri d = u.
Proof. intros. apply last_synced_in. now apply latest_last_synced. Qed.

Lemma synced_docs_ok : forall h d, Forall event_ok h -> In d (synced_docs h) -> doc_ok d.
Proof.
  intros h d F H. apply in_flat_map in H as (e & He & Hd). rewrite Forall_forall in F.
  specialize (F e He). destruct e; simpl in Hd; try contradiction. destruct Hd as [<-|[]]. exact F.
Qed.

Lemma doc_ok_uri : forall d, doc_ok d -> ~ In NUL (d_uri d).
Proof. intros d H. apply H. Qed.

Definition nul_free_uris (h : list event) : Prop := Forall event_ok h.

(** ** Runs *)
Lemma run_snoc : forall root h e, run root (h ++ [e]) =
  match run root h with Some st => step st e | None => None end.
Proof. intros. unfold run, run_from. rewrite fold_left_app. reflexivity. Qed.

Lemma run_init_some : forall root h e st, run root (h ++ [e]) = Some st ->
  exists st0, run root h = Some st0 /\ step st0 e = Some st.
Proof. intros root h e st H. rewrite run_snoc in H. destruct (run root h) as [st0|]; [eauto|discriminate]. Qed.

(** the pieces of a successful sync *)
Record sync_parts (st : store) (d : doc) (st' : store) : Type := SyncParts {
  sp_old : list gostr; sp_nscom : list bop; sp_symcom : list bop;
  sp_old_eq : newSymbolDeletor (s_greb st) (d_uri d) = Some sp_old;
  sp_nscom_eq : concat_opt (map (namespace_com_ops (d_uri d)) (d_namespaces d)) = Some sp_nscom;
  sp_symcom_eq : concat_opt (map (symbol_com_ops (d_uri d)) (List.filter has_key (d_symbols d))) = Some sp_symcom;
  sp_uri : s_uri st' = s_uri st;
  sp_synced : s_synced st' = s_synced st;
  sp_greb : s_greb st' = kv_put (kv_put (s_greb st) (newEntry documentSymbolsCollection (d_uri d))
      (write_list doc_symbol_serialise NewEncoder
         (map (fun s => DocSymbol (GetCollection s) (GetKey s) []) (List.filter has_key (d_symbols d)))))
      (newEntry documentNamespacesCollection (d_uri d)) (write_list WriteString NewEncoder []);
  sp_refs : s_refs st' = fold_left (fun m e => assoc_set m (fst e) (snd e)) (snd (ref_index st (d_uri d) (d_refs d))) (s_refs st);
  sp_com : ldb (s_com st') = apply_bops (ldb (s_com st)) (sp_nscom ++ sp_symcom);
  sp_db : ldb (s_db st') = apply_bops (ldb (s_db st))
     (ref_deleteURI st (d_uri d)
      ++ map (fun s => BPut (symbol_key s) (Serialise s)) (List.filter has_key (d_symbols d))
      ++ fst (ref_index st (d_uri d) (d_refs d))
      ++ map BDel (fold_left set_remove (doc_keys d) sp_old)
      ++ [BPut (newEntry documentCollection (d_uri d)) (d_hash d)]) }.

Lemma ldb_batch : forall d ops, ldb (ldb_WriteBatch d (map OnBatch ops) true) = apply_bops (ldb d) ops.
Proof. intros. rewrite ldb_WriteBatch_eq, batch_part_OnBatch, direct_part_OnBatch. reflexivity. Qed.

Lemma sync_inv : forall st d st', SyncDocument st d = Some st' -> sync_parts st d st'.
Proof.
  intros st d st' H. unfold SyncDocument, sync_effects in H.
  destruct (newSymbolDeletor (s_greb st) (d_uri d)) as [old|] eqn:E1; [|discriminate].
  destruct (concat_opt (map (namespace_com_ops (d_uri d)) (d_namespaces d))) as [nscom|] eqn:E2; [|discriminate].
  destruct (concat_opt (map (symbol_com_ops (d_uri d)) (List.filter has_key (d_symbols d)))) as [symcom|] eqn:E3; [|discriminate].
  destruct (ref_index st (d_uri d) (d_refs d)) as [rops rset] eqn:R.
  assert (RS : ((rset = []) + {cf | rset = [cf]})%type).
  { unfold ref_index in R. destruct (haveReferences (d_uri d)); injection R as <- <-; eauto. }
  assert (E : st' = fold_left apply_eff
     ([EffGreb (newEntry documentSymbolsCollection (d_uri d))
                     (write_list doc_symbol_serialise NewEncoder (map (fun s => DocSymbol (GetCollection s) (GetKey s) []) (List.filter has_key (d_symbols d))));
             EffGreb (newEntry documentNamespacesCollection (d_uri d))
                     (write_list WriteString NewEncoder [])]
            ++ map (fun e => EffRef (fst e) (snd e)) rset
            ++ [EffCom (nscom ++ symcom);
                EffDb (ref_deleteURI st (d_uri d) ++ map (fun s => BPut (symbol_key s) (Serialise s)) (List.filter has_key (d_symbols d)) ++ rops ++ deletor_Delete (fold_left set_remove (doc_keys d) old)
                       ++ [BPut (newEntry documentCollection (d_uri d)) (d_hash d)])]) st).
  { injection H as <-. reflexivity. }
  clear H. subst st'.
  destruct RS as [->|[[c f] ->]];
    (eapply (SyncParts _ _ _ old nscom symcom); simpl; rewrite ?R; auto; apply ldb_batch).
Qed.

Lemma delete_inv : forall st u st', DeleteDocument st u = Some st' ->
  exists ixs ks syms, newCompletionIndexDeletor (s_db st) u = Some (ixs, ks)
   /\ newSymbolDeletor (s_greb st) u = Some syms
   /\ s_uri st' = s_uri st /\ s_com st' = s_com st /\ s_greb st' = s_greb st /\ s_refs st' = s_refs st
   /\ s_synced st' = s_synced st
   /\ ldb (s_db st') = apply_bops (ldb (s_db st))
        (map BDel ixs ++ map BDel ks ++ map BDel syms ++ ref_deleteURI st u ++ [BDel (newEntry documentCollection u)]).
Proof.
  intros st u st' H. unfold DeleteDocument in H.
  destruct (newCompletionIndexDeletor (s_db st) u) as [[ixs ks]|] eqn:E1; [|discriminate].
  destruct (newSymbolDeletor (s_greb st) u) as [syms|] eqn:E2; [|discriminate].
  injection H as <-. exists ixs, ks, syms. simpl. rewrite ldb_batch. auto 10.
Qed.

(** ** greb invariant *)
Lemma docSym_inj : forall u u', newEntry documentSymbolsCollection u = newEntry documentSymbolsCollection u' -> u = u'.
Proof. intros u u' H. apply in_newEntry in H; [apply H|nul_free|nul_free]. Qed.
Lemma docNs_docSym : forall u u', newEntry documentNamespacesCollection u <> newEntry documentSymbolsCollection u'.
Proof. intros u u' H. apply in_newEntry in H as [H _]; [discriminate H|nul_free|nul_free]. Qed.

Lemma ds_keys : forall syms, map (fun s => ds_collection s ++ KeySep ++ ds_key s)
     (map (fun s => DocSymbol (GetCollection s) (GetKey s) []) syms) = map symbol_key syms.
Proof. intros. rewrite map_map. reflexivity. Qed.

Lemma greb_after_sync : forall st d st', doc_ok d -> sync_parts st d st' ->
  forall u, greb_keys st' u = if str_eqb (d_uri d) u then Some (doc_keys d) else greb_keys st u.
Proof.
  intros st d st' OK [old ns sc _ _ _ _ _ G _ _ _] u. unfold greb_keys, newSymbolDeletor. rewrite G.
  destruct (str_eqb (d_uri d) u) eqn:E.
  - apply str_eqb_eq in E. subst u. erewrite read_doc_list.
    + rewrite ds_keys. reflexivity.
    + destruct OK as (_ & L & _). unfold go_len in *.
      assert (length (List.filter has_key (d_symbols d)) <= length (d_symbols d))%nat by apply filter_length_le. lia.
    + destruct OK as (_ & _ & F & _). apply Forall_forall. intros s I. apply filter_In in I as [I _].
      rewrite Forall_forall in F. apply F in I. apply I.
    + rewrite kv_get_put_other by apply docNs_docSym. apply kv_get_put_same.
  - apply str_eqb_neq in E. unfold readDocumentSymbols. rewrite kv_get_put_other by apply docNs_docSym.
    rewrite kv_get_put_other; [reflexivity|]. intros H. apply docSym_inj in H. contradiction.
Qed.

Lemma greb_invariant : forall root h st, Forall event_ok h -> run root h = Some st ->
  forall u, greb_keys st u = Some (match last_synced h u with Some d => doc_keys d | None => [] end).
Proof.
  intros root h. induction h as [|e h IH] using rev_ind; intros st OK R u.
  - injection R as <-. reflexivity.
  - apply Forall_app in OK as [OK OKe]. inversion_clear OKe as [|? ? OE _].
    apply run_init_some in R as (st0 & R & St). specialize (IH st0 OK R).
    rewrite last_synced_snoc. destruct e as [d|u'| |v| |m]; simpl in St.
    + rewrite (greb_after_sync _ _ _ OE (sync_inv _ _ _ St)). destruct (str_eqb (d_uri d) u); [reflexivity|apply IH].
    + apply delete_inv in St as (ixs & ks & syms & _ & _ & _ & _ & G & _). unfold greb_keys. rewrite G. apply IH.
    + injection St as <-. apply IH.
    + injection St as <-. apply IH.
    + unfold NewStore in St. destruct (newReferenceIndex (s_db st0)); [|discriminate]. injection St as <-. apply IH.
    + injection St as <-. apply IH.
Qed.

(** ** db stays ordered *)
Lemma db_ascending : forall root h st, run root h = Some st -> ascending (ldb (s_db st)).
Proof.
  intros root h. induction h as [|e h IH] using rev_ind; intros st R.
  - injection R as <-. constructor.
  - apply run_init_some in R as (st0 & R & St). specialize (IH st0 R).
    destruct e as [d|u'| |v| |m]; simpl in St.
    + apply sync_inv in St. rewrite (sp_db _ _ _ St). now apply apply_bops_ascending.
    + apply delete_inv in St as (ixs & ks & syms & _ & _ & _ & _ & _ & _ & _ & ->). now apply apply_bops_ascending.
    + injection St as <-. apply (ldb_step_ascending (s_db st0) DClear IH).
    + injection St as <-. apply (ldb_step_ascending (s_db st0) (DPut versionKey v) IH).
    + unfold NewStore in St. destruct (newReferenceIndex (s_db st0)); [|discriminate]. injection St as <-. exact IH.
    + injection St as <-. exact IH.
Qed.

Lemma com_ascending : forall root h st, run root h = Some st -> ascending (ldb (s_com st)).
Proof.
  intros root h. induction h as [|e h IH] using rev_ind; intros st R.
  - injection R as <-. constructor.
  - apply run_init_some in R as (st0 & R & St). specialize (IH st0 R).
    destruct e as [d|u'| |v| |m]; simpl in St.
    + apply sync_inv in St. rewrite (sp_com _ _ _ St). now apply apply_bops_ascending.
    + apply delete_inv in St as (ixs & ks & syms & _ & _ & _ & -> & _). exact IH.
    + injection St as <-. exact IH.
    + injection St as <-. exact IH.
    + unfold NewStore in St. destruct (newReferenceIndex (s_db st0)); [|discriminate]. injection St as <-. exact IH.
    + injection St as <-. exact IH.
Qed.

(** ** Which keys db can hold *)
(** a key of the given collection *)
Definition in_coll (c k : gostr) : Prop := exists r, k = newEntry c r.

Lemma in_coll_other : forall c c' k, ~ In NUL c -> ~ In NUL c' -> c <> c' -> in_coll c k -> in_coll c' k -> False.
Proof. intros c c' k H H' N [r ->] [r' E]. apply in_newEntry in E as [E _]; auto. Qed.

Lemma ref_ops_coll : forall st u infos o, In o (ref_deleteURI st u ++ fst (ref_index st u infos)) ->
  in_coll referenceIndexCollection (bkey o).
Proof.
  intros st u infos o H. unfold ref_deleteURI, ref_index in H.
  destruct (haveReferences u); [|destruct H]. apply in_app_iff in H as [H|H].
  - destruct (assoc_get _ _); [|destruct H]. destruct H as [<-|[<-|[]]]; simpl; eexists; reflexivity.
  - simpl in H. destruct H as [<-|[<-|[]]]; simpl; eexists; reflexivity.
Qed.

Lemma symbol_key_coll : forall s, in_coll (GetCollection s) (symbol_key s).
Proof. intros s. eexists. reflexivity. Qed.

Lemma refInd_not_symbol : forall s k, in_coll referenceIndexCollection k -> symbol_key s = k -> False.
Proof.
  intros s k H E. subst k. apply (in_coll_other (GetCollection s) referenceIndexCollection (symbol_key s));
    [apply GetCollection_nul|nul_free|destruct s; discriminate|apply symbol_key_coll|assumption].
Qed.
Lemma doc_not_symbol : forall s u, newEntry documentCollection u = symbol_key s -> False.
Proof.
  intros s u E. apply (in_coll_other (GetCollection s) documentCollection (symbol_key s));
    [apply GetCollection_nul|nul_free|destruct s; discriminate|apply symbol_key_coll|rewrite <- E; eexists; reflexivity].
Qed.
Lemma version_not_symbol : forall s, versionKey <> symbol_key s.
Proof.
  intros s E. assert (I : In NUL (symbol_key s)).
  { unfold symbol_key, newEntry, KeySep. apply in_or_app. right. left. reflexivity. }
  rewrite <- E in I. revert I. nul_free.
Qed.

(** the docCom collection is never used in db *)
Definition is_db_key (h : list event) (k : gostr) : Prop :=
  (exists d, In d (synced_docs h) /\ In k (doc_keys d))
  \/ in_coll referenceIndexCollection k
  \/ (exists u, k = newEntry documentCollection u)
  \/ k = versionKey.

Lemma apply_bops_keys : forall ops m k v, kv_get (apply_bops m ops) k = Some v ->
  kv_get m k <> None \/ exists v', In (BPut k v') ops.
Proof.
  induction ops as [|o ops IH] using rev_ind; intros m k v H.
  - left. simpl in H. congruence.
  - rewrite apply_bops_app in H. simpl in H. destruct o as [k' v'|k']; simpl in H.
    + rewrite kv_get_put in H. destruct (str_eqb k' k) eqn:E.
      * apply str_eqb_eq in E. subst. right. exists v'. apply in_or_app. right. left. reflexivity.
      * apply IH in H as [H|(v2 & H)]; [auto|right; exists v2; apply in_or_app; auto].
    + rewrite kv_get_del in H. destruct (str_eqb k' k); [discriminate|].
      apply IH in H as [H|(v2 & H)]; [auto|right; exists v2; apply in_or_app; auto].
Qed.

Lemma is_db_key_mono : forall h e k, is_db_key h k -> is_db_key (h ++ [e]) k.
Proof.
  intros h e k [(d & I & K)|H]; [left|right; exact H]. exists d. split; [|assumption].
  unfold synced_docs. rewrite flat_map_app. apply in_or_app. auto.
Qed.

Lemma db_keys : forall root h st k v, run root h = Some st -> ldb_Get (s_db st) k = Some v -> is_db_key h k.
Proof.
  intros root h. induction h as [|e h IH] using rev_ind; intros st k v R G.
  - injection R as <-. discriminate.
  - apply run_init_some in R as (st0 & R & St). specialize (IH st0 k).
    unfold ldb_Get in *.
    assert (MONO : kv_get (ldb (s_db st0)) k <> None -> is_db_key (h ++ [e]) k).
    { intros N. destruct (kv_get (ldb (s_db st0)) k) as [v0|] eqn:E; [|congruence].
      apply is_db_key_mono. eapply IH; eauto. }
    destruct e as [d|u'| |v'| |m]; simpl in St.
    + apply sync_inv in St. rewrite (sp_db _ _ _ St) in G. apply apply_bops_keys in G as [G|(v0 & G)]; [auto|].
      rewrite !in_app_iff in G. destruct G as [G|[G|[G|[G|G]]]].
      * right. left. change k with (bkey (BPut k v0)). apply (ref_ops_coll st0 (d_uri d) (d_refs d)). apply in_or_app. left. exact G.
      * left. exists d. split; [unfold synced_docs; rewrite flat_map_app; apply in_or_app; right; simpl; auto|].
        apply in_map_iff in G as (s & E & I). injection E as <- _. unfold doc_keys. now apply in_map.
      * right. left. change k with (bkey (BPut k v0)). apply (ref_ops_coll st0 (d_uri d) (d_refs d)). apply in_or_app. right. exact G.
      * apply in_map_iff in G as (? & E & _). discriminate.
      * destruct G as [G|[]]. injection G as <- _. right. right. left. eauto.
    + apply delete_inv in St as (ixs & ks & syms & _ & _ & _ & _ & _ & _ & _ & E). rewrite E in G.
      apply apply_bops_keys in G as [G|(v0 & G)]; [auto|]. exfalso.
      rewrite !in_app_iff in G. destruct G as [G|[G|[G|[G|G]]]]; try (apply in_map_iff in G as (? & E' & _); discriminate).
      * unfold ref_deleteURI in G. destruct (haveReferences u'); [|destruct G]. destruct (assoc_get _ _); [|destruct G].
        destruct G as [G|[G|[]]]; discriminate.
      * destruct G as [G|[]]. discriminate.
    + injection St as <-. simpl in G. change (ldb_Get (ldb_Clear (s_db st0)) k = Some v) in G. rewrite ldb_Clear_get in G. discriminate.
    + injection St as <-. simpl in G. rewrite kv_get_put in G. destruct (str_eqb versionKey k) eqn:E.
      * apply str_eqb_eq in E. right. right. right. auto.
      * apply MONO. congruence.
    + unfold NewStore in St. destruct (newReferenceIndex (s_db st0)); [|discriminate]. injection St as <-. apply MONO. simpl in G. congruence.
    + injection St as <-. apply MONO. simpl in G. congruence.
Qed.

(** ** Completion deletor on db finds nothing *)
Lemma docCom_not_db_key : forall h k u, has_prefix (newEntry documentCompletionIndex u) k = true -> ~ is_db_key h k.
Proof.
  intros h k u P K. apply has_prefix_spec in P as [t ->].
  assert (C : in_coll documentCompletionIndex (newEntry documentCompletionIndex u ++ t)).
  { exists (u ++ t). unfold newEntry. rewrite !app_assoc. reflexivity. }
  destruct K as [(d & _ & K)|[K|[(u' & K)|K]]].
  - apply in_map_iff in K as (s & E & _). rewrite <- E in C. apply (in_coll_other (GetCollection s) documentCompletionIndex (symbol_key s));
      [apply GetCollection_nul|nul_free|destruct s; discriminate|apply symbol_key_coll|assumption].
  - eapply in_coll_other; [| | |exact C|exact K]; [nul_free|nul_free|discriminate].
  - eapply in_coll_other; [| | |exact C|rewrite K; eexists; reflexivity]; [nul_free|nul_free|discriminate].
  - assert (I : In NUL (newEntry documentCompletionIndex u ++ t)).
    { unfold newEntry, KeySep. apply in_or_app. left. apply in_or_app. right. left. reflexivity. }
    rewrite K in I. revert I. nul_free.
Qed.

Lemma ciDeletor_empty : forall root h st u, run root h = Some st ->
  newCompletionIndexDeletor (s_db st) u = Some ([], []).
Proof.
  intros root h st u R. unfold newCompletionIndexDeletor. rewrite ldb_PrefixStream_eq.
  destruct (List.filter _ (ldb (s_db st))) as [|[k v] l] eqn:E; [reflexivity|]. exfalso.
  assert (I : In (k, v) (List.filter (fun e => has_prefix (newEntry documentCompletionIndex u) (fst e)) (ldb (s_db st)))) by (rewrite E; left; reflexivity).
  apply filter_In in I as [I P]. simpl in P. apply (kv_get_in _ _ _ (db_ascending _ _ _ R)) in I.
  apply (docCom_not_db_key h k u P). eapply db_keys; eauto.
Qed.

(** ** The main invariant *)
Theorem db_value : forall root h st s0 u, Forall event_ok h -> run root h = Some st ->
  (forall d, In d (synced_docs h) -> In (symbol_key s0) (doc_keys d) -> d_uri d = u) ->
  ldb_Get (s_db st) (symbol_key s0) =
    match latest h u with Some d => doc_value d (symbol_key s0) | None => None end.
Proof.
  intros root h st s0 u. set (K := symbol_key s0). revert st.
  induction h as [|e h IH] using rev_ind; intros st OK R OWN.
  - injection R as <-. reflexivity.
  - apply Forall_app in OK as [OK OKe]. inversion_clear OKe as [|? ? OE _].
    apply run_init_some in R as (st0 & R & St).
    assert (OWN' : forall d, In d (synced_docs h) -> In K (doc_keys d) -> d_uri d = u).
    { intros d I. apply OWN. unfold synced_docs. rewrite flat_map_app. apply in_or_app. auto. }
    assert (GI := greb_invariant _ _ _ OK R).
    specialize (IH st0 OK R OWN'). rewrite latest_snoc. unfold ldb_Get in *.
    assert (NOREF : forall st u infos o, In o (ref_deleteURI st u ++ fst (ref_index st u infos)) -> bkey o <> K).
    { intros st1 u1 infos o I E. apply (refInd_not_symbol s0 (bkey o)); [eapply (ref_ops_coll st1 u1 infos); assumption|symmetry; exact E]. }
    (* not in the recorded keys of u: then absent before *)
    assert (ABS : ~ In K (match last_synced h u with Some d => doc_keys d | None => [] end) ->
                  kv_get (ldb (s_db st0)) K = None).
    { intros N. rewrite IH. destruct (latest h u) as [d0|] eqn:L; [|reflexivity].
      apply latest_last_synced in L. rewrite L in N. now apply doc_value_none. }
    (* recorded keys of another uri never contain K *)
    assert (OTHER : forall u1, u1 <> u -> ~ In K (match last_synced h u1 with Some d => doc_keys d | None => [] end)).
    { intros u1 N I. destruct (last_synced h u1) as [d1|] eqn:L; [|destruct I].
      apply last_synced_in in L as [I1 E1]. apply N. rewrite <- E1. now apply OWN'. }
    destruct e as [d|u'| |v'| |m]; simpl in St.
    + apply sync_inv in St as P. destruct P as [old ns sc OLD _ _ _ _ _ _ _ DB]. rewrite DB. clear DB.
      unfold greb_keys in GI. rewrite GI in OLD. injection OLD as <-.
      rewrite app_assoc, (app_assoc _ (fst _)). rewrite !apply_bops_app.
      change (apply_bops ?m [BPut ?k ?v]) with (kv_put m k v).
      rewrite kv_get_put_other by (intros E; apply (doc_not_symbol s0 (d_uri d)); exact E).
      assert (PUT : forall m, kv_get (apply_bops (apply_bops m
                (map (fun s => BPut (symbol_key s) (Serialise s)) (List.filter has_key (d_symbols d))))
                (fst (ref_index st0 (d_uri d) (d_refs d)))) K =
               match doc_symbol_at d K with Some s => Some (Serialise s) | None => kv_get m K end).
      { intros m. rewrite get_unaffected by (intros o I; eapply NOREF; apply in_or_app; right; exact I).
        apply get_puts. }
      set (ops0 := ref_deleteURI st0 (d_uri d)).
      assert (D0 : kv_get (apply_bops (ldb (s_db st0)) ops0) K = kv_get (ldb (s_db st0)) K).
      { apply get_unaffected. intros o I. eapply (NOREF _ _ []). apply in_or_app. left. exact I. }
      destruct (in_dec (list_eq_dec Byte.byte_eq_dec) K (doc_keys d)) as [I|NI].
      * assert (d_uri d = u).
        { apply OWN; [|assumption]. unfold synced_docs. rewrite flat_map_app. apply in_or_app. right. left. reflexivity. }
        rewrite get_dels_out by (intros C; apply set_remove_all_in in C as [_ C]; contradiction).
        rewrite PUT. rewrite (proj2 (str_eqb_eq (d_uri d) u)) by assumption.
        unfold doc_value. destruct (doc_value_some d K I) as [s ->]. reflexivity.
      * assert (NS : doc_symbol_at d K = None).
        { assert (Q := doc_value_none d K NI). unfold doc_value in Q. destruct (doc_symbol_at d K); [discriminate|reflexivity]. }
        destruct (str_eqb (d_uri d) u) eqn:E.
        -- apply str_eqb_eq in E. rewrite (doc_value_none d K NI).
           destruct (in_dec (list_eq_dec Byte.byte_eq_dec) K (match last_synced h (d_uri d) with Some d => doc_keys d | None => [] end)) as [IO|NO].
           ++ apply get_dels_in. apply set_remove_all_in. auto.
           ++ rewrite get_dels_out by (intros C; apply set_remove_all_in in C as [C _]; contradiction).
              rewrite PUT, NS, D0. apply ABS. rewrite <- E. exact NO.
        -- apply str_eqb_neq in E.
           rewrite get_dels_out by (intros C; apply set_remove_all_in in C as [C _]; apply (OTHER _ E C)).
           rewrite PUT, NS, D0. exact IH.
    + assert (CI := ciDeletor_empty _ _ _ u' R).
      apply delete_inv in St as (ixs & ks & syms & C1 & C2 & _ & _ & _ & _ & _ & DB).
      rewrite CI in C1. injection C1 as <- <-. unfold greb_keys in GI. rewrite GI in C2. injection C2 as <-.
      rewrite DB. simpl app. rewrite !apply_bops_app. change (apply_bops ?m [BDel ?k]) with (kv_del m k).
      rewrite kv_get_del_other by (intros E; apply (doc_not_symbol s0 u'); exact E).
      rewrite get_unaffected by (intros o I; eapply (NOREF _ _ []); apply in_or_app; left; exact I).
      destruct (str_eqb u' u) eqn:E.
      * apply str_eqb_eq in E. subst u'.
        destruct (in_dec (list_eq_dec Byte.byte_eq_dec) K (match last_synced h u with Some d => doc_keys d | None => [] end)) as [IO|NO].
        -- now apply get_dels_in.
        -- rewrite get_dels_out by assumption. now apply ABS.
      * apply str_eqb_neq in E. rewrite get_dels_out by (apply OTHER; assumption). exact IH.
    + injection St as <-. change (ldb_Get (ldb_Clear (s_db st0)) K = None). apply ldb_Clear_get.
    + injection St as <-. simpl. rewrite kv_get_put_other by apply version_not_symbol. exact IH.
    + unfold NewStore in St. destruct (newReferenceIndex (s_db st0)); [|discriminate]. injection St as <-. exact IH.
    + injection St as <-. exact IH.
Qed.

End S.
