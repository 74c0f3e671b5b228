From Coq Require Import String.
From Coq Require Import List Bool NArith ZArith Lia Permutation.
From Coq.Strings Require Import Byte.
From Verif Require Import Base.Bytes Base.BytesProofs Base.Protocol Base.Decimal Base.DecimalProofs
  Codec.CodecModel Codec.CodecSpec Codec.CodecProofs Codec.SymbolCodecModel Codec.SymbolCodecSpec Codec.SymbolCodecProofs
  Symbols.Symbols Symbols.KeysModel Words.TokeniserModel Words.TokeniserSpec Words.TokeniserProofs
  Storage.KvModel Storage.KvSpec Storage.KvProofs
  Store.FilterModel Store.StoreModel Store.StoreSpec Store.StoreProofs Store.LookupProofs Store.LookupKinds
  Store.RefProofs Store.RefTheorems.
Import ListNotations.
Open Scope list_scope.

Section S.
Context {T : Text} {X : XorFilter}.

(** ** Histories *)
Lemma run_from_app : forall st h1 h2, run_from st (h1 ++ h2) =
  match run_from st h1 with Some st' => run_from st' h2 | None => None end.
Proof.
  intros st h1 h2. unfold run_from. rewrite fold_left_app. destruct (fold_left _ h1 (Some st)); [reflexivity|].
  induction h2; simpl; auto.
Qed.
Lemma run_app : forall root h1 h2, run root (h1 ++ h2) =
  match run root h1 with Some st' => run_from st' h2 | None => None end.
Proof. intros. apply run_from_app. Qed.

Lemma synced_docs_app : forall h1 h2, synced_docs (h1 ++ h2) = synced_docs h1 ++ synced_docs h2.
Proof. intros. apply flat_map_app. Qed.

Lemma current_uri : forall h s, Forall event_ok h -> current h s -> exists d, latest h (symbol_uri s) = Some d /\ declares d s.
Proof.
  intros h s OK (u & d & L & D). apply latest_in in L as L'. destruct L' as [L1 L2].
  assert (DOK := synced_docs_ok _ _ OK L1). destruct DOK as (_ & _ & F & _). rewrite Forall_forall in F.
  destruct D as (IK & b & a & E & N). assert (I : In s (d_symbols d)) by (rewrite E; apply in_or_app; right; left; reflexivity).
  destruct (F s I) as (_ & U & _). exists d. rewrite U, L2. split; [assumption|]. split; [assumption|]. exists b, a. auto.
Qed.

Lemma current_iff : forall h s, Forall event_ok h -> (current h s <-> exists d, latest h (symbol_uri s) = Some d /\ declares d s).
Proof. intros h s OK. split; [now apply current_uri|]. intros (d & L & D). exists (symbol_uri s), d. auto. Qed.

Lemma current_sync : forall h d s, Forall event_ok h -> doc_ok d ->
  (current (h ++ [EvSync d]) s <->
   (symbol_uri s = d_uri d /\ declares d s) \/ (symbol_uri s <> d_uri d /\ current h s)).
Proof.
  intros h d s OK DOK. rewrite !current_iff; [|assumption|apply Forall_app; split; [assumption|constructor; [exact DOK|constructor]]].
  rewrite latest_snoc. destruct (str_eqb (d_uri d) (symbol_uri s)) eqn:E.
  - apply str_eqb_eq in E. split.
    + intros (d' & Ed & D). injection Ed as <-. auto.
    + intros [[_ D]|[N _]]; [eauto|congruence].
  - apply str_eqb_neq in E. split.
    + intros H. right. split; [congruence|assumption].
    + intros [[C _]|[_ H]]; [congruence|assumption].
Qed.

Lemma current_delete : forall h u s, Forall event_ok h -> ~ In NUL u ->
  (current (h ++ [EvDelete u]) s <-> symbol_uri s <> u /\ current h s).
Proof.
  intros h u s OK NU. rewrite !current_iff; [|assumption|apply Forall_app; split; [assumption|constructor; [exact NU|constructor]]].
  rewrite latest_snoc. destruct (str_eqb u (symbol_uri s)) eqn:E.
  - apply str_eqb_eq in E. split; [intros (d' & Ed & D); discriminate|]. intros [N _]. congruence.
  - apply str_eqb_neq in E. split; [intros H; split; [congruence|assumption]|tauto].
Qed.

Lemma exactly_ext : forall A (same : A -> A -> Prop) (w w' : A -> Prop) l, (forall s, w s <-> w' s) -> exactly same w l -> exactly same w' l.
Proof.
  intros A same w w' l E (H1 & H2 & H3). split; [assumption|]. split.
  - intros x I. destruct (H2 x I) as (s & W & S). exists s. split; [now apply E|assumption].
  - intros s W. apply H3. now apply E.
Qed.

(** ** The recorded hashes *)
Lemma doc_value_hash : forall root h st u, Forall event_ok h -> run root h = Some st ->
  ldb_Get (s_db st) (newEntry documentCollection u) = option_map d_hash (latest h u).
Proof.
  intros root h. induction h as [|e h IH] using rev_ind; intros st u OK R.
  - injection R as <-. reflexivity.
  - apply Forall_app in OK as [OK OKe]. inversion_clear OKe as [|? ? OE _].
    apply run_init_some in R as (st0 & R & St). specialize (IH st0 u OK R). rewrite latest_snoc.
    assert (GI := greb_invariant _ _ _ OK R). unfold greb_keys in GI.
    assert (INJ : forall a b, newEntry documentCollection a = newEntry documentCollection b -> a = b).
    { intros a b E. apply in_newEntry in E; [apply E|nul_free|nul_free]. }
    assert (NOREF : forall st u' infos o, In o (ref_deleteURI st u' ++ fst (ref_index st u' infos)) -> bkey o <> newEntry documentCollection u).
    { intros st1 u1 infos o I E. apply ref_ops_coll in I. rewrite E in I.
      apply (in_coll_other documentCollection referenceIndexCollection (newEntry documentCollection u)); [nul_free|nul_free|discriminate|exists u; reflexivity|exact I]. }
    assert (NS : forall s, symbol_key s <> newEntry documentCollection u) by (intros s E; exact (doc_not_symbol s u (eq_sym E))).
    destruct e as [d|u'| |v'| |m]; simpl in St.
    + apply sync_inv in St. unfold ldb_Get. rewrite (sp_db _ _ _ St). rewrite !apply_bops_app.
      change (apply_bops ?m [BPut ?k ?v]) with (kv_put m k v). rewrite kv_get_put.
      destruct (str_eqb (d_uri d) u) eqn:E.
      * apply str_eqb_eq in E. subst u. rewrite str_eqb_refl. reflexivity.
      * assert (str_eqb (newEntry documentCollection (d_uri d)) (newEntry documentCollection u) = false) as ->.
        { apply str_eqb_neq. intros C. apply INJ in C. apply str_eqb_neq in E. contradiction. }
        rewrite get_dels_out.
        2:{ intros C. apply set_remove_all_in in C as [C _]. assert (OLD := sp_old_eq _ _ _ St). rewrite GI in OLD. injection OLD as OLD. rewrite <- OLD in C.
            destruct (last_synced h (d_uri d)) as [d0|]; [|destruct C]. apply in_map_iff in C as (s & Ek & _). now apply (NS s). }
        rewrite get_unaffected by (intros o I; eapply NOREF; apply in_or_app; right; exact I).
        rewrite get_unaffected by (intros o I; apply in_map_iff in I as (s & <- & _); apply NS).
        rewrite get_unaffected by (intros o I; eapply (NOREF _ _ []); apply in_or_app; left; exact I).
        exact IH.
    + assert (CI := ciDeletor_empty _ _ _ u' R).
      apply delete_inv in St as (ixs & ks & syms & C1 & C2 & _ & _ & _ & _ & _ & DB).
      rewrite CI in C1. injection C1 as <- <-. rewrite GI in C2. injection C2 as <-.
      unfold ldb_Get. rewrite DB. simpl app. rewrite !apply_bops_app. change (apply_bops ?m [BDel ?k]) with (kv_del m k).
      rewrite kv_get_del. destruct (str_eqb u' u) eqn:E.
      * apply str_eqb_eq in E. subst u. rewrite str_eqb_refl. reflexivity.
      * assert (str_eqb (newEntry documentCollection u') (newEntry documentCollection u) = false) as ->.
        { apply str_eqb_neq. intros C. apply INJ in C. apply str_eqb_neq in E. contradiction. }
        rewrite get_unaffected by (intros o I; eapply (NOREF _ _ []); apply in_or_app; left; exact I).
        rewrite get_dels_out; [exact IH|]. intros C. destruct (last_synced h u') as [d0|]; [|destruct C].
        apply in_map_iff in C as (s & Ek & _). now apply (NS s).
    + injection St as <-. apply ldb_Clear_get.
    + injection St as <-. unfold ldb_Get in *. simpl. rewrite kv_get_put_other; [exact IH|]. intros E.
      assert (N : ~ In NUL versionKey) by nul_free. apply N. rewrite E. apply in_or_app. right. left. reflexivity.
    + unfold NewStore in St. destruct (newReferenceIndex (s_db st0)); [|discriminate]. injection St as <-. exact IH.
    + injection St as <-. exact IH.
Qed.

Lemma scan_eq : forall db p, scan db p = List.filter (fun e => has_prefix p (fst e)) (ldb db).
Proof.
  intros db p. unfold scan. rewrite ldb_PrefixStream_eq.
  assert (G : forall es acc, stream (fun acc k (v : gostr) => (acc ++ [(k, v)], false)) es acc = acc ++ es).
  { induction es as [|[k v] es IH]; intros acc; simpl; [now rewrite app_nil_r|]. rewrite IH, <- app_assoc. reflexivity. }
  apply G.
Qed.

Lemma uri_of_key_doc : forall u, ~ In NUL u -> uri_of_key (newEntry documentCollection u) = Some u.
Proof.
  intros u N. unfold uri_of_key, newEntry, KeySep. cbn [app]. rewrite split_byte_app by nul_free.
  rewrite split_byte_none by assumption. reflexivity.
Qed.

(** the documents found by scanning their keys *)
Lemma scan_docs : forall root h st p, Forall event_ok h -> run root h = Some st ->
  exists us, scan (s_db st) (newEntry documentCollection p) = map (fun e => (newEntry documentCollection (fst e), snd e)) us
    /\ NoDup (map fst us)
    /\ (forall u hash, In (u, hash) us <-> (exists d, latest h u = Some d /\ d_hash d = hash) /\ has_prefix p u = true)
    /\ (forall u hash, In (u, hash) us -> ~ In NUL u).
Proof.
  intros root h st p OK R. rewrite scan_eq. assert (ASC := db_ascending _ _ _ R).
  set (es := List.filter (fun e => has_prefix (newEntry documentCollection p) (fst e)) (ldb (s_db st))).
  assert (ES : forall k v, In (k, v) es -> exists u d, k = newEntry documentCollection u /\ latest h u = Some d /\ d_hash d = v /\ has_prefix p u = true).
  { intros k v I. apply filter_In in I as [I P]. cbn [fst] in P. apply (kv_get_in _ _ _ ASC) in I. fold (ldb_Get (s_db st) k) in I.
    assert (IC : in_coll documentCollection k).
    { apply has_prefix_spec in P as [t ->]. exists (p ++ t). unfold newEntry. rewrite <- !app_assoc. reflexivity. }
    destruct (db_keys _ _ _ _ _ R I) as [(d & _ & K)|[K|[(u & K)|K]]].
    - apply in_map_iff in K as (s & K & _). exfalso. destruct IC as [r E]. rewrite E in K. exact (doc_not_symbol s r (eq_sym K)).
    - exfalso. apply (in_coll_other documentCollection referenceIndexCollection k); [nul_free|nul_free|discriminate|assumption|assumption].
    - subst k. rewrite (doc_value_hash _ _ _ _ OK R) in I. destruct (latest h u) as [d|] eqn:L; [|discriminate]. injection I as <-.
      exists u, d. split; [reflexivity|]. split; [assumption|]. split; [reflexivity|].
      apply has_prefix_spec in P as [t E]. unfold newEntry in E. rewrite <- !app_assoc in E. do 2 apply app_inv_head in E.
      apply has_prefix_spec. eauto.
    - exfalso. destruct IC as [r E]. assert (N : ~ In NUL versionKey) by nul_free. apply N. rewrite <- K, E. apply in_or_app. right. left. reflexivity. }
  assert (G : forall es', (forall k v, In (k, v) es' -> exists u d, k = newEntry documentCollection u /\ latest h u = Some d /\ d_hash d = v /\ has_prefix p u = true) ->
     exists us, es' = map (fun e => (newEntry documentCollection (fst e), snd e)) us).
  { induction es' as [|[k v] es' IH]; intros H; [exists []; reflexivity|].
    destruct IH as [us ->]; [intros; apply H; right; assumption|]. destruct (H k v (or_introl eq_refl)) as (u & d & -> & _).
    exists ((u, v) :: us). reflexivity. }
  destruct (G es ES) as [us E]. exists us. split; [exact E|].
  assert (IU : forall u hash, In (u, hash) us <-> In (newEntry documentCollection u, hash) es).
  { intros u hash. rewrite E. split.
    - intros I. apply in_map_iff. exists (u, hash). auto.
    - intros I. apply in_map_iff in I as ([u' h'] & Eq & I). cbn [fst snd] in Eq. apply pair_equal_spec in Eq as [E1 ->].
      apply in_newEntry in E1; [|nul_free|nul_free]. destruct E1 as [_ ->]. exact I. }
  split; [|split].
  - assert (ND : NoDup (map fst es)).
    { unfold es. assert (ND := ascending_nodup _ ASC). generalize (newEntry documentCollection p). intros pp. clear - ND.
      induction (ldb (s_db st)) as [|e l IH]; simpl in *; [constructor|]. inversion ND; subst.
      destruct (has_prefix pp (fst e)); [|auto]. simpl. constructor; [|auto].
      intros I. apply H1. apply in_map_iff in I as (e' & E & I). apply filter_In in I as [I _]. rewrite <- E. now apply in_map. }
    rewrite E, map_map in ND. simpl in ND. rewrite <- map_map with (f := fst) (g := newEntry documentCollection) in ND.
    now apply NoDup_map_inv in ND.
  - intros u hash. rewrite IU. split.
    + intros I. apply ES in I as (u' & d & E1 & L & H & P). apply in_newEntry in E1; [|nul_free|nul_free]. destruct E1 as [_ <-]. eauto.
    + intros ((d & L & H) & P). apply filter_In. split.
      * apply (kv_get_in _ _ _ ASC). fold (ldb_Get (s_db st) (newEntry documentCollection u)). rewrite (doc_value_hash _ _ _ _ OK R), L, <- H. reflexivity.
      * cbn [fst]. apply has_prefix_spec in P as [t ->]. apply has_prefix_spec. exists t. unfold newEntry. rewrite <- !app_assoc. reflexivity.
  - intros u hash I. apply IU in I. apply ES in I as (u' & d & E1 & L & _). apply in_newEntry in E1; [|nul_free|nul_free]. destruct E1 as [_ <-].
    apply latest_in in L as [L1 L2]. rewrite <- L2. apply (synced_docs_ok _ _ OK L1).
Qed.

Lemma map_opt_some : forall A C (f : A -> option C) (g : A -> C) l, (forall a, In a l -> f a = Some (g a)) -> map_opt f l = Some (map g l).
Proof.
  induction l as [|a l IH]; intros H; [reflexivity|]. simpl. rewrite H by (left; reflexivity). rewrite IH by (intros; apply H; right; assumption). reflexivity.
Qed.

Lemma delete_all_run : forall us st, delete_all st us = run_from st (map EvDelete us).
Proof.
  intros us st. unfold delete_all, run_from. revert st. assert (G : forall o, fold_left (fun o u => match o with Some st => DeleteDocument st u | None => None end) us o
    = fold_left (fun o e => match o with Some st => step st e | None => None end) (map EvDelete us) o).
  { induction us as [|u us IH]; intros o; [reflexivity|]. simpl. apply IH. }
  intros st. apply G.
Qed.

Lemma latest_app_deletes : forall h us u, latest (h ++ map EvDelete us) u = if existsb (fun u' => str_eqb u' u) us then None else latest h u.
Proof.
  intros h us. revert h. induction us as [|u' us IH]; intros h u; simpl.
  - now rewrite app_nil_r.
  - change (EvDelete u' :: map EvDelete us) with ([EvDelete u'] ++ map EvDelete us). rewrite app_assoc, IH, latest_snoc.
    destruct (existsb _ us); destruct (str_eqb u' u); reflexivity.
Qed.

Lemma deletes_ok : forall us, (forall u, In u us -> ~ In NUL u) -> Forall event_ok (map EvDelete us).
Proof. intros us H. apply Forall_forall. intros e I. apply in_map_iff in I as (u & <- & I). now apply H. Qed.

Lemma synced_docs_deletes : forall us, synced_docs (map EvDelete us) = [].
Proof. induction us; simpl; auto. Qed.

(** ** Deleting a folder *)
Lemma delete_folder_run : forall root h st p, Forall event_ok h -> run root h = Some st ->
  exists us, DeleteFolder st p = run root (h ++ map EvDelete us)
    /\ (forall u, In u us <-> latest h u <> None /\ has_prefix p u = true) /\ (forall u, In u us -> ~ In NUL u).
Proof.
  intros root h st p OK R. destruct (scan_docs root h st p OK R) as (us & E & ND & IU & NU).
  exists (map fst us). split; [|split].
  - unfold DeleteFolder. rewrite E. rewrite (map_opt_some _ _ _ (fun e => match uri_of_key (fst e) with Some u => u | None => [] end)).
    + rewrite map_map. simpl. rewrite run_app, R, <- delete_all_run. f_equal. apply map_ext_in. intros [u hash] I. simpl.
      rewrite uri_of_key_doc; [reflexivity|]. eapply NU; eauto.
    + intros e I. apply in_map_iff in I as ([u hash] & <- & I). simpl. rewrite uri_of_key_doc; [reflexivity|]. eapply NU; eauto.
  - intros u. rewrite in_map_iff. split.
    + intros ([u' hash] & Eu & I). simpl in Eu. subst u'. apply IU in I as ((d & L & _) & P). split; [congruence|assumption].
    + intros [L P]. destruct (latest h u) as [d|] eqn:E'; [|congruence]. exists (u, d_hash d). split; [reflexivity|]. apply IU. eauto.
  - intros u I. apply in_map_iff in I as ([u' hash] & <- & I). eapply NU; eauto.
Qed.

(** ** Totality *)
Hypothesis XOK : xor_ok X.

Lemma tokenise_some : forall name, well_encoded name -> tokenise name <> None.
Proof. intros name W. destruct (Tokenise_ok is_upper is_digit name W) as (toks & E & _). unfold tokenise. congruence. Qed.

Lemma entries_some : forall uri c name key, well_encoded name -> createCompletionEntries uri c name key <> None.
Proof.
  intros uri c name key W. unfold createCompletionEntries, getCompletionKeys. apply tokenise_some in W.
  destruct (tokenise name); [discriminate|contradiction].
Qed.

Lemma number_in : forall A (l : list A) i x, In x (number i l) -> In (snd x) l.
Proof. induction l as [|a l IH]; intros i x I; simpl in *; [destruct I|]. destruct I as [<-|I]; [left; reflexivity|right; eauto]. Qed.

Lemma namespace_parts_in : forall parts scope x, In x (namespace_parts scope parts) -> In (snd x) parts.
Proof. induction parts as [|a l IH]; intros i x I; simpl in *; [destruct I|]. destruct I as [<-|I]; [left; reflexivity|right; eauto]. Qed.

Lemma effects_total : forall st d g, greb_keys st (d_uri d) = Some g -> encoded_doc d -> exists es, sync_effects st d = Some es.
Proof.
  intros st d g GI [E1 E2]. unfold sync_effects. unfold greb_keys in GI. rewrite GI.
  destruct (concat_opt_none _ (map (namespace_com_ops (d_uri d)) (d_namespaces d))) as [r ->].
  { intros o I. apply in_map_iff in I as (ns & <- & I). unfold namespace_com_ops.
    destruct (indexablesFromNamespaceName ns) as [is k] eqn:EI.
    match goal with |- concat_opt ?l <> None => destruct (concat_opt_none _ l) as [r' ->] end; [|discriminate].
    intros o' I'. apply in_map_iff in I' as (x & <- & I'). apply entries_some. apply number_in in I'.
    unfold indexablesFromNamespaceName in EI. injection EI as EI _.
    assert (TP : match ns with [] => [] | b :: n => if byte_eqb b BSL then n else ns end = trim_prefix ns [BSL]).
    { unfold trim_prefix. destruct ns as [|b n]; [reflexivity|]. simpl. rewrite andb_true_r.
      rewrite (byte_eqb_sym BSL b). destruct (byte_eqb b BSL); reflexivity. }
    rewrite TP in EI. destruct (trim_prefix ns [BSL]) as [|b n] eqn:TE; [subst is; destruct I'|].
    rewrite <- EI in I'. apply namespace_parts_in in I'. apply (E2 ns _ I). rewrite TE. exact I'. }
  destruct (concat_opt_none _ (map (symbol_com_ops (d_uri d)) (List.filter has_key (d_symbols d)))) as [r' ->].
  { intros o I. apply in_map_iff in I as (s & <- & I). apply filter_In in I as [I _]. unfold symbol_com_ops.
    destruct (indexable s) as [[c n]|] eqn:EI; [|discriminate]. apply entries_some. eapply E1; eauto. }
  destruct (ref_index st (d_uri d) (d_refs d)) as [rops rset]. eauto.
Qed.

Lemma sync_total : forall root h st d, Forall event_ok h -> run root h = Some st -> encoded_doc d -> exists st', SyncDocument st d = Some st'.
Proof.
  intros root h st d OK R E. unfold SyncDocument. destruct (effects_total st d _ (greb_invariant _ _ _ OK R (d_uri d)) E) as (es & ->). eauto.
Qed.

Lemma step_total : forall root h st e, Forall event_ok h -> run root h = Some st -> event_encoded e -> exists st', step st e = Some st'.
Proof.
  intros root h st e OK R EE. destruct e as [d|u| |v| |m]; simpl in *; eauto.
  - eapply sync_total; eauto.
  - unfold DeleteDocument. rewrite (ciDeletor_empty _ _ _ u R). assert (GI := greb_invariant _ _ _ OK R u). unfold greb_keys in GI. rewrite GI. eauto.
  - unfold NewStore. destruct (newReferenceIndex_spec (s_db st)) as (m & -> & _); [now apply (db_ascending root h)| |eauto].
    apply (refs_shape_run XOK _ _ _ OK R).
Qed.

Theorem run_total : forall root h, Forall event_ok h -> Forall event_encoded h -> exists st, run root h = Some st.
Proof.
  intros root h. induction h as [|e h IH] using rev_ind; intros OK EN; [eexists; reflexivity|].
  apply Forall_app in OK as [OK _]. apply Forall_app in EN as [EN ENe]. inversion_clear ENe.
  destruct (IH OK EN) as [st R]. rewrite run_snoc, R. eapply step_total; eauto.
Qed.
End S.
