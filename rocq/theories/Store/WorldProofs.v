From Coq Require Import String.
From Coq Require Import List Bool NArith ZArith Lia Permutation.
From Coq.Strings Require Import Byte.
From Verif Require Import Base.Bytes Base.BytesProofs Base.Protocol Base.Decimal
  Codec.CodecModel Codec.CodecSpec Codec.SymbolCodecModel Codec.SymbolCodecSpec
  Symbols.Symbols Symbols.KeysModel Words.TokeniserModel Storage.KvModel Storage.KvSpec Storage.KvProofs
  Store.FilterModel Store.StoreModel Store.StoreSpec Store.StoreProofs Store.LookupProofs Store.LookupKinds
  Store.StoreTheorems Store.WorldModel.
Import ListNotations.
Open Scope list_scope.

Section S.
Context {T : Text} {X : XorFilter}.

Definition in_key_dec := in_dec (list_eq_dec Byte.byte_eq_dec).

(** ** The writes of a synchronisation *)
Definition sync_ops (d : doc) (r0 r1 : list bop) (dels : list gostr) : list bop :=
  r0 ++ map (fun s => BPut (symbol_key s) (Serialise s)) (List.filter has_key (d_symbols d)) ++ r1
  ++ map BDel dels ++ [BPut (newEntry documentCollection (d_uri d)) (d_hash d)].
Definition sync_writes (d : doc) (rset : list (gostr * filter)) (com : list bop) (ops : list bop) : list eff :=
  [EffGreb (newEntry documentSymbolsCollection (d_uri d))
     (write_list doc_symbol_serialise NewEncoder
        (map (fun s => DocSymbol (GetCollection s) (GetKey s) []) (List.filter has_key (d_symbols d))));
   EffGreb (newEntry documentNamespacesCollection (d_uri d)) (write_list WriteString NewEncoder [])]
  ++ map (fun e => EffRef (fst e) (snd e)) rset ++ [EffCom com; EffDb ops].

Definition ref_only (l : list bop) : Prop := forall o, In o l -> in_coll referenceIndexCollection (bkey o).

Lemma sync_effects_inv : forall st d es, sync_effects st d = Some es ->
  exists old com, greb_keys st (d_uri d) = Some old
   /\ es = sync_writes d (snd (ref_index st (d_uri d) (d_refs d))) com
            (sync_ops d (ref_deleteURI st (d_uri d)) (fst (ref_index st (d_uri d) (d_refs d))) (fold_left set_remove (doc_keys d) old)).
Proof.
  intros st d es H. unfold sync_effects in H. unfold greb_keys.
  destruct (newSymbolDeletor (s_greb st) (d_uri d)) as [old|]; [|discriminate].
  destruct (concat_opt (map (namespace_com_ops (d_uri d)) (d_namespaces d))) as [nscom|]; [|discriminate].
  destruct (concat_opt (map (symbol_com_ops (d_uri d)) (List.filter has_key (d_symbols d)))) as [symcom|]; [|discriminate].
  destruct (ref_index st (d_uri d) (d_refs d)) as [rops rset].
  exists old, (nscom ++ symcom). split; [reflexivity|]. injection H as <-. reflexivity.
Qed.

Lemma ref_deleteURI_only : forall st u, ref_only (ref_deleteURI st u).
Proof. intros st u o I. apply (ref_ops_coll st u []). apply in_or_app. auto. Qed.
Lemma ref_index_only : forall st u l, ref_only (fst (ref_index st u l)).
Proof. intros st u l o I. apply (ref_ops_coll st u l). apply in_or_app. auto. Qed.

Lemma ref_only_key : forall l s, ref_only l -> forall o, In o l -> bkey o <> symbol_key s.
Proof. intros l s R o I E. apply (refInd_not_symbol s (bkey o) (R o I)). symmetry. exact E. Qed.

Lemma commit_value : forall m d r0 r1 dels s0, ref_only r0 -> ref_only r1 -> (forall k, In k dels -> ~ In k (doc_keys d)) ->
  kv_get (apply_bops m (sync_ops d r0 r1 dels)) (symbol_key s0) =
  match doc_symbol_at d (symbol_key s0) with
  | Some s => Some (Serialise s)
  | None => if in_key_dec (symbol_key s0) dels then None else kv_get m (symbol_key s0)
  end.
Proof.
  intros m d r0 r1 dels s0 R0 R1 DD. unfold sync_ops. rewrite !apply_bops_app.
  change (apply_bops ?m [BPut ?k ?v]) with (kv_put m k v).
  rewrite kv_get_put_other by (intros E; apply (doc_not_symbol s0 (d_uri d)); exact E).
  destruct (in_key_dec (symbol_key s0) dels) as [I|NI].
  - rewrite get_dels_in by exact I. destruct (doc_symbol_at d (symbol_key s0)) eqn:E; [|reflexivity]. exfalso. apply (DD _ I).
    destruct (in_key_dec (symbol_key s0) (doc_keys d)) as [J|N]; [exact J|]. apply doc_value_none in N. unfold doc_value in N. rewrite E in N. discriminate.
  - rewrite get_dels_out by exact NI. rewrite get_unaffected by (apply (ref_only_key _ s0 R1)).
    transitivity (match doc_symbol_at d (symbol_key s0) with Some s => Some (Serialise s) | None => kv_get (apply_bops m r0) (symbol_key s0) end).
    + apply get_puts.
    + rewrite (get_unaffected r0) by (apply (ref_only_key _ s0 R0)). reflexivity.
Qed.

(** the symbol list written for [d] is read back *)
Lemma greb_put : forall st d, doc_ok d -> forall u,
  greb_keys (apply_eff st (EffGreb (newEntry documentSymbolsCollection (d_uri d))
     (write_list doc_symbol_serialise NewEncoder
        (map (fun s => DocSymbol (GetCollection s) (GetKey s) []) (List.filter has_key (d_symbols d)))))) u
  = if str_eqb (d_uri d) u then Some (doc_keys d) else greb_keys st u.
Proof.
  intros st d OK u. unfold greb_keys, newSymbolDeletor. cbn [apply_eff s_greb].
  destruct (str_eqb (d_uri d) u) eqn:E.
  - apply str_eqb_eq in E. subst u. erewrite read_doc_list.
    + rewrite ds_keys. reflexivity.
    + destruct OK as (_ & L & _). unfold go_len in *.
      assert (length (List.filter has_key (d_symbols d)) <= length (d_symbols d))%nat by apply filter_length_le. lia.
    + destruct OK as (_ & _ & F & _). apply Forall_forall. intros s I. apply filter_In in I as [I _].
      rewrite Forall_forall in F. apply F in I. apply I.
    + apply kv_get_put_same.
  - apply str_eqb_neq in E. unfold readDocumentSymbols.
    rewrite kv_get_put_other; [reflexivity|]. intros H. apply docSym_inj in H. contradiction.
Qed.
Lemma greb_put_ns : forall st u' v u, greb_keys (apply_eff st (EffGreb (newEntry documentNamespacesCollection u') v)) u = greb_keys st u.
Proof.
  intros st u' v u. unfold greb_keys, newSymbolDeletor, readDocumentSymbols. cbn [apply_eff s_greb].
  rewrite kv_get_put_other; [reflexivity|]. intros H. revert H. apply docNs_docSym.
Qed.

(** ** Structure of the reachable worlds *)
Definition from_seen (w : world) (u : gostr) (l : list gostr) : Prop :=
  forall k, In k l -> exists d, In d (w_seen w) /\ d_uri d = u /\ In k (doc_keys d).

Definition running_ok (w : world) (d : doc) (es : list eff) : Prop :=
  In d (w_seen w) /\ exists rset com r0 r1 dels pre,
    pre ++ es = sync_writes d rset com (sync_ops d r0 r1 dels) /\ es <> []
    /\ ref_only r0 /\ ref_only r1 /\ (forall k, In k dels -> ~ In k (doc_keys d)) /\ from_seen w (d_uri d) dels
    /\ (pre <> [] -> greb_keys (w_store w) (d_uri d) = Some (doc_keys d)).

Record sound (w : world) : Prop := Sound {
  so_asc : ascending (ldb (s_db (w_store w)));
  so_keys : forall k v, ldb_Get (s_db (w_store w)) k = Some v -> is_db_key (w_done w) k;
  so_nodup : NoDup (running_uris w);
  so_greb : forall u, exists g, greb_keys (w_store w) u = Some g /\ from_seen w u g;
  so_running : forall d es, In (d, es) (w_running w) -> running_ok w d es;
  so_done : forall d, In d (synced_docs (w_done w)) -> In d (w_seen w);
  so_events : Forall event_ok (w_done w);
  so_seen : Forall doc_ok (w_seen w) }.

(** splitting the writes of a synchronisation at the next one *)
Lemma next_write : forall d rset com ops pre e es, pre ++ e :: es = sync_writes d rset com ops ->
  (pre = [] /\ e = EffGreb (newEntry documentSymbolsCollection (d_uri d))
       (write_list doc_symbol_serialise NewEncoder
          (map (fun s => DocSymbol (GetCollection s) (GetKey s) []) (List.filter has_key (d_symbols d)))) /\ es <> [])
  \/ (pre <> [] /\ es <> [] /\
      ((exists v, e = EffGreb (newEntry documentNamespacesCollection (d_uri d)) v) \/ (exists c f, e = EffRef c f) \/ e = EffCom com))
  \/ (pre <> [] /\ e = EffDb ops /\ es = []).
Proof.
  intros d rset com ops pre e es E. unfold sync_writes in E.
  destruct pre as [|p pre]; [left; injection E as -> ->; split; [reflexivity|]; split; [reflexivity|discriminate]|right].
  destruct pre as [|p2 pre].
  { left. injection E as _ -> ->. split; [discriminate|]. split; [destruct rset; discriminate|left; eauto]. }
  injection E as _ _ E.
  assert (G : forall l pre, pre ++ e :: es = map (fun e => EffRef (fst e) (snd e)) l ++ [EffCom com; EffDb ops] ->
     (es <> [] /\ ((exists c f, e = EffRef c f) \/ e = EffCom com)) \/ (e = EffDb ops /\ es = [])).
  { induction l as [|[c f] l IH]; intros q Q.
    - destruct q as [|q1 [|q2 [|q3 q]]]; try discriminate.
      + injection Q as -> ->. left. split; [discriminate|auto].
      + injection Q as _ -> ->. auto.
    - destruct q as [|q1 q].
      + injection Q as -> ->. left. split; [destruct l; discriminate|left; eauto].
      + injection Q as _ Q. eapply IH. exact Q. }
  destruct (G _ _ E) as [(N & J)|(-> & ->)].
  - left. split; [discriminate|]. split; [exact N|]. right. exact J.
  - right. split; [discriminate|]. auto.
Qed.

Lemma from_seen_mono : forall w w' u l, (forall d, In d (w_seen w) -> In d (w_seen w')) -> from_seen w u l -> from_seen w' u l.
Proof. intros w w' u l M F k I. destruct (F k I) as (d & H & ? & ?). exists d. auto. Qed.

Lemma dels_from : forall w u d old, from_seen w u old -> from_seen w u (fold_left set_remove (doc_keys d) old).
Proof. intros w u d old F k I. apply set_remove_all_in in I as [I _]. now apply F. Qed.

Lemma synced_docs_snoc : forall h e, synced_docs (h ++ [e]) = synced_docs h ++ match e with EvSync d => [d] | _ => [] end.
Proof. intros. unfold synced_docs. rewrite flat_map_app. cbn. rewrite app_nil_r. reflexivity. Qed.

Lemma running_greb : forall w w', w_seen w' = w_seen w -> s_greb (w_store w') = s_greb (w_store w) ->
  forall d es, running_ok w d es -> running_ok w' d es.
Proof.
  intros w w' S G d es (I & rset & com & r0 & r1 & dels & pre & E & N & R0 & R1 & DD & F & GK).
  split; [rewrite S; exact I|]. exists rset, com, r0, r1, dels, pre. repeat (split; [assumption|]). split.
  - intros k J. destruct (F k J) as (d' & I' & U). exists d'. rewrite S. auto.
  - intros P. unfold greb_keys. rewrite G. now apply GK.
Qed.
Lemma greb_same : forall w w', w_seen w' = w_seen w -> s_greb (w_store w') = s_greb (w_store w) ->
  (forall u, exists g, greb_keys (w_store w) u = Some g /\ from_seen w u g) ->
  forall u, exists g, greb_keys (w_store w') u = Some g /\ from_seen w' u g.
Proof.
  intros w w' S G H u. destruct (H u) as (g & K & F). exists g. unfold greb_keys in *. rewrite G. split; [exact K|].
  intros k J. destruct (F k J) as (d' & I' & U). exists d'. rewrite S. auto.
Qed.

Lemma remaining_in : forall d es x y, In (x, y) (remaining d es) -> x = d /\ y = es /\ es <> [].
Proof. intros d es x y I. unfold remaining in I. destruct es; [destruct I|]. destruct I as [I|[]]. injection I as <- <-. split; [reflexivity|]. split; [reflexivity|discriminate]. Qed.

Lemma other_running : forall r1 d e es (r2 : list (doc * list eff)) x y, NoDup (map (fun r => d_uri (fst r)) (r1 ++ (d, e :: es) :: r2)) ->
  In (x, y) (r1 ++ r2) -> d_uri x <> d_uri d.
Proof.
  intros r1 d e es r2 x y ND I E. rewrite map_app in ND. cbn [map] in ND. apply NoDup_remove_2 in ND. apply ND.
  rewrite <- map_app. cbn [fst]. rewrite <- E. apply (in_map (fun r => d_uri (fst r)) _ (x, y) I).
Qed.

Lemma is_db_key_more : forall h l k, is_db_key h k -> is_db_key (h ++ l) k.
Proof.
  intros h l k [(d & I & K)|H]; [left|right; exact H]. exists d. split; [|assumption].
  unfold synced_docs. rewrite flat_map_app. apply in_or_app. auto.
Qed.

Lemma sound_new : forall root, sound (new_world root).
Proof.
  intros root. split; simpl; try constructor; try discriminate; try (intros; contradiction).
  intros u. exists []. split; [reflexivity|]. intros k [].
Qed.

Lemma greb_eff : forall st e, (exists c f, e = EffRef c f) \/ (exists o, e = EffCom o) \/ (exists o, e = EffDb o) -> s_greb (apply_eff st e) = s_greb st.
Proof. intros st e [(c & f & ->)|[(o & ->)|(o & ->)]]; reflexivity. Qed.

Lemma sound_start : forall w d es, sound w -> doc_ok d -> ~ In (d_uri d) (running_uris w) -> sync_effects (w_store w) d = Some es ->
  sound (World (w_store w) (w_running w ++ [(d, es)]) (w_done w) (w_seen w ++ [d]) (w_cut w)).
Proof.
  intros w d es [A K N G R D EV S] OK NR E.
  assert (MONO : forall x, In x (w_seen w) -> In x (w_seen w ++ [d])) by (intros; apply in_or_app; auto).
  split; cbn [w_store w_running w_done w_seen]; auto.
  - unfold running_uris. cbn [w_running]. rewrite map_app. cbn [map fst].
    apply (Permutation_NoDup (l := d_uri d :: running_uris w)); [apply Permutation_cons_append|]. constructor; assumption.
  - intros u. destruct (G u) as (g & GK & F). exists g. split; [exact GK|]. revert F. apply from_seen_mono. exact MONO.
  - intros x y I. apply in_app_or in I as [I|[I|[]]].
    + destruct (R x y I) as (J & rset & com & r0 & r1 & dels & pre & H1 & H2 & H3 & H4 & H5 & H6 & H7).
      split; [apply MONO; exact J|]. exists rset, com, r0, r1, dels, pre. repeat (split; [assumption|]). split; [|exact H7].
      revert H6. apply from_seen_mono. exact MONO.
    + injection I as <- <-. split; [apply in_or_app; right; left; reflexivity|].
      destruct (sync_effects_inv _ _ _ E) as (old & com & GK & ->). exists (snd (ref_index (w_store w) (d_uri d) (d_refs d))), com.
      exists (ref_deleteURI (w_store w) (d_uri d)), (fst (ref_index (w_store w) (d_uri d) (d_refs d))), (fold_left set_remove (doc_keys d) old), [].
      split; [reflexivity|]. split; [discriminate|]. split; [apply ref_deleteURI_only|]. split; [apply ref_index_only|].
      split; [intros k J; apply set_remove_all_in in J; apply J|]. split; [|congruence].
      destruct (G (d_uri d)) as (g & GK' & F). rewrite GK in GK'. injection GK' as <-.
      apply (from_seen_mono w); [exact MONO|]. apply dels_from. exact F.
  - apply Forall_app. split; [exact S|]. constructor; [exact OK|constructor].
Qed.

Lemma sound_write : forall w r1 d e es r2, sound w -> w_running w = r1 ++ (d, e :: es) :: r2 ->
  sound (World (apply_eff (w_store w) e) (r1 ++ remaining d es ++ r2) (w_done w ++ completion d es) (w_seen w) (w_cut w)).
Proof.
  intros w r1 d e es r2 [A K N G R D EV S] E. unfold running_uris in N. rewrite E in N.
  destruct (R d (e :: es)) as (SD & rset & com & o0 & o1 & dels & pre & W & NE & R0 & R1 & DD & F & GK).
  { rewrite E. apply in_or_app. right. left. reflexivity. }
  assert (DOK : doc_ok d) by (rewrite Forall_forall in S; auto).
  assert (N' : NoDup (map (fun r => d_uri (fst r)) (r1 ++ remaining d es ++ r2))).
  { rewrite map_app in N |- *. destruct es; [|exact N]. cbn [map] in N. now apply NoDup_remove_1 in N. }
  assert (W' : (pre ++ [e]) ++ es = sync_writes d rset com (sync_ops d o0 o1 dels)) by (rewrite <- app_assoc; exact W).
  assert (OTH : forall x y, In (x, y) (r1 ++ r2) -> d_uri x <> d_uri d /\ In (x, y) (w_running w)).
  { intros x y I. split; [exact (other_running _ _ _ _ _ _ _ N I)|]. rewrite E. apply in_app_or in I as [I|I]; apply in_or_app; [left|right; right]; exact I. }
  assert (SPLIT : forall x y, In (x, y) (r1 ++ remaining d es ++ r2) -> In (x, y) (r1 ++ r2) \/ (x = d /\ y = es /\ es <> [])).
  { intros x y I. rewrite !in_app_iff in I. destruct I as [I|[I|I]]; [left; apply in_or_app; auto| |left; apply in_or_app; auto].
    right. now apply remaining_in. }
  assert (DONE : completion d es = [] \/ completion d es = [EvSync d]) by (unfold completion; destruct es; auto).
  assert (D' : forall x, In x (synced_docs (w_done w ++ completion d es)) -> In x (w_seen w)).
  { intros x I. rewrite synced_docs_app in I. apply in_app_or in I as [I|I]; [auto|]. destruct DONE as [Q|Q]; rewrite Q in I; [destruct I|]. destruct I as [<-|[]]. exact SD. }
  assert (EV' : Forall event_ok (w_done w ++ completion d es)).
  { apply Forall_app. split; [exact EV|]. destruct DONE as [Q|Q]; rewrite Q; constructor; [exact DOK|constructor]. }
  destruct (next_write _ _ _ _ _ _ _ W) as [(-> & -> & NN)|[(NP & NN & J)|(NP & -> & ->)]].
  - (* the symbol list is replaced *)
    split; cbn [w_store w_running w_done w_seen]; auto.
    + intros k v Q. apply is_db_key_more. apply (K k v). exact Q.
    + intros u. rewrite (greb_put _ _ DOK). destruct (str_eqb (d_uri d) u) eqn:Q.
      * exists (doc_keys d). split; [reflexivity|]. apply str_eqb_eq in Q. intros k J. exists d. auto.
      * apply G.
    + intros x y I. apply SPLIT in I as [I|(-> & -> & _)].
      * destruct (OTH x y I) as (NU & I'). destruct (R x y I') as (J & rset' & com' & o0' & o1' & dels' & pre' & H1 & H2 & H3 & H4 & H5 & H6 & H7).
        split; [exact J|]. exists rset', com', o0', o1', dels', pre'. repeat (split; [assumption|]). cbn [w_store].
        intros P. rewrite (greb_put _ _ DOK). apply not_eq_sym in NU. apply str_eqb_neq in NU. rewrite NU. now apply H7.
      * split; [exact SD|]. eexists rset, com, o0, o1, dels, _. split; [exact W'|]. repeat (split; [assumption|]).
        cbn [w_store]. intros _. rewrite (greb_put _ _ DOK), str_eqb_refl. reflexivity.
  - (* neither the symbol list nor the symbols *)
    assert (GR : forall u, greb_keys (apply_eff (w_store w) e) u = greb_keys (w_store w) u).
    { intros u. destruct J as [(v & ->)|[(c & f & ->)| ->]]; [apply greb_put_ns|reflexivity|reflexivity]. }
    assert (DB : s_db (apply_eff (w_store w) e) = s_db (w_store w)).
    { destruct J as [(v & ->)|[(c & f & ->)| ->]]; reflexivity. }
    split; cbn [w_store w_running w_done w_seen]; auto.
    + rewrite DB. exact A.
    + intros k v. rewrite DB. intros Q. apply is_db_key_more. now apply (K k v).
    + intros u. rewrite GR. apply G.
    + intros x y I. apply SPLIT in I as [I|(-> & -> & _)].
      * destruct (OTH x y I) as (NU & I'). destruct (R x y I') as (J' & rset' & com' & o0' & o1' & dels' & pre' & H1 & H2 & H3 & H4 & H5 & H6 & H7).
        split; [exact J'|]. exists rset', com', o0', o1', dels', pre'. repeat (split; [assumption|]). cbn [w_store]. rewrite GR. exact H7.
      * split; [exact SD|]. eexists rset, com, o0, o1, dels, _. split; [exact W'|]. repeat (split; [assumption|]).
        cbn [w_store]. rewrite GR. intros _. now apply GK.
  - (* the commit *)
    assert (DB : ldb (s_db (apply_eff (w_store w) (EffDb (sync_ops d o0 o1 dels)))) = apply_bops (ldb (s_db (w_store w))) (sync_ops d o0 o1 dels)).
    { cbn [apply_eff s_db]. apply ldb_batch. }
    split; cbn [w_store w_running w_done w_seen]; auto.
    + rewrite DB. now apply apply_bops_ascending.
    + intros k v Q. unfold ldb_Get in Q. rewrite DB in Q. apply apply_bops_keys in Q as [Q|(v0 & Q)].
      * destruct (kv_get (ldb (s_db (w_store w))) k) as [v1|] eqn:Q1; [|congruence]. apply is_db_key_more. now apply (K k v1).
      * unfold sync_ops in Q. rewrite !in_app_iff in Q. destruct Q as [Q|[Q|[Q|[Q|Q]]]].
        -- right. left. exact (R0 _ Q).
        -- left. exists d. split; [rewrite synced_docs_app; apply in_or_app; right; left; reflexivity|].
           apply in_map_iff in Q as (s & Q & I). injection Q as <- _. unfold doc_keys. now apply in_map.
        -- right. left. exact (R1 _ Q).
        -- apply in_map_iff in Q as (? & Q & _). discriminate.
        -- destruct Q as [Q|[]]. injection Q as <- _. right. right. left. eauto.
    + intros x y I. apply SPLIT in I as [I|(-> & -> & NN)]; [|congruence].
      destruct (OTH x y I) as (NU & I'). apply (running_greb w); [reflexivity|reflexivity|]. now apply R.
Qed.

Lemma ci_empty : forall w u, sound w -> newCompletionIndexDeletor (s_db (w_store w)) u = Some ([], []).
Proof.
  intros w u W. unfold newCompletionIndexDeletor. rewrite ldb_PrefixStream_eq.
  destruct (List.filter _ (ldb (s_db (w_store w)))) as [|[k v] l] eqn:E; [reflexivity|]. exfalso.
  assert (I : In (k, v) (List.filter (fun e => has_prefix (newEntry documentCompletionIndex u) (fst e)) (ldb (s_db (w_store w))))) by (rewrite E; left; reflexivity).
  apply filter_In in I as [I P]. simpl in P. apply (kv_get_in _ _ _ (so_asc _ W)) in I.
  apply (docCom_not_db_key (w_done w) k u P). apply (so_keys _ W k v). exact I.
Qed.

Lemma delete_world : forall w u st', sound w -> DeleteDocument (w_store w) u = Some st' ->
  exists g, greb_keys (w_store w) u = Some g /\ s_greb st' = s_greb (w_store w)
   /\ ldb (s_db st') = apply_bops (ldb (s_db (w_store w)))
        (map BDel g ++ ref_deleteURI (w_store w) u ++ [BDel (newEntry documentCollection u)]).
Proof.
  intros w u st' W H. apply delete_inv in H as (ixs & ks & syms & C1 & C2 & _ & _ & G & _ & _ & DB).
  rewrite (ci_empty w u W) in C1. injection C1 as <- <-. exists syms. split; [exact C2|]. split; [exact G|]. exact DB.
Qed.

Lemma sound_step : forall w w', sound w -> wstep False w w' -> sound w'.
Proof.
  intros w w' W St. destruct St as [w d es OK [[]|NR] E|w r1 d e es r2 E|w u st' NU [[]|NR] E|w E|w v|w m|w st' E].
  - now apply sound_start.
  - now apply sound_write.
  - destruct (delete_world w u st' W E) as (g & GK & GR & DB). destruct W as [A K N G R D EV S].
    split; cbn [w_store w_running w_done w_seen]; auto.
    + rewrite DB. now apply apply_bops_ascending.
    + intros k v Q. unfold ldb_Get in Q. rewrite DB in Q. apply apply_bops_keys in Q as [Q|(v0 & Q)].
      * destruct (kv_get (ldb (s_db (w_store w))) k) as [v1|] eqn:Q1; [|congruence]. apply is_db_key_more. now apply (K k v1).
      * exfalso. rewrite !in_app_iff in Q. destruct Q as [Q|[Q|Q]].
        -- apply in_map_iff in Q as (? & Q & _). discriminate.
        -- unfold ref_deleteURI in Q. destruct (haveReferences u); [|destruct Q]. destruct (assoc_get _ _); [|destruct Q].
           destruct Q as [Q|[Q|[]]]; discriminate.
        -- destruct Q as [Q|[]]. discriminate.
    + exact (greb_same w (World st' (w_running w) (w_done w ++ [EvDelete u]) (w_seen w) (w_cut w)) eq_refl GR G).
    + intros d es I. apply (running_greb w); [reflexivity|exact GR|]. now apply R.
    + intros d. rewrite synced_docs_snoc, app_nil_r. apply D.
    + apply Forall_app. split; [exact EV|]. constructor; [exact NU|constructor].
  - destruct W as [A K N G R D EV S]. split; cbn [w_store w_running w_done w_seen]; auto.
    + apply (ldb_step_ascending (s_db (w_store w)) DClear A).
    + intros k v Q. change (ldb_Get (ldb_Clear (s_db (w_store w))) k = Some v) in Q. rewrite ldb_Clear_get in Q. discriminate.
    + constructor.
    + intros d es [].
    + intros d. rewrite synced_docs_snoc, app_nil_r. apply D.
    + apply Forall_app. split; [exact EV|]. constructor; [exact Logic.I|constructor].
  - destruct W as [A K N G R D EV S]. split; cbn [w_store w_running w_done w_seen]; auto.
    + apply (ldb_step_ascending (s_db (w_store w)) (DPut versionKey v) A).
    + intros k v' Q. change (kv_get (kv_put (ldb (s_db (w_store w))) versionKey v) k = Some v') in Q. rewrite kv_get_put in Q.
      destruct (str_eqb versionKey k) eqn:E; [apply str_eqb_eq in E; right; right; right; auto|]. apply is_db_key_more. now apply (K k v').
    + intros d. rewrite synced_docs_snoc, app_nil_r. apply D.
    + apply Forall_app. split; [exact EV|]. constructor; [exact Logic.I|constructor].
  - destruct W as [A K N G R D EV S]. split; cbn [w_store w_running w_done w_seen]; auto.
    + intros k v' Q. apply is_db_key_more. now apply (K k v').
    + intros d. rewrite synced_docs_snoc, app_nil_r. apply D.
    + apply Forall_app. split; [exact EV|]. constructor; [exact Logic.I|constructor].
  - unfold NewStore in E. destruct (newReferenceIndex _); [|discriminate]. injection E as <-.
    destruct W as [A K N G R D EV S]. split; cbn [w_store w_running w_done w_seen]; auto.
    + intros k v' Q. apply is_db_key_more. now apply (K k v').
    + constructor.
    + intros d es [].
    + intros d. rewrite synced_docs_snoc, app_nil_r. apply D.
    + apply Forall_app. split; [exact EV|]. constructor; [exact Logic.I|constructor].
Qed.

Theorem reachable_sound : forall root w, reachable False root w -> sound w.
Proof. intros root w R. induction R; [apply sound_new|eapply sound_step; eauto]. Qed.

(** ** The value of one key *)
Section Key.
Variables (s0 : symbol) (u : gostr).
Definition owned (w : world) : Prop := forall d, In d (w_seen w) -> In (symbol_key s0) (doc_keys d) -> d_uri d = u.

Record key_inv (w : world) (m : option symbol) : Prop := KeyInv {
  ki_value : ldb_Get (s_db (w_store w)) (symbol_key s0) = option_map Serialise m;
  ki_source : forall s, m = Some s -> exists d, In d (synced_docs (w_done w)) /\ d_uri d = u /\ doc_symbol_at d (symbol_key s0) = Some s;
  ki_complete : forall d, latest (w_done w) u = Some d -> In (symbol_key s0) (doc_keys d) -> m = doc_symbol_at d (symbol_key s0);
  ki_exact : ~ In u (w_cut w) -> m = match latest (w_done w) u with Some d => doc_symbol_at d (symbol_key s0) | None => None end;
  ki_listed : ~ In u (w_cut w) -> m <> None -> ~ In u (running_uris w) -> exists g, greb_keys (w_store w) u = Some g /\ In (symbol_key s0) g;
  ki_captured : ~ In u (w_cut w) -> m <> None -> forall d es ops, In (d, es) (w_running w) -> d_uri d = u -> In (EffDb ops) es ->
     In (symbol_key s0) (doc_keys d) \/ In (BDel (symbol_key s0)) ops }.

Lemma doc_symbol_keys : forall d k s, doc_symbol_at d k = Some s -> In k (doc_keys d).
Proof.
  intros d k s E. destruct (in_key_dec k (doc_keys d)) as [I|N]; [exact I|]. apply doc_value_none in N. unfold doc_value in N. rewrite E in N. discriminate.
Qed.
Lemma doc_symbol_none : forall d k, ~ In k (doc_keys d) -> doc_symbol_at d k = None.
Proof. intros d k N. destruct (doc_symbol_at d k) eqn:E; [|reflexivity]. apply doc_symbol_keys in E. contradiction. Qed.

Lemma bdel_dels : forall d r0 r1 dels, ref_only r0 -> ref_only r1 -> In (BDel (symbol_key s0)) (sync_ops d r0 r1 dels) -> In (symbol_key s0) dels.
Proof.
  intros d r0 r1 dels R0 R1 I. unfold sync_ops in I. rewrite !in_app_iff in I. destruct I as [I|[I|[I|[I|I]]]].
  - exfalso. apply (ref_only_key r0 s0 R0 _ I). reflexivity.
  - apply in_map_iff in I as (? & I & _). discriminate.
  - exfalso. apply (ref_only_key r1 s0 R1 _ I). reflexivity.
  - apply in_map_iff in I as (k & I & J). injection I as ->. exact J.
  - destruct I as [I|[]]. discriminate.
Qed.

Lemma latest_completion : forall h d es, latest (h ++ completion d es) u =
  match es with [] => if str_eqb (d_uri d) u then Some d else latest h u | _ => latest h u end.
Proof. intros h d es. destruct es; cbn [completion]; [exact (latest_snoc h (EvSync d) u)|rewrite app_nil_r; reflexivity]. Qed.

Lemma key_same : forall w w' m, owned w' -> key_inv w m ->
  s_db (w_store w') = s_db (w_store w) -> (forall x, greb_keys (w_store w') x = greb_keys (w_store w) x) ->
  synced_docs (w_done w') = synced_docs (w_done w) -> latest (w_done w') u = latest (w_done w) u ->
  w_cut w' = w_cut w -> w_running w' = w_running w -> key_inv w' m.
Proof.
  intros w w' m OWN [K1 K2 K3 K4 K5 K6] DB GR SD LA CU RU. split.
  - rewrite DB. exact K1.
  - rewrite SD. exact K2.
  - rewrite LA. exact K3.
  - rewrite CU, LA. exact K4.
  - rewrite CU. unfold running_uris. rewrite RU. intros H1 H2 H3. rewrite GR. auto.
  - rewrite CU, RU. exact K6.
Qed.

Lemma key_write : forall w r1 d e es r2 m, sound w -> owned w -> w_running w = r1 ++ (d, e :: es) :: r2 -> key_inv w m ->
  exists m', key_inv (World (apply_eff (w_store w) e) (r1 ++ remaining d es ++ r2) (w_done w ++ completion d es) (w_seen w) (w_cut w)) m'.
Proof.
  intros w r1 d e es r2 m [A K N G R D EV S] OWN E [K1 K2 K3 K4 K5 K6]. assert (N0 := N). unfold running_uris in N. rewrite E in N.
  destruct (R d (e :: es)) as (SD & rset & com & o0 & o1 & dels & pre & W & NE & R0 & R1 & DD & F & GK).
  { rewrite E. apply in_or_app. right. left. reflexivity. }
  assert (DOK : doc_ok d) by (rewrite Forall_forall in S; auto).
  assert (IR : In (d_uri d) (running_uris w)).
  { unfold running_uris. rewrite E, map_app. apply in_or_app. right. left. reflexivity. }
  assert (SAME : es <> [] -> (forall x, x <> d_uri d -> greb_keys (apply_eff (w_store w) e) x = greb_keys (w_store w) x) ->
     s_db (apply_eff (w_store w) e) = s_db (w_store w) ->
     key_inv (World (apply_eff (w_store w) e) (r1 ++ remaining d es ++ r2) (w_done w ++ completion d es) (w_seen w) (w_cut w)) m).
  { intros NN GR DB.
    assert (CO : completion d es = []) by (destruct es; [congruence|reflexivity]).
    assert (RE : remaining d es = [(d, es)]) by (destruct es; [congruence|reflexivity]).
    assert (RU : map (fun r => d_uri (fst r)) (r1 ++ [(d, es)] ++ r2) = running_uris w).
    { unfold running_uris. rewrite E, !map_app. reflexivity. }
    rewrite CO, RE, app_nil_r. split; cbn [w_store w_done w_cut w_running]; auto.
    - rewrite DB. exact K1.
    - intros H1 H2 H3. unfold running_uris in H3. cbn [w_running] in H3. rewrite RU in H3.
      rewrite GR; [auto|]. intros ->. contradiction.
    - intros H1 H2 d' es' ops I U J. rewrite !in_app_iff in I. destruct I as [I|[I|I]].
      + apply (K6 H1 H2 d' es' ops); auto. rewrite E. apply in_or_app. auto.
      + destruct I as [I|[]]. injection I as <- <-. apply (K6 H1 H2 d (e :: es) ops); auto; [rewrite E; apply in_or_app; right; left; reflexivity|right; exact J].
      + apply (K6 H1 H2 d' es' ops); auto. rewrite E. apply in_or_app. right. right. exact I. }
  destruct (next_write _ _ _ _ _ _ _ W) as [(-> & -> & NN)|[(NP & NN & J)|(NP & -> & ->)]].
  - exists m. apply SAME; [exact NN| |reflexivity]. intros x NX. rewrite (greb_put _ _ DOK).
    apply not_eq_sym in NX. apply str_eqb_neq in NX. rewrite NX. reflexivity.
  - exists m. apply SAME; [exact NN| |]; [intros x _|]; destruct J as [(v & ->)|[(c & f & ->)| ->]]; try reflexivity. apply greb_put_ns.
  - clear SAME. assert (GK' := GK NP).
    assert (V : ldb_Get (s_db (apply_eff (w_store w) (EffDb (sync_ops d o0 o1 dels)))) (symbol_key s0) =
       match doc_symbol_at d (symbol_key s0) with
       | Some s => Some (Serialise s)
       | None => if in_key_dec (symbol_key s0) dels then None else option_map Serialise m end).
    { unfold ldb_Get in *. cbn [apply_eff s_db]. rewrite ldb_batch, commit_value by assumption. rewrite K1. reflexivity. }
    set (w' := World _ _ _ _ _). assert (LA : latest (w_done w') u = if str_eqb (d_uri d) u then Some d else latest (w_done w) u).
    { unfold w'. cbn [w_done]. rewrite latest_completion. reflexivity. }
    assert (SY : synced_docs (w_done w') = synced_docs (w_done w) ++ [d]) by (unfold w'; cbn [w_done]; rewrite synced_docs_app; reflexivity).
    assert (NR : forall x y, In (x, y) (w_running w') -> d_uri x <> d_uri d /\ In (x, y) (w_running w)).
    { intros x y I. unfold w' in I. cbn [w_running remaining app] in I. split; [exact (other_running _ _ _ _ _ _ _ N I)|].
      rewrite E. apply in_app_or in I as [I|I]; apply in_or_app; [left|right; right]; exact I. }
    destruct (str_eqb (d_uri d) u) eqn:U.
    + apply str_eqb_eq in U.
      exists (match doc_symbol_at d (symbol_key s0) with Some s => Some s | None => if in_key_dec (symbol_key s0) dels then None else m end).
      assert (EX : ~ In u (w_cut w) -> doc_symbol_at d (symbol_key s0) = None ->
                   (if in_key_dec (symbol_key s0) dels then None else m) = None).
      { intros H1 H2. destruct (in_key_dec (symbol_key s0) dels) as [I|NI]; [reflexivity|]. destruct m as [s|]; [|reflexivity]. exfalso.
        assert (MN : Some s <> None) by discriminate.
        assert (IW : In (d, [EffDb (sync_ops d o0 o1 dels)]) (w_running w)) by (rewrite E; apply in_or_app; right; left; reflexivity).
        destruct (K6 H1 MN d _ _ IW U (or_introl eq_refl)) as [I|I].
        - destruct (doc_value_some d _ I) as (s' & E'). congruence.
        - exact (NI (bdel_dels _ _ _ _ R0 R1 I)). }
      split.
      * change (w_store w') with (apply_eff (w_store w) (EffDb (sync_ops d o0 o1 dels))). rewrite V. destruct (doc_symbol_at d (symbol_key s0)); [reflexivity|]. destruct (in_key_dec _ _); reflexivity.
      * intros s H. rewrite SY. destruct (doc_symbol_at d (symbol_key s0)) as [s'|] eqn:Q.
        -- exists d. split; [apply in_or_app; right; left; reflexivity|]. split; [exact U|]. congruence.
        -- destruct (in_key_dec (symbol_key s0) dels); [discriminate|]. destruct (K2 s H) as (d' & I & H'). exists d'. split; [apply in_or_app; auto|exact H'].
      * rewrite LA. intros d' H I. injection H as <-. destruct (doc_value_some d _ I) as (s & Q). rewrite Q. reflexivity.
      * rewrite LA. change (w_cut w') with (w_cut w). intros H. destruct (doc_symbol_at d (symbol_key s0)) as [s'|] eqn:Q; [reflexivity|]. now apply EX.
      * change (w_cut w') with (w_cut w). intros H1 H2 _. exists (doc_keys d). rewrite <- U. split; [exact GK'|].
        destruct (doc_symbol_at d (symbol_key s0)) as [s'|] eqn:Q; [eapply doc_symbol_keys; eauto|]. exfalso. apply H2. now apply EX.
      * intros _ _ d' es' ops I U'. apply NR in I as [I _]. congruence.
    + apply str_eqb_neq in U. exists m.
      assert (NK : doc_symbol_at d (symbol_key s0) = None) by (apply doc_symbol_none; intros I; apply U; apply OWN; auto).
      assert (ND : ~ In (symbol_key s0) dels).
      { intros I. destruct (F _ I) as (d' & I' & U' & J). apply U. rewrite <- U'. apply OWN; auto. }
      rewrite NK in V. destruct (in_key_dec (symbol_key s0) dels) as [I|_]; [contradiction|]. split.
      * exact V.
      * intros s H. rewrite SY. destruct (K2 s H) as (d' & I & H'). exists d'. split; [apply in_or_app; auto|exact H'].
      * rewrite LA. exact K3.
      * rewrite LA. exact K4.
      * intros H1 H2 H3. assert (H3' : ~ In u (running_uris w)).
        { intros I. unfold running_uris in I. rewrite E, map_app in I. apply in_app_or in I as [I|[I|I]]; [|contradiction|];
          apply H3; unfold w', running_uris; cbn [w_running remaining app]; rewrite map_app; apply in_or_app; auto. }
        exact (K5 H1 H2 H3').
      * intros H1 H2 d' es' ops I. apply NR in I as [_ I]. exact (K6 H1 H2 d' es' ops I).
Qed.

Lemma key_step : forall w w' m, sound w -> owned w' -> wstep False w w' -> key_inv w m -> exists m', key_inv w' m'.
Proof.
  intros w w' m W OWN St KI. destruct St as [w d es OK [[]|NR] E|w r1 d e es r2 E|w u' st' NU [[]|NR] E|w E|w v|w m'|w st' E].
  - exists m. assert (GS := so_greb w W u). destruct KI as [K1 K2 K3 K4 K5 K6]. split; cbn [w_store w_done w_cut w_running]; auto.
    + intros H1 H2 H3. apply K5; auto. intros I. apply H3. unfold running_uris in *. cbn [w_running]. rewrite map_app. apply in_or_app. auto.
    + intros H1 H2 d' es' ops I U J. apply in_app_or in I as [I|[I|[]]]; [now apply (K6 H1 H2 d' es' ops)|].
      injection I as <- <-. destruct (sync_effects_inv _ _ _ E) as (old & com & GK & ->).
      rewrite U in NR. destruct (K5 H1 H2 NR) as (g & GK' & IG). rewrite <- U in GK'. rewrite GK in GK'. injection GK' as <-.
      destruct (in_key_dec (symbol_key s0) (doc_keys d)) as [I|NI]; [left; exact I|right].
      assert (ops = sync_ops d (ref_deleteURI (w_store w) (d_uri d)) (fst (ref_index (w_store w) (d_uri d) (d_refs d))) (fold_left set_remove (doc_keys d) old)) as ->.
      { unfold sync_writes in J. rewrite !in_app_iff in J. destruct J as [[J|[J|[]]]|[J|[J|[J|[]]]]]; try discriminate; [|congruence].
        apply in_map_iff in J as (? & J & _). discriminate. }
      unfold sync_ops. rewrite !in_app_iff. right. right. right. left. apply in_map. apply set_remove_all_in. auto.
  - apply (key_write w r1 d e es r2 m); auto.
  - destruct (delete_world w u' st' W E) as (g & GK & GR & DB). destruct (so_greb w W u') as (g' & GK' & FS). rewrite GK in GK'. injection GK' as <-.
    destruct KI as [K1 K2 K3 K4 K5 K6].
    assert (V : ldb_Get (s_db st') (symbol_key s0) = if in_key_dec (symbol_key s0) g then None else option_map Serialise m).
    { unfold ldb_Get in *. rewrite DB, !apply_bops_app. change (apply_bops ?m [BDel ?k]) with (kv_del m k).
      rewrite kv_get_del_other by (intros Q; apply (doc_not_symbol s0 u'); exact Q).
      rewrite get_unaffected by (apply (ref_only_key _ s0 (ref_deleteURI_only _ _))).
      destruct (in_key_dec (symbol_key s0) g) as [I|NI]; [now apply get_dels_in|]. rewrite get_dels_out by exact NI. exact K1. }
    assert (GK0 : forall x, greb_keys st' x = greb_keys (w_store w) x) by (intros x; unfold greb_keys; now rewrite GR).
    set (w' := World _ _ _ _ _) in *.
    assert (LA : latest (w_done w') u = if str_eqb u' u then None else latest (w_done w) u) by (unfold w'; cbn [w_done]; rewrite latest_snoc; reflexivity).
    assert (SY : synced_docs (w_done w') = synced_docs (w_done w)) by (unfold w'; cbn [w_done]; rewrite synced_docs_snoc, app_nil_r; reflexivity).
    destruct (str_eqb u' u) eqn:U.
    + apply str_eqb_eq in U. subst u'. exists (if in_key_dec (symbol_key s0) g then None else m).
      assert (EX : ~ In u (w_cut w) -> (if in_key_dec (symbol_key s0) g then None else m) = None).
      { intros H. destruct (in_key_dec (symbol_key s0) g) as [I|NI]; [reflexivity|]. destruct m as [s|]; [|reflexivity]. exfalso.
        destruct (K5 H) as (g' & Q & I); [discriminate|assumption|]. rewrite GK in Q. injection Q as <-. contradiction. }
      split.
      * change (w_store w') with st'. rewrite V. destruct (in_key_dec _ _); reflexivity.
      * rewrite SY. intros s H. apply K2. destruct (in_key_dec _ _); [discriminate|exact H].
      * rewrite LA. discriminate.
      * rewrite LA. exact EX.
      * intros H1 H2. exfalso. apply H2. now apply EX.
      * intros H1 H2. exfalso. apply H2. now apply EX.
    + apply str_eqb_neq in U. exists m. destruct (in_key_dec (symbol_key s0) g) as [I|_].
      { exfalso. destruct (FS _ I) as (d' & I' & U' & J). apply U. rewrite <- U'. apply OWN; auto. }
      split; auto.
      * rewrite SY. exact K2.
      * rewrite LA. exact K3.
      * rewrite LA. exact K4.
      * intros H1 H2 H3. change (w_store w') with st'. rewrite GK0. now apply K5.
  - exists None. split; cbn [w_store w_done w_cut w_running].
    + apply ldb_Clear_get.
    + discriminate.
    + rewrite latest_snoc. discriminate.
    + rewrite latest_snoc. reflexivity.
    + congruence.
    + intros _ _ d es ops [].
  - exists m. destruct KI as [K1 K2 K3 K4 K5 K6].
    assert (SY : synced_docs (w_done w ++ [EvVersion v]) = synced_docs (w_done w)) by (rewrite synced_docs_snoc, app_nil_r; reflexivity).
    split; cbn [w_store w_done w_cut w_running]; rewrite ?SY, ?latest_snoc; auto.
    unfold ldb_Get in *. cbn [PutVersion with_db s_db ldb_Put ldb]. rewrite kv_get_put_other by apply version_not_symbol. exact K1.
  - exists m. apply (key_same w); auto.
    + cbn [w_done]. rewrite synced_docs_snoc, app_nil_r. reflexivity.
    + cbn [w_done]. rewrite latest_snoc. reflexivity.
  - exists m. unfold NewStore in E. destruct (newReferenceIndex _); [|discriminate]. injection E as <-.
    destruct KI as [K1 K2 K3 K4 K5 K6].
    assert (SY : synced_docs (w_done w ++ [EvRestart]) = synced_docs (w_done w)) by (rewrite synced_docs_snoc, app_nil_r; reflexivity).
    split; cbn [w_store w_done w_cut w_running]; rewrite ?SY, ?latest_snoc; auto.
    + intros H. apply K4. intros I. apply H. apply in_or_app. auto.
    + intros H1 H2 _. apply K5; auto; intros I; apply H1; apply in_or_app; auto.
    + intros _ _ d es ops [].
Qed.

Theorem key_value : forall root w, reachable False root w -> owned w -> exists m, key_inv w m.
Proof.
  intros root w R. induction R as [|w w' R IH St]; intros OWN.
  - exists None. split; cbn; try discriminate; try reflexivity; try congruence; intros; contradiction.
  - assert (OWN' : owned w).
    { intros d I. apply OWN. destruct St; cbn [w_seen]; auto. apply in_or_app. auto. }
    destruct (IH OWN') as (m & KI). apply (key_step w w' m); auto. eapply reachable_sound; eauto.
Qed.
End Key.
End S.
