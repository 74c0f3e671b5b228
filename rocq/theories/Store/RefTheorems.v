From Coq Require Import String.
From Coq Require Import List Bool NArith ZArith Lia Permutation.
From Coq.Strings Require Import Byte.
From Verif Require Import Base.Bytes Base.BytesProofs Base.Protocol Base.Decimal Base.DecimalProofs
  Codec.CodecModel Codec.CodecSpec Codec.CodecProofs Codec.SymbolCodecModel Codec.SymbolCodecSpec Codec.SymbolCodecProofs
  Symbols.Symbols Symbols.KeysModel Words.TokeniserModel Storage.KvModel Storage.KvSpec Storage.KvProofs
  Store.FilterModel Store.StoreModel Store.StoreSpec Store.StoreProofs Store.RefProofs.
Import ListNotations.
Open Scope list_scope.

Local Arguments ref_key : simpl never.
Local Arguments ref_filter_key : simpl never.

Lemma canonical_app : forall root c, CanonicaliseURI root (root ++ c) = c.
Proof.
  intros. unfold CanonicaliseURI, trim_prefix.
  assert (has_prefix root (root ++ c) = true) as -> by (apply has_prefix_spec; eauto).
  rewrite skipn_app, skipn_all, Nat.sub_diag. reflexivity.
Qed.

Section S.
Context {T : Text} {X : XorFilter}.
Hypothesis XOK : xor_ok X.
Variable root : gostr.

Definition refs_enc (infos : list entry_info) : gostr := write_list entryInfo_serialise NewEncoder infos.
Definition latest_ref (h : list event) (c : gostr) : option doc :=
  if haveReferences (root ++ c) then latest h (root ++ c) else None.

Record refs_inv (h : list event) (st : store) : Prop := {
  ri_root : s_uri st = root;
  ri_list : forall c, has_prefix root c = false -> ~ In NUL c ->
     ldb_Get (s_db st) (ref_key c) = option_map (fun d => refs_enc (d_refs d)) (latest_ref h c);
  ri_filter : forall c d, has_prefix root c = false -> ~ In NUL c -> latest_ref h c = Some d ->
     exists f, assoc_get (s_refs st) c = Some f /\ ldb_Get (s_db st) (ref_filter_key c) = Some (Encode NewEncoder f)
       /\ (populates X -> forall i, In i (d_refs d) -> Lookup f (ei_ref i) = Some true);
  ri_below : forall c, In c (map fst (s_refs st)) \/ (exists v, ldb_Get (s_db st) (ref_filter_key c) = Some v) -> has_prefix root c = false }.

Lemma latest_ref_snoc : forall h e c, latest_ref (h ++ [e]) c =
  if haveReferences (root ++ c) then
  match e with
  | EvSync d => if str_eqb (d_uri d) (root ++ c) then Some d else latest_ref h c
  | EvDelete u' => if str_eqb u' (root ++ c) then None else latest_ref h c
  | EvClear => None
  | _ => latest_ref h c
  end else None.
Proof. intros. unfold latest_ref. rewrite latest_snoc. destruct (haveReferences (root ++ c)); reflexivity. Qed.

Lemma ref_coll : forall c, in_coll referenceIndexCollection (ref_key c).
Proof. intros c. exists c. reflexivity. Qed.
Lemma ref_filter_coll : forall c, in_coll referenceIndexCollection (ref_filter_key c).
Proof. intros c. eexists. reflexivity. Qed.

Lemma refs_inv_run : forall h st, Forall event_ok h -> Forall (event_in root) h -> run root h = Some st -> refs_inv h st.
Proof.
  intros h. induction h as [|e h IH] using rev_ind; intros st OK IN R.
  - injection R as <-. split; try reflexivity.
    + intros c _ _. unfold latest_ref. simpl. destruct (haveReferences (root ++ c)); reflexivity.
    + intros c d _ _ L. unfold latest_ref in L. simpl in L. destruct (haveReferences (root ++ c)); discriminate.
    + intros c [[]|[v V]]; discriminate.
  - apply Forall_app in OK as [OK OKe]. inversion_clear OKe as [|? ? OE _].
    apply Forall_app in IN as [IN INe]. inversion_clear INe as [|? ? IE _].
    apply run_init_some in R as (st0 & R & St). specialize (IH st0 OK IN R). destruct IH as [I1 I2 I3 I4].
    assert (SH := refs_shape_run XOK _ _ _ OK R).
    destruct e as [d|u'| |v'| |m]; simpl in St, IE.
    + assert (RG := ref_get_sync _ _ _ _ _ OK R St). apply sync_inv in St. assert (RE := sp_refs _ _ _ St).
      assert (UE := sp_uri _ _ _ St). assert (NU : ~ In NUL (d_uri d)) by apply OE.
      unfold ref_index in *. destruct (haveReferences (d_uri d)) eqn:HR; simpl in RE.
      * destruct (IE eq_refl) as (c0 & EU & NP). unfold ref_deleteURI in RG. rewrite HR in RG.
        rewrite I1, EU, canonical_app in *.
        assert (NC : ~ In NUL c0) by (intros C; apply NU; apply in_or_app; auto).
        set (f0 := match assoc_get (s_refs st0) c0 with Some f => f | None => NewFilter end) in *.
        set (f1 := Commit (fold_left Insert (map ei_ref (d_refs d)) f0)) in *.
        assert (S0 : settled f0 \/ f0 = NewFilter).
        { unfold f0. destruct (assoc_get (s_refs st0) c0) eqn:E; [|auto]. left. apply assoc_get_in in E. now apply SH in E. }
        assert (DEL : forall k, ref_key c0 <> k -> ref_filter_key c0 <> k ->
          kv_get (apply_bops (ldb (s_db st0)) match assoc_get (s_refs st0) c0 with
               | Some _ => [BDel (ref_key c0); BDel (ref_filter_key c0)] | None => [] end) k = ldb_Get (s_db st0) k).
        { intros k N1 N2. destruct (assoc_get (s_refs st0) c0); [|reflexivity]. simpl.
          rewrite kv_get_del_other, kv_get_del_other by assumption. reflexivity. }
        assert (K1 : forall k, in_coll referenceIndexCollection k -> ldb_Get (s_db st) k =
             if str_eqb (ref_filter_key c0) k then Some (Encode NewEncoder f1)
             else if str_eqb (ref_key c0) k then Some (refs_enc (d_refs d)) else ldb_Get (s_db st0) k).
        { intros k IC. rewrite RG by assumption. cbn [fst apply_bops fold_left apply_bop]. rewrite !kv_get_put.
          destruct (str_eqb (ref_filter_key c0) k) eqn:E1; [reflexivity|]. destruct (str_eqb (ref_key c0) k) eqn:E2; [reflexivity|].
          apply DEL; now apply str_eqb_neq. }
        assert (HD : forall c, str_eqb (root ++ c0) (root ++ c) = str_eqb c0 c).
        { intros c. destruct (str_eqb c0 c) eqn:E; [apply str_eqb_eq in E; subst; apply str_eqb_refl|].
          apply str_eqb_neq in E. apply str_eqb_neq. intros C. apply app_inv_head in C. contradiction. }
        split.
        -- congruence.
        -- intros c NPc Nc. rewrite K1 by apply ref_coll. rewrite latest_ref_snoc, EU, HD.
           destruct (str_eqb (ref_filter_key c0) (ref_key c)) eqn:E1.
           { apply str_eqb_eq in E1. symmetry in E1. exfalso. now apply ref_keys_differ in E1. }
           destruct (str_eqb c0 c) eqn:E.
           ++ apply str_eqb_eq in E. subst c. rewrite str_eqb_refl, HR. reflexivity.
           ++ assert (str_eqb (ref_key c0) (ref_key c) = false) as ->.
              { apply str_eqb_neq. intros C. apply ref_key_inj in C. apply str_eqb_neq in E. contradiction. }
              rewrite I2 by assumption. unfold latest_ref. destruct (haveReferences (root ++ c)); reflexivity.
        -- intros c d' NPc Nc L. rewrite latest_ref_snoc, EU, HD in L. rewrite K1 by apply ref_filter_coll.
           rewrite RE, assoc_get_set. destruct (haveReferences (root ++ c)) eqn:HR'; [|discriminate].
           destruct (str_eqb c0 c) eqn:E.
           ++ apply str_eqb_eq in E. subst c. injection L as <-. rewrite str_eqb_refl. exists f1. split; [reflexivity|].
              split; [reflexivity|]. intros POP i I. apply commit_lookup; auto. apply in_map. exact I.
           ++ assert (str_eqb (ref_filter_key c0) (ref_filter_key c) = false) as ->.
              { apply str_eqb_neq. intros C. apply ref_filter_key_inj in C. apply str_eqb_neq in E. contradiction. }
              assert (str_eqb (ref_key c0) (ref_filter_key c) = false) as ->.
              { apply str_eqb_neq. now apply ref_keys_differ. }
              apply (I3 c d'); auto.
        -- intros c [H|[v H]].
           ++ rewrite RE in H. apply assoc_set_keys in H as [->|H]; auto.
           ++ rewrite K1 in H by apply ref_filter_coll. destruct (str_eqb (ref_filter_key c0) (ref_filter_key c)) eqn:E.
              ** apply str_eqb_eq in E. apply ref_filter_key_inj in E. now subst.
              ** destruct (str_eqb (ref_key c0) (ref_filter_key c)) eqn:E2.
                 { apply str_eqb_eq in E2. exfalso. now apply ref_keys_differ in E2. }
                 eauto.
      * assert (RG' : forall k, in_coll referenceIndexCollection k -> ldb_Get (s_db st) k = ldb_Get (s_db st0) k).
        { intros k IC. rewrite RG by assumption. simpl. unfold ref_deleteURI. rewrite HR. reflexivity. }
        assert (LS : forall c, latest_ref (h ++ [EvSync d]) c = latest_ref h c).
        { intros c. rewrite latest_ref_snoc. unfold latest_ref. destruct (haveReferences (root ++ c)) eqn:E; [|reflexivity].
          destruct (str_eqb (d_uri d) (root ++ c)) eqn:E2; [|reflexivity]. apply str_eqb_eq in E2. congruence. }
        split.
        -- congruence.
        -- intros c NP N. rewrite LS, RG' by apply ref_coll. auto.
        -- intros c d' NP N L. rewrite LS in L. rewrite RE, RG' by apply ref_filter_coll. auto.
        -- intros c H. apply I4. rewrite RE in H. rewrite RG' in H by apply ref_filter_coll. auto.
    + assert (RG := ref_get_delete _ _ _ _ _ OK R St).
      apply delete_inv in St as (? & ? & ? & _ & _ & UE & _ & _ & RE & _ & _).
      unfold ref_deleteURI in RG. destruct (haveReferences u') eqn:HR.
      * destruct (IE eq_refl) as (c0 & EU & NP). rewrite I1, EU, canonical_app in RG.
        assert (NC : ~ In NUL c0) by (intros C; apply OE; rewrite EU; apply in_or_app; auto).
        assert (HD : forall c, str_eqb (root ++ c0) (root ++ c) = str_eqb c0 c).
        { intros c. destruct (str_eqb c0 c) eqn:E; [apply str_eqb_eq in E; subst; apply str_eqb_refl|].
          apply str_eqb_neq in E. apply str_eqb_neq. intros C. apply app_inv_head in C. contradiction. }
        assert (KO : forall k, in_coll referenceIndexCollection k -> ref_key c0 <> k -> ref_filter_key c0 <> k ->
           ldb_Get (s_db st) k = ldb_Get (s_db st0) k).
        { intros k IC N1 N2. rewrite RG by assumption. destruct (assoc_get (s_refs st0) c0); [|reflexivity]. simpl.
          rewrite kv_get_del_other, kv_get_del_other by assumption. reflexivity. }
        split.
        -- congruence.
        -- intros c NPc Nc. rewrite latest_ref_snoc, EU, HD. destruct (str_eqb c0 c) eqn:E.
           ++ apply str_eqb_eq in E. subst c. replace (if haveReferences (root ++ c0) then None else None) with (@None doc) by (destruct (haveReferences (root ++ c0)); reflexivity).
              rewrite RG by apply ref_coll. destruct (assoc_get (s_refs st0) c0) eqn:AG; simpl.
              ** rewrite kv_get_del. destruct (str_eqb _ _); [reflexivity|]. apply kv_get_del_same.
              ** fold (ldb_Get (s_db st0) (ref_key c0)). rewrite I2 by assumption. destruct (latest_ref h c0) as [d0|] eqn:L; [|reflexivity].
                 destruct (I3 c0 d0 NP NC L) as (f & F & _). congruence.
           ++ rewrite KO; [|apply ref_coll| |].
              ** rewrite I2 by assumption. unfold latest_ref. destruct (haveReferences (root ++ c)); reflexivity.
              ** intros C. apply ref_key_inj in C. apply str_eqb_neq in E. contradiction.
              ** intros C. symmetry in C. now apply ref_keys_differ in C.
        -- intros c d' NPc Nc L. rewrite latest_ref_snoc, EU, HD in L. destruct (haveReferences (root ++ c)); [|discriminate].
           destruct (str_eqb c0 c) eqn:E; [discriminate|]. rewrite RE, KO; [auto|apply ref_filter_coll| |].
           ++ now apply ref_keys_differ.
           ++ intros C. apply ref_filter_key_inj in C. apply str_eqb_neq in E. contradiction.
        -- intros c [H|[v H]]; [rewrite RE in H; auto|]. apply I4. right. exists v.
           destruct (str_eqb (ref_filter_key c0) (ref_filter_key c)) eqn:E.
           ++ apply str_eqb_eq in E. apply ref_filter_key_inj in E. subst c. rewrite RG in H by apply ref_filter_coll.
              destruct (assoc_get (s_refs st0) c0); [|exact H]. simpl in H. rewrite kv_get_del_same in H. discriminate.
           ++ apply str_eqb_neq in E. rewrite KO in H; [exact H|apply ref_filter_coll| |exact E]. now apply ref_keys_differ.
      * assert (RG' : forall k, in_coll referenceIndexCollection k -> ldb_Get (s_db st) k = ldb_Get (s_db st0) k).
        { intros k IC. rewrite RG by assumption. reflexivity. }
        assert (LS : forall c, latest_ref (h ++ [EvDelete u']) c = latest_ref h c).
        { intros c. rewrite latest_ref_snoc. unfold latest_ref. destruct (haveReferences (root ++ c)) eqn:E; [|reflexivity].
          destruct (str_eqb u' (root ++ c)) eqn:E2; [|reflexivity]. apply str_eqb_eq in E2. congruence. }
        split.
        -- congruence.
        -- intros c NP N. rewrite LS, RG' by apply ref_coll. auto.
        -- intros c d' NP N L. rewrite LS in L. rewrite RE, RG' by apply ref_filter_coll. auto.
        -- intros c H. apply I4. rewrite RE in H. rewrite RG' in H by apply ref_filter_coll. auto.
    + injection St as <-. split; simpl.
      * exact I1.
      * intros c _ _. rewrite latest_ref_snoc. change (ldb_Get (ldb_Clear (s_db st0)) (ref_key c) = option_map (fun d => refs_enc (d_refs d)) (if haveReferences (root ++ c) then None else None)).
        rewrite ldb_Clear_get. destruct (haveReferences (root ++ c)); reflexivity.
      * intros c d _ _ L. rewrite latest_ref_snoc in L. destruct (haveReferences (root ++ c)); discriminate.
      * intros c [H|[v H]]; [auto|]. change (ldb_Get (ldb_Clear (s_db st0)) (ref_filter_key c) = Some v) in H.
        rewrite ldb_Clear_get in H. discriminate.
    + injection St as <-. assert (RG' : forall k, in_coll referenceIndexCollection k -> ldb_Get (s_db (PutVersion st0 v')) k = ldb_Get (s_db st0) k).
      { intros k [r ->]. unfold ldb_Get. simpl. rewrite kv_get_put_other; [reflexivity|]. intros E.
        assert (N : ~ In NUL versionKey) by nul_free. apply N. rewrite E. apply in_or_app. right. left. reflexivity. }
      split.
      * exact I1.
      * intros c NP N. rewrite latest_ref_snoc, RG' by apply ref_coll. rewrite I2 by assumption. unfold latest_ref. destruct (haveReferences (root ++ c)); reflexivity.
      * intros c d NP N L. rewrite latest_ref_snoc in L. rewrite RG' by apply ref_filter_coll. apply (I3 c d); auto.
        unfold latest_ref in *. destruct (haveReferences (root ++ c)); [exact L|discriminate].
      * intros c H. apply I4. rewrite RG' in H by apply ref_filter_coll. exact H.
    + assert (LS : forall c, latest_ref (h ++ [EvRestart]) c = latest_ref h c).
      { intros c. rewrite latest_ref_snoc. unfold latest_ref. destruct (haveReferences (root ++ c)); reflexivity. }
      unfold NewStore in St. destruct (newReferenceIndex_spec (s_db st0)) as (m & E & J1 & J2 & J3 & J4).
      { now apply (db_ascending root h). }
      { apply SH. }
      rewrite E in St. injection St as <-. split; simpl.
      * exact I1.
      * intros c NP N. rewrite LS. auto.
      * intros c d NP N L. rewrite LS in L. destruct (I3 c d NP N L) as (f & F1 & F2 & F3). exists f. split; [|auto].
        apply J3; [|assumption]. apply assoc_get_in in F1. now apply SH in F1.
      * intros c [H|H]; [|apply I4; auto]. apply I4. right.
        destruct (ldb_Get (s_db st0) (ref_filter_key c)) eqn:G; [eauto|]. apply J4 in G.
        apply in_map_iff in H as ([c' f'] & Ec & H). simpl in Ec. subst c'. apply (assoc_in_get _ _ _ _ J1) in H. congruence.
    + injection St as <-. assert (LS : forall c, latest_ref (h ++ [EvSynced m]) c = latest_ref h c).
      { intros c. rewrite latest_ref_snoc. unfold latest_ref. destruct (haveReferences (root ++ c)); reflexivity. }
      split; simpl; auto.
      * intros c NP N. rewrite LS. auto.
      * intros c d NP N L. rewrite LS in L. auto.
Qed.

(** ** Find references *)
Definition info_enc (i : entry_info) : gostr := bytes_enc (ei_ref i) ++ pos_enc (r_start (ei_range i)) ++ pos_enc (r_end (ei_range i)).

Lemma refs_decode : forall l, go_len l -> Forall info_ok l -> read_list entryInfoDecode (refs_enc l) = Some (l, []).
Proof.
  intros l L F. unfold refs_enc.
  assert (E : write_list entryInfo_serialise NewEncoder l = list_enc info_enc l).
  { rewrite (write_list_app _ _ info_enc); [reflexivity|]. intros e i. unfold entryInfo_serialise, info_enc.
    rewrite !WritePosition_app, WriteString_app, <- !app_assoc. reflexivity. }
  rewrite E. assert (R : rt (list_enc info_enc l) (read_list entryInfoDecode) (map (fun i => i) l)).
  { apply rt_list; [assumption|]. eapply Forall_impl; [|exact F]. intros [r [a b]] (H1 & H2 & H3). simpl in *.
    unfold info_enc, entryInfoDecode, ReadString. simpl.
    replace (bytes_enc r ++ pos_enc a ++ pos_enc b) with (bytes_enc r ++ pos_enc a ++ pos_enc b ++ []) by now rewrite app_nil_r.
    eapply rt_bind; [now apply rt_bytes|]. eapply rt_bind; [now apply rt_pos|]. eapply rt_bind; [now apply rt_pos|]. apply rt_ret. }
  specialize (R []). rewrite app_nil_r, map_id in R. exact R.
Qed.

Lemma refs_enc_cons : forall l, exists b r, refs_enc l = b :: r.
Proof.
  intros l. unfold refs_enc. rewrite (write_list_app _ _ info_enc).
  - unfold list_enc. simpl. eexists. eexists. reflexivity.
  - intros e i. unfold entryInfo_serialise, info_enc. rewrite !WritePosition_app, WriteString_app, <- !app_assoc. reflexivity.
Qed.

Definition hits (d : doc) (ref : gostr) : list range :=
  map ei_range (List.filter (fun i => str_eqb (ei_ref i) ref) (d_refs d)).

Lemma entry_search : forall h st c ref, Forall event_ok h -> refs_inv h st -> has_prefix root c = false -> ~ In NUL c ->
  ref_entry_search st (root ++ c) ref = Some (match latest_ref h c with Some d => hits d ref | None => [] end).
Proof.
  intros h st c ref OK I NP N. unfold ref_entry_search. rewrite (ri_root _ _ I), canonical_app, (ri_list _ _ I) by assumption.
  destruct (latest_ref h c) as [d|] eqn:L; [|reflexivity]. simpl.
  assert (DOK : doc_ok d).
  { unfold latest_ref in L. destruct (haveReferences (root ++ c)); [|discriminate]. apply latest_in in L as [L _]. eapply synced_docs_ok; eauto. }
  destruct (refs_enc_cons (d_refs d)) as (b & r & E). rewrite E. rewrite <- E. rewrite refs_decode; [reflexivity|apply DOK|apply DOK].
Qed.

Lemma GetReferences_value : forall h st ref, Forall event_ok h -> Forall (event_in root) h -> run root h = Some st ->
  exists l, GetReferences st ref = Some l /\
  (forall loc, In loc l <-> exists c f d, In (c, f) (s_refs st) /\ Lookup f ref = Some true /\ latest_ref h c = Some d
        /\ In (l_range loc) (hits d ref) /\ l_uri loc = root ++ c).
Proof.
  intros h st ref OK IN R. assert (I := refs_inv_run _ _ OK IN R). assert (SH := refs_shape_run XOK _ _ _ OK R).
  unfold GetReferences. set (g := fun e : gostr * filter => _).
  assert (G : forall e, In e (s_refs st) -> g e = Some (match Lookup (snd e) ref with
       | Some true => match latest_ref h (fst e) with Some d => map (Loc (root ++ fst e)) (hits d ref) | None => [] end
       | _ => [] end)).
  { intros [c f] Ie. unfold g. simpl. destruct (Lookup f ref) as [[|]|]; try reflexivity.
    destruct (rs_entries _ SH c f Ie) as [N _].
    assert (NP : has_prefix root c = false) by (apply (ri_below _ _ I); left; apply (in_map fst) in Ie; exact Ie).
    unfold URIFromCanonicalURI. rewrite (ri_root _ _ I), NP. rewrite (entry_search h) by assumption.
    destruct (latest_ref h c); reflexivity. }
  destruct (concat_opt_none _ (map g (s_refs st))) as [l L].
  { intros o Io. apply in_map_iff in Io as (e & <- & Ie). rewrite G by assumption. discriminate. }
  exists l. split; [exact L|]. intros loc. rewrite (concat_opt_some _ _ _ L). split.
  - intros (y & Iy & Il). apply in_map_iff in Iy as ([c f] & E & Ie). rewrite G in E by assumption. injection E as <-. simpl in Il.
    destruct (Lookup f ref) as [[|]|] eqn:LK; try destruct Il. destruct (latest_ref h c) as [d|] eqn:LR; [|destruct Il].
    apply in_map_iff in Il as (r & <- & Ir). exists c, f, d. simpl. auto.
  - intros (c & f & d & Ie & LK & LR & Ir & U). eexists. split.
    + apply in_map_iff. exists (c, f). split; [apply G; exact Ie|exact Ie].
    + simpl. rewrite LK, LR. apply in_map_iff. exists (l_range loc). split; [|assumption]. destruct loc. simpl in *. now subst.
Qed.

Theorem references_sound : forall h st ref, Forall event_ok h -> Forall (event_in root) h -> run root h = Some st ->
  exists l, GetReferences st ref = Some l /\ forall loc, In loc l -> referenced h ref loc.
Proof.
  intros h st ref OK IN R. destruct (GetReferences_value h st ref OK IN R) as (l & L & M). exists l. split; [exact L|].
  intros loc I. apply M in I as (c & f & d & _ & _ & LR & Ir & U). unfold latest_ref in LR.
  destruct (haveReferences (root ++ c)) eqn:HR; [|discriminate]. unfold hits in Ir. apply in_map_iff in Ir as (i & E & Ii).
  apply filter_In in Ii as [Ii Er]. apply str_eqb_eq in Er. exists d, i. rewrite U. auto.
Qed.

Theorem references_exact : populates X -> forall h st ref, Forall event_ok h -> Forall (event_in root) h -> run root h = Some st ->
  exists l, GetReferences st ref = Some l /\ forall loc, In loc l <-> referenced h ref loc.
Proof.
  intros POP h st ref OK IN R. assert (I := refs_inv_run _ _ OK IN R).
  destruct (GetReferences_value h st ref OK IN R) as (l & L & M). exists l. split; [exact L|].
  intros loc. split.
  - destruct (references_sound h st ref OK IN R) as (l' & L' & H). rewrite L in L'. injection L' as <-. apply H.
  - intros (d & i & LA & HR & Ii & Er & Eg). apply M.
    assert (LA' := LA). apply latest_in in LA' as [LA1 LA2]. assert (DOK := synced_docs_ok _ _ OK LA1).
    assert (INF : in_folder root (l_uri loc)).
    { apply in_flat_map in LA1 as (e & Ie & Id). destruct e; simpl in Id; try contradiction. destruct Id as [->|[]].
      rewrite Forall_forall in IN. specialize (IN _ Ie). simpl in IN. rewrite LA2 in IN. auto. }
    destruct INF as (c & U & NP).
    assert (N : ~ In NUL c). { intros C. apply (proj1 DOK). rewrite LA2, U. apply in_or_app. auto. }
    assert (LR : latest_ref h c = Some d). { unfold latest_ref. rewrite <- U, HR. exact LA. }
    destruct (ri_filter _ _ I c d NP N LR) as (f & F1 & _ & F3).
    exists c, f, d. split; [now apply assoc_get_in|]. split; [rewrite <- Er; auto|]. split; [exact LR|]. split; [|exact U].
    unfold hits. apply in_map_iff. exists i. split; [exact Eg|]. apply filter_In. split; [exact Ii|]. rewrite Er. apply str_eqb_refl.
Qed.
End S.
