From Coq Require Import String.
From Coq Require Import List Bool NArith ZArith Lia Permutation.
From Coq.Strings Require Import Byte.
From Verif Require Import Base.Bytes Base.BytesProofs Base.Protocol Base.Decimal Base.DecimalProofs
  Codec.CodecModel Codec.CodecSpec Symbols.Symbols Symbols.KeysModel Words.TokeniserSpec
  Storage.KvModel Storage.KvSpec Storage.KvProofs
  Store.FilterModel Store.StoreModel Store.StoreSpec Store.StoreProofs Store.LookupProofs Store.LookupKinds
  Store.RefProofs Store.RefTheorems Store.StoreTheorems Store.IndexProofs.
Import ListNotations.
Open Scope list_scope.

Section S.
Context {T : Text} {X : XorFilter}.

Definition str_in := in_dec (list_eq_dec Byte.byte_eq_dec).

(** ** Every kind's value after a sync *)
Lemma sync_symbol_value : forall root h st d st' s0, Forall event_ok h -> run root h = Some st -> SyncDocument st d = Some st' ->
  ldb_Get (s_db st') (symbol_key s0) =
    if str_in (symbol_key s0) (doc_keys d) then doc_value d (symbol_key s0)
    else if str_in (symbol_key s0) (match last_synced h (d_uri d) with Some d0 => doc_keys d0 | None => [] end) then None
    else ldb_Get (s_db st) (symbol_key s0).
Proof.
  intros root h st d st' s0 OK R St. assert (GI := greb_invariant _ _ _ OK R). unfold greb_keys in GI. apply sync_inv in St.
  set (K := symbol_key s0).
  assert (NR : forall st u infos o, In o (ref_deleteURI st u ++ fst (ref_index st u infos)) -> bkey o <> K).
  { intros st1 u1 infos o I E. apply ref_ops_coll in I. rewrite E in I. exact (refInd_not_symbol s0 K I eq_refl). }
  assert (OLD := sp_old_eq _ _ _ St). rewrite GI in OLD. injection OLD as OLD.
  unfold ldb_Get. rewrite (sp_db _ _ _ St), !apply_bops_app.
  change (apply_bops ?m [BPut ?k ?v]) with (kv_put m k v).
  rewrite kv_get_put_other by (intros E; exact (doc_not_symbol s0 _ E)).
  destruct (str_in K (doc_keys d)) as [I|I].
  - rewrite get_dels_out.
    2:{ intros C. apply set_remove_all_in in C as [_ C]. contradiction. }
    rewrite get_unaffected by (intros o Io; eapply NR; apply in_or_app; right; exact Io).
    rewrite get_puts. destruct (find _ (rev _)) eqn:F.
    + unfold doc_value, doc_symbol_at. rewrite F. reflexivity.
    + exfalso. destruct (doc_value_some d K I) as [s E]. unfold doc_symbol_at in E. congruence.
  - match goal with |- context [str_in K ?l] => destruct (str_in K l) as [I'|I'] end.
    + apply get_dels_in. apply set_remove_all_in. split; [|exact I]. rewrite <- OLD. exact I'.
    + rewrite get_dels_out by (intros C; apply set_remove_all_in in C as [C _]; rewrite <- OLD in C; contradiction).
      rewrite get_unaffected by (intros o Io; eapply NR; apply in_or_app; right; exact Io).
      rewrite get_unaffected by (intros o Io E; apply in_map_iff in Io as (s & <- & Is); cbn [bkey] in E; apply I; rewrite <- E; apply (in_map symbol_key); exact Is).
      rewrite get_unaffected by (intros o Io; eapply (NR _ _ []); apply in_or_app; left; exact Io).
      reflexivity.
Qed.

(** ** Look-ups read symbol keys only *)
Lemma scan_ext : forall a b p, ascending a -> ascending b -> (forall k, has_prefix p k = true -> kv_get a k = kv_get b k) ->
  List.filter (fun e => has_prefix p (fst e)) a = List.filter (fun e => has_prefix p (fst e)) b.
Proof.
  intros a b p A B H. apply ascending_ext; [now apply ascending_filter|now apply ascending_filter|].
  assert (G : forall m k, ascending m -> kv_get (List.filter (fun e => has_prefix p (fst e)) m) k = if has_prefix p k then kv_get m k else None).
  { intros m k Am. assert (Af : ascending (List.filter (fun e => has_prefix p (fst e)) m)) by now apply ascending_filter.
    destruct (kv_get (List.filter _ m) k) as [v|] eqn:E.
    - apply (kv_get_in _ _ _ Af) in E. apply filter_In in E as [I P]. cbn [fst] in P. rewrite P. symmetry. now apply (kv_get_in _ _ _ Am).
    - destruct (has_prefix p k) eqn:P; [|reflexivity]. destruct (kv_get m k) as [v|] eqn:E'; [|reflexivity].
      apply (kv_get_in _ _ _ Am) in E'. assert (I : In (k, v) (List.filter (fun e => has_prefix p (fst e)) m)) by (apply filter_In; auto).
      apply (kv_get_in _ _ _ Af) in I. congruence. }
  intros k. rewrite !G by assumption. destruct (has_prefix p k) eqn:P; auto.
Qed.

Lemma get_all_ext : forall A (read : dec A) a b p, ascending (ldb a) -> ascending (ldb b) ->
  (forall k, has_prefix p k = true -> ldb_Get a k = ldb_Get b k) -> get_all read a p = get_all read b p.
Proof.
  intros A read a b p AA AB H. unfold get_all. rewrite !ldb_PrefixStream_eq. f_equal. now apply scan_ext.
Qed.

Definition query_coll (q : query) : gostr :=
  match query_kind q with
  | KClass => classCollection | KInterface => interfaceCollection | KTrait => traitCollection
  | KFunction => functionCollection | KConst => constCollection | KDefine => defineCollection
  | KMethod => methodCollection | KClassConst => classConstCollection | KProperty => propertyCollection
  | KGlobalVariable => globalVariableCollection
  end.

Lemma ask_ext : forall a b q, ascending (ldb (s_db a)) -> ascending (ldb (s_db b)) ->
  (forall k, in_coll (query_coll q) k -> ldb_Get (s_db a) k = ldb_Get (s_db b) k) -> ask a q = ask b q.
Proof.
  intros a b q AA AB H.
  assert (P : forall c r k, has_prefix (newEntry c r) k = true -> in_coll c k).
  { intros c r k E. apply has_prefix_spec in E as [t ->]. exists (r ++ t). unfold newEntry. rewrite <- !app_assoc. reflexivity. }
  destruct q; unfold ask; f_equal; apply get_all_ext; auto; intros k E; apply P in E; apply H; exact E.
Qed.

(** a stored key of a symbol collection is a symbol's key *)
Lemma coll_key_symbol : forall root h st q k v, run root h = Some st -> in_coll (query_coll q) k -> ldb_Get (s_db st) k = Some v ->
  exists s, k = symbol_key s /\ exists d, In d (synced_docs h) /\ In k (doc_keys d).
Proof.
  intros root h st q k v R IC G.
  assert (NC : ~ In NUL (query_coll q)) by (destruct q; nul_free).
  destruct (db_keys _ _ _ _ _ R G) as [(d & I & K)|[K|[(u & K)|K]]].
  - assert (K' := K). apply in_map_iff in K as (s & E & _). exists s. split; [congruence|]. eauto.
  - exfalso. apply (in_coll_other (query_coll q) referenceIndexCollection k); auto; [nul_free|destruct q; discriminate].
  - exfalso. apply (in_coll_other (query_coll q) documentCollection k); auto; [nul_free|destruct q; discriminate|exists u; exact K].
  - exfalso. destruct IC as [r E]. assert (N : ~ In NUL versionKey) by nul_free. apply N. rewrite <- K, E. apply in_or_app. right. left. reflexivity.
Qed.

Lemma last_synced_sync : forall h d, last_synced (h ++ [EvSync d]) (d_uri d) = Some d.
Proof. intros. rewrite last_synced_snoc. now rewrite str_eqb_refl. Qed.

Theorem sync_twice : forall root h st d st1 st2 q, Forall event_ok h -> doc_ok d -> run root h = Some st ->
  SyncDocument st d = Some st1 -> SyncDocument st1 d = Some st2 -> ask st2 q = ask st1 q.
Proof.
  intros root h st d st1 st2 q OK DOK R S1 S2.
  assert (R1 : run root (h ++ [EvSync d]) = Some st1) by (rewrite run_snoc, R; exact S1).
  assert (R2 : run root ((h ++ [EvSync d]) ++ [EvSync d]) = Some st2) by (rewrite run_snoc, R1; exact S2).
  assert (OK1 : Forall event_ok (h ++ [EvSync d])) by (apply Forall_app; split; [exact OK|constructor; [exact DOK|constructor]]).
  apply ask_ext; [eapply db_ascending; eauto|eapply db_ascending; eauto|]. intros k IC.
  assert (SK : forall s, k = symbol_key s -> ldb_Get (s_db st2) k = ldb_Get (s_db st1) k).
  { intros s ->. rewrite (sync_symbol_value root _ st1 d st2 s OK1 R1 S2). rewrite last_synced_sync.
    rewrite (sync_symbol_value root h st d st1 s OK R S1).
    destruct (str_in (symbol_key s) (doc_keys d)) as [I|I]; [reflexivity|].
    destruct (str_in (symbol_key s) (doc_keys d)) as [I'|_]; [contradiction|]. reflexivity. }
  destruct (ldb_Get (s_db st2) k) as [v|] eqn:G2.
  - destruct (coll_key_symbol _ _ _ q k v R2 IC G2) as (s & E & _). rewrite <- G2. rewrite G2. symmetry. rewrite <- (SK s E). reflexivity.
  - destruct (ldb_Get (s_db st1) k) as [v|] eqn:G1; [|reflexivity]. destruct (coll_key_symbol _ _ _ q k v R1 IC G1) as (s & E & _).
    rewrite <- (SK s E). reflexivity.
Qed.

(** ** Other kinds *)
Lemma latest_only_kind : forall k h u, latest (map (only_kind_event k) h) u = option_map (only_kind k) (latest h u).
Proof.
  intros k h u. induction h as [|e h IH] using rev_ind; [reflexivity|]. rewrite map_app. simpl map. rewrite !latest_snoc, IH.
  destruct e; simpl; try reflexivity; destruct (str_eqb _ _); reflexivity.
Qed.

Lemma kind_eqb_eq : forall a b, kind_eqb a b = true <-> a = b.
Proof. intros [] []; simpl; split; congruence. Qed.

Lemma same_entry_kind : forall s s', same_entry s s' -> kind_of s = kind_of s'.
Proof. intros [] []; simpl; intros H; try contradiction; reflexivity. Qed.

Lemma filter_app_inv : forall A (f : A -> bool) l b s a, List.filter f l = b ++ s :: a ->
  exists b' a', l = b' ++ s :: a' /\ List.filter f b' = b /\ List.filter f a' = a.
Proof.
  induction l as [|x l IH]; intros b s a E; simpl in E; [destruct b; discriminate|].
  destruct (f x) eqn:F.
  - destruct b as [|y b]; injection E as -> E.
    + exists [], l. simpl. auto.
    + destruct (IH _ _ _ E) as (b' & a' & -> & <- & <-). exists (y :: b'), a'. simpl. rewrite F. auto.
  - destruct (IH _ _ _ E) as (b' & a' & -> & <- & <-). exists (x :: b'), a'. simpl. rewrite F. auto.
Qed.

Lemma declares_only_kind : forall d s, declares (only_kind (kind_of s) d) s <-> declares d s.
Proof.
  intros d s. unfold declares. simpl. split; intros (IK & b & a & E & N); (split; [exact IK|]).
  - apply filter_app_inv in E as (b' & a' & E & _ & Ea). exists b', a'. split; [exact E|]. intros s' I IK' SE.
    apply (N s'); auto. rewrite <- Ea. apply filter_In. split; [exact I|]. apply kind_eqb_eq. symmetry. now apply same_entry_kind.
  - exists (List.filter (fun x => kind_eqb (kind_of x) (kind_of s)) b), (List.filter (fun x => kind_eqb (kind_of x) (kind_of s)) a).
    rewrite E, filter_app. simpl. rewrite (proj2 (kind_eqb_eq _ _) eq_refl). split; [reflexivity|].
    intros s' I. apply filter_In in I as [I _]. auto.
Qed.

Lemma current_only_kind : forall h s, current (map (only_kind_event (kind_of s)) h) s <-> current h s.
Proof.
  intros h s. unfold current. split.
  - intros (u & d & L & D). rewrite latest_only_kind in L. destruct (latest h u) as [d0|] eqn:L0; [|discriminate]. injection L as <-.
    exists u, d0. split; [exact L0|]. now apply declares_only_kind.
  - intros (u & d & L & D). exists u, (only_kind (kind_of s) d). rewrite latest_only_kind, L. split; [reflexivity|]. now apply declares_only_kind.
Qed.

Lemma wanted_kind : forall q s, wanted q s -> kind_of s = query_kind q.
Proof. intros [] []; simpl; intros H; try contradiction; reflexivity. Qed.

Lemma go_len_filter : forall A (f : A -> bool) l, go_len l -> go_len (List.filter f l).
Proof. unfold go_len. intros A f l H. assert (G := filter_length_le A f l). lia. Qed.

Lemma event_ok_only_kind : forall k h, Forall event_ok h -> Forall event_ok (map (only_kind_event k) h).
Proof.
  intros k h H. apply Forall_forall. intros e I. apply in_map_iff in I as (e0 & <- & I). rewrite Forall_forall in H. specialize (H _ I).
  destruct e0; simpl in *; try exact H. destruct H as (A & B & C & D & E). repeat split; simpl; auto.
  - now apply go_len_filter.
  - rewrite Forall_forall in *. intros s Is. apply filter_In in Is as [Is _]. auto.
Qed.

Lemma synced_only_kind : forall k h, synced_docs (map (only_kind_event k) h) = map (only_kind k) (synced_docs h).
Proof. intros k h. induction h as [|e h IH]; [reflexivity|]. simpl. rewrite IH. destruct e; reflexivity. Qed.

Lemma covered_only_kind : forall k h q, covered h q -> covered (map (only_kind_event k) h) q.
Proof.
  intros k h q C.
  assert (P : plain_uris h -> plain_uris (map (only_kind_event k) h)).
  { intros H d I. rewrite synced_only_kind in I. apply in_map_iff in I as (d0 & <- & I). apply (H d0 I). }
  assert (S : no_shared_constants h -> no_shared_constants (map (only_kind_event k) h)).
  { intros H d1 d2 c1 c2 I1 I2 J1 J2. rewrite synced_only_kind in I1, I2. apply in_map_iff in I1 as (e1 & <- & I1). apply in_map_iff in I2 as (e2 & <- & I2).
    simpl in J1, J2. apply filter_In in J1 as [J1 _]. apply filter_In in J2 as [J2 _]. simpl. eapply H; eauto. }
  destruct q; simpl in *; auto. destruct C as [C1 C2]. split; [auto|].
  intros d c t I J. rewrite synced_only_kind in I. apply in_map_iff in I as (d0 & <- & I). simpl in J. apply filter_In in J as [J _]. eapply C2; eauto.
Qed.

Lemma exact_permutation : forall (h1 h2 : list event) q l1 l2, exact_answer h1 q l1 -> exact_answer h2 q l2 ->
  (forall s, wanted q s -> (current h1 s <-> current h2 s)) -> Permutation l1 l2.
Proof.
  intros h1 h2 q l1 l2 [N1 H1] [N2 H2] E. apply NoDup_Permutation; auto. intros x. rewrite H1, H2.
  split; intros (s & C & W & ->); exists s; (split; [apply (E s W); exact C|auto]).
Qed.

Theorem kinds_apart : text_ok T -> forall root h st st' q, Forall event_ok h -> run root h = Some st ->
  run root (map (only_kind_event (query_kind q)) h) = Some st' ->
  (forall n, In n (query_names q) -> ~ In NUL n) -> covered h q ->
  exists l l', ask st q = Some l /\ ask st' q = Some l' /\ Permutation l l'.
Proof.
  intros TOK root h st st' q OK R R' N C.
  destruct (ask_exact TOK root h st q OK R N C) as (l & A & E).
  destruct (ask_exact TOK root (map (only_kind_event (query_kind q)) h) st' q (event_ok_only_kind _ _ OK) R' N (covered_only_kind _ _ _ C)) as (l' & A' & E').
  exists l, l'. split; [exact A|]. split; [exact A'|]. eapply exact_permutation; eauto.
  intros s W. rewrite <- (wanted_kind _ _ W). symmetry. apply current_only_kind.
Qed.
End S.

(** ** Filters *)
Section F.
Context {T : Text} {X : XorFilter}.
Hypothesis XOK : xor_ok X.

Definition filter_inv (f : filter) : Prop := forall x, fl_head f = Some x -> xor8_ok x.

Lemma reload_eq : forall f, filter_inv f -> fl_committed f = true -> reload f = Filter true (fl_head f) [].
Proof.
  intros f I C. unfold reload. rewrite C.
  assert (S : settled (Filter true (fl_head f) [])) by (split; [reflexivity|split; [reflexivity|exact I]]).
  assert (E : Encode [] f = Encode NewEncoder (Filter true (fl_head f) [])).
  { unfold Encode. rewrite C. reflexivity. }
  rewrite E, (filter_codec _ S). reflexivity.
Qed.

Lemma commit_inv : forall f, filter_inv f -> filter_inv (Commit f).
Proof.
  intros f I x H. unfold Commit in H. destruct (dataWithoutDup f); [exact (I x H)|]. simpl in H.
  destruct (populate _) eqn:P; [|discriminate]. apply XOK in P. injection H as <-. apply P.
Qed.

Lemma filter_step_inv : forall f o, filter_inv f -> filter_inv (filter_step f o).
Proof.
  intros f [r| |] I; simpl.
  - exact I.
  - now apply commit_inv.
  - unfold reload. destruct (fl_committed f) eqn:C; [|exact I]. assert (E := reload_eq f I C). unfold reload in E. rewrite C in E. rewrite E. exact I.
Qed.

Lemma filter_run_inv : forall ops, filter_inv (filter_run ops).
Proof.
  unfold filter_run. intros ops. assert (G : forall f, filter_inv f -> filter_inv (fold_left filter_step ops f)).
  { induction ops as [|o ops IH]; intros f I; simpl; [exact I|]. apply IH. now apply filter_step_inv. }
  apply G. intros x H. discriminate.
Qed.

Lemma committed_found : forall ops l r, In r l ->
  let f := Commit (fold_left Insert l (filter_run ops)) in
  fl_committed f = true /\ filter_inv f /\ Lookup f r <> Some false /\ (populates X -> Lookup f r = Some true).
Proof.
  intros ops l r I f. assert (INV : filter_inv (fold_left Insert l (filter_run ops))).
  { rewrite insert_all. intros x H. apply (filter_run_inv ops x H). }
  assert (IN : In r (dataWithoutDup (fold_left Insert l (filter_run ops)))).
  { apply dataWithoutDup_in. rewrite insert_all. simpl. apply in_or_app. auto. }
  assert (CI := commit_inv _ INV). fold f in CI.
  assert (ND := dataWithoutDup_nodup (fold_left Insert l (filter_run ops))).
  unfold f, Commit in *. destruct (dataWithoutDup _) as [|k ks] eqn:E; [destruct IN|].
  split; [reflexivity|]. split; [exact CI|]. unfold Lookup. cbn [fl_committed fl_head].
  destruct (populate (map sum64 (k :: ks))) as [x|] eqn:P.
  - apply XOK in P as [_ P]. rewrite P by (apply in_map; exact IN). split; [discriminate|reflexivity].
  - split; [discriminate|]. intros PO. exfalso. apply (PO (k :: ks)); auto. discriminate.
Qed.

Theorem filter_found : forall ops l r n, In r l ->
  let f := Nat.iter n reload (Commit (fold_left Insert l (filter_run ops))) in
  Lookup f r <> Some false /\ (populates X -> Lookup f r = Some true).
Proof.
  intros ops l r n I. simpl. destruct (committed_found ops l r I) as (C & V & A & P).
  set (f0 := Commit _) in *. clearbody f0.
  assert (G : forall n, fl_committed (Nat.iter n reload f0) = true /\ fl_head (Nat.iter n reload f0) = fl_head f0).
  { induction n0 as [|m [C' H']]; [auto|]. simpl. rewrite reload_eq; [|intros x; rewrite H'; apply V|exact C']. simpl. auto. }
  destruct (G n) as [C' H']. unfold Lookup in *. rewrite C', H'. rewrite C in A, P. auto.
Qed.
End F.
