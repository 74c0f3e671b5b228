From Coq Require Import String.
From Coq Require Import List Bool NArith ZArith Lia Permutation.
From Coq.Strings Require Import Byte.
From Verif Require Import Base.Bytes Base.BytesProofs Base.Protocol Base.Decimal Base.DecimalProofs
  Codec.CodecModel Codec.CodecSpec Codec.CodecProofs Codec.SymbolCodecModel Codec.SymbolCodecSpec Codec.SymbolCodecProofs
  Symbols.Symbols Symbols.KeysModel Words.TokeniserModel Storage.KvModel Storage.KvSpec Storage.KvProofs
  Store.FilterModel Store.StoreModel Store.StoreSpec Store.StoreProofs.
Import ListNotations.
Open Scope list_scope.

(** ** Sorting and removing duplicates *)
Lemma insert_sorted_in : forall x l y, In y (insert_sorted x l) <-> y = x \/ In y l.
Proof.
  intros x. induction l as [|z l IH]; intros y; simpl; [intuition|].
  destruct (str_ltb z x); simpl; [rewrite IH|]; intuition.
Qed.
Lemma sort_in : forall l y, In y (sortByteArrays l) <-> In y l.
Proof.
  induction l as [|x l IH]; intros y; simpl; [tauto|]. rewrite insert_sorted_in, IH. intuition.
Qed.

Fixpoint sorted (l : list gostr) : Prop :=
  match l with
  | x :: ((y :: _) as l') => str_ltb y x = false /\ sorted l'
  | _ => True
  end.
Lemma insert_sorted_sorted : forall x l, sorted l -> sorted (insert_sorted x l).
Proof.
  intros x. induction l as [|z l IH]; intros H; simpl; [trivial|].
  destruct (str_ltb z x) eqn:E.
  - destruct l as [|w l].
    + simpl. split; [|trivial]. destruct (str_ltb x z) eqn:E2; [|reflexivity].
      assert (C := str_ltb_trans _ _ _ E E2). rewrite str_ltb_irrefl in C. discriminate.
    + destruct H as [H1 H2]. specialize (IH H2). simpl in *. destruct (str_ltb w x) eqn:E2.
      * simpl. auto.
      * split; [|assumption]. destruct (str_ltb x z) eqn:E3; [|reflexivity].
        assert (C := str_ltb_trans _ _ _ E E3). rewrite str_ltb_irrefl in C. discriminate.
  - destruct l; simpl; auto.
Qed.
Lemma sort_sorted : forall l, sorted (sortByteArrays l).
Proof. induction l; simpl; [trivial|]. now apply insert_sorted_sorted. Qed.

Lemma drop_dup_in : forall l x y, In y (x :: drop_dup_neighbours x l) <-> In y (x :: l).
Proof.
  induction l as [|z l IH]; intros x y; simpl; [tauto|].
  destruct (str_eqb x z) eqn:E.
  - apply str_eqb_eq in E. subst z. specialize (IH x y). simpl in IH. rewrite IH. tauto.
  - specialize (IH z y). simpl in *. rewrite IH. tauto.
Qed.
Lemma dataWithoutDup_in : forall f y, In y (dataWithoutDup f) <-> In y (fl_buffer f).
Proof.
  intros f y. unfold dataWithoutDup. rewrite <- (sort_in (fl_buffer f) y).
  destruct (sortByteArrays (fl_buffer f)); [tauto|]. apply drop_dup_in.
Qed.

Lemma str_ltb_trichotomy : forall a b, str_ltb a b = true \/ a = b \/ str_ltb b a = true.
Proof.
  intros a b. destruct (str_ltb a b) eqn:E; [auto|]. destruct (str_ltb b a) eqn:E2; [auto|].
  right. left. now apply str_ltb_total.
Qed.

Lemma sorted_lower : forall l x y, sorted (x :: l) -> In y l -> str_ltb y x = false.
Proof.
  induction l as [|z l IH]; intros x y H I; [destruct I|]. destruct H as [H1 H2].
  destruct I as [<-|I]; [assumption|]. specialize (IH z y H2 I).
  destruct (str_ltb y x) eqn:E; [|reflexivity].
  destruct (str_ltb_trichotomy x z) as [C|[C|C]].
  - rewrite (str_ltb_trans _ _ _ E C) in IH. discriminate.
  - subst z. congruence.
  - congruence.
Qed.

Lemma drop_dup_nodup : forall l x, sorted (x :: l) -> NoDup (x :: drop_dup_neighbours x l).
Proof.
  induction l as [|z l IH]; intros x H; simpl.
  - constructor; [intros []|constructor].
  - destruct (str_eqb x z) eqn:E.
    + apply str_eqb_eq in E. subst z. apply IH. apply H.
    + apply str_eqb_neq in E. assert (H' := H). destruct H as [H1 H2]. constructor; [|now apply IH].
      intros I. apply (proj1 (drop_dup_in l z x)) in I. destruct I as [->|I]; [congruence|].
      apply E. apply str_ltb_total; [|assumption].
      exact (sorted_lower l z x H2 I).
Qed.
Lemma dataWithoutDup_nodup : forall f, NoDup (dataWithoutDup f).
Proof.
  intros f. unfold dataWithoutDup. assert (S := sort_sorted (fl_buffer f)).
  destruct (sortByteArrays (fl_buffer f)); [constructor|]. now apply drop_dup_nodup.
Qed.

(** ** Filters *)
Section S.
Context {T : Text} {X : XorFilter}.
Hypothesis XOK : xor_ok X.

(** a filter as kept between operations *)
Definition settled (f : filter) : Prop :=
  fl_committed f = true /\ fl_buffer f = [] /\ (forall x, fl_head f = Some x -> xor8_ok x).

Lemma insert_all : forall l f, fold_left Insert l f = Filter (fl_committed f) (fl_head f) (fl_buffer f ++ l).
Proof.
  induction l as [|a l IH]; intros [c hd b]; simpl; [now rewrite app_nil_r|]. rewrite IH. simpl. now rewrite <- app_assoc.
Qed.

Lemma commit_settled : forall l f, settled f \/ f = NewFilter -> settled (Commit (fold_left Insert l f)).
Proof.
  intros l f H. rewrite insert_all. unfold Commit.
  assert (HB : fl_buffer f = []) by (destruct H as [H| ->]; [apply H|reflexivity]).
  assert (HH : forall x, fl_head f = Some x -> xor8_ok x).
  { destruct H as [H| ->]; [apply H|discriminate]. }
  destruct (dataWithoutDup _) as [|k ks] eqn:E; split; simpl; auto; split; auto.
  - rewrite HB. destruct l as [|a l]; [reflexivity|]. exfalso.
    assert (I : In a (dataWithoutDup (Filter (fl_committed f) (fl_head f) (fl_buffer f ++ a :: l)))).
    { apply dataWithoutDup_in. simpl. apply in_or_app. right. left. reflexivity. }
    rewrite E in I. exact I.
  - intros x P. destruct (populate _) as [x'|] eqn:P'; [|discriminate]. apply XOK in P'. injection P as <-. apply P'.
Qed.

Lemma commit_lookup : forall l f r, (settled f \/ f = NewFilter) -> populates X -> In r l ->
  Lookup (Commit (fold_left Insert l f)) r = Some true.
Proof.
  intros l f r H P I. rewrite insert_all.
  assert (HB : fl_buffer f = []) by (destruct H as [H| ->]; [apply H|reflexivity]).
  rewrite HB. simpl. unfold Commit.
  destruct (dataWithoutDup _) as [|k ks] eqn:E.
  - exfalso. assert (IN : In r (dataWithoutDup (Filter (fl_committed f) (fl_head f) l))) by now apply dataWithoutDup_in.
    rewrite E in IN. exact IN.
  - assert (ND := dataWithoutDup_nodup (Filter (fl_committed f) (fl_head f) l)). rewrite E in ND.
    assert (PP := P (k :: ks)). destruct (populate (map sum64 (k :: ks))) as [x|] eqn:Q.
    2:{ exfalso. apply PP; [discriminate|assumption|reflexivity]. }
    unfold Lookup. simpl. f_equal. apply XOK in Q as [_ Q]. apply Q. apply in_map. rewrite <- E. now apply dataWithoutDup_in.
Qed.

Lemma filter_codec : forall f, settled f -> FilterDecode (Encode NewEncoder f) = Some (f, []).
Proof.
  intros [c hd b] (H1 & H2 & H3). simpl in *. subst c b. unfold Encode. simpl.
  destruct hd as [[sd bl fp]|]; [|reflexivity]. destruct (H3 _ eq_refl) as (K1 & K2 & K3). simpl in *.
  assert (E : WriteBytes (WriteUInt32 (WriteUInt64 NewEncoder sd) bl) fp = le 8 sd ++ le 4 bl ++ bytes_enc fp ++ []).
  { rewrite WriteBytes_app, app_nil_r. unfold WriteUInt32, WriteUInt64, PutUInt64, PutUInt32, NewEncoder. simpl app at 1.
    now rewrite <- app_assoc. }
  rewrite E. unfold FilterDecode. destruct (le 8 sd ++ le 4 bl ++ bytes_enc fp ++ []) eqn:Q.
  - exfalso. assert (L : length (le 8 sd ++ le 4 bl ++ bytes_enc fp ++ []) = O) by now rewrite Q.
    rewrite app_length in L. assert (length (le 8 sd) = 8%nat) by reflexivity. lia.
  - rewrite <- Q. clear Q. assert (R : rt (le 8 sd ++ le 4 bl ++ bytes_enc fp ++ [])
      (seed <- ReadUInt64 ;; bl <- ReadUInt32 ;; fps <- ReadBytes ;; ret (Filter true (Some (Xor8 seed bl fps)) []))%dec
      (Filter true (Some (Xor8 sd bl fp)) [])).
    { eapply rt_bind; [apply rt_word_id; exact K1|]. eapply rt_bind; [apply rt_word_id; exact K2|].
      eapply rt_bind; [now apply rt_bytes|]. apply rt_ret. }
    specialize (R []). rewrite app_nil_r in R. exact R.
Qed.

Lemma kv_absent : forall m k, ~ In k (map fst m) -> kv_get m k = None.
Proof.
  intros m k H. apply kv_get_not_in. destruct (existsb _ _) eqn:E; [|reflexivity]. exfalso. apply existsb_exists in E as (x & I & E).
  apply str_eqb_eq in E. now subst.
Qed.

(** ** Association lists *)
Lemma assoc_get_set : forall A (m : list (gostr * A)) k a k',
  assoc_get (assoc_set m k a) k' = if str_eqb k k' then Some a else assoc_get m k'.
Proof.
  induction m as [|[k0 a0] m IH]; intros k a k'; simpl.
  - reflexivity.
  - destruct (str_eqb k0 k) eqn:E; simpl.
    + apply str_eqb_eq in E. subst k0. destruct (str_eqb k k'); reflexivity.
    + destruct (str_eqb k0 k') eqn:E2; [|apply IH]. apply str_eqb_eq in E2. subst k0.
      destruct (str_eqb k k') eqn:E3; [|reflexivity]. apply str_eqb_eq in E3. subst. rewrite str_eqb_refl in E. discriminate.
Qed.
Lemma assoc_set_in : forall A (m : list (gostr * A)) k a k' a',
  In (k', a') (assoc_set m k a) -> (k' = k /\ a' = a) \/ In (k', a') m.
Proof.
  induction m as [|[k0 a0] m IH]; intros k a k' a' H; simpl in H.
  - destruct H as [H|[]]. injection H as -> ->. auto.
  - destruct (str_eqb k0 k).
    + destruct H as [H|H]; [injection H as -> ->; auto|right; right; assumption].
    + destruct H as [H|H]; [right; left; assumption|]. destruct (IH _ _ _ _ H); [auto|right; right; assumption].
Qed.
Lemma assoc_set_keys : forall A (m : list (gostr * A)) k a x, In x (map fst (assoc_set m k a)) <-> x = k \/ In x (map fst m).
Proof.
  induction m as [|[k0 a0] m IH]; intros k a x; simpl; [intuition|].
  destruct (str_eqb k0 k) eqn:E; simpl; [apply str_eqb_eq in E; subst; intuition|]. rewrite IH. intuition.
Qed.
Lemma assoc_set_nodup : forall A (m : list (gostr * A)) k a, NoDup (map fst m) -> NoDup (map fst (assoc_set m k a)).
Proof.
  induction m as [|[k0 a0] m IH]; intros k a H; simpl; [repeat constructor; intros []|].
  simpl in H. inversion H; subst. destruct (str_eqb k0 k) eqn:E; simpl.
  - apply str_eqb_eq in E. subst. now constructor.
  - apply str_eqb_neq in E. constructor; [|auto]. rewrite assoc_set_keys. intros [C|C]; auto.
Qed.
Lemma assoc_get_in : forall A (m : list (gostr * A)) k a, assoc_get m k = Some a -> In (k, a) m.
Proof.
  induction m as [|[k0 a0] m IH]; intros k a H; simpl in *; [discriminate|].
  destruct (str_eqb k0 k) eqn:E; [apply str_eqb_eq in E; injection H as ->; subst; auto|auto].
Qed.
Lemma assoc_in_get : forall A (m : list (gostr * A)) k a, NoDup (map fst m) -> In (k, a) m -> assoc_get m k = Some a.
Proof.
  induction m as [|[k0 a0] m IH]; intros k a ND H; simpl in *; [destruct H|]. inversion ND; subst.
  destruct H as [H|H]; [injection H as -> ->; now rewrite str_eqb_refl|].
  destruct (str_eqb k0 k) eqn:E; [|auto]. apply str_eqb_eq in E. subst. exfalso. apply H2. apply (in_map fst) in H. exact H.
Qed.

(** ** Keys of the reference index *)
Lemma ref_key_inj : forall c c', ref_key c = ref_key c' -> c = c'.
Proof. intros c c' H. apply in_newEntry in H; [apply H|nul_free|nul_free]. Qed.
Lemma ref_filter_key_inj : forall c c', ref_filter_key c = ref_filter_key c' -> c = c'.
Proof.
  intros c c' H. apply in_newEntry in H; [|nul_free|nul_free]. destruct H as [_ H]. now do 2 apply app_inv_head in H.
Qed.
Lemma ref_keys_differ : forall c c', ~ In NUL c -> ref_key c <> ref_filter_key c'.
Proof.
  intros c c' N H. apply in_newEntry in H; [|nul_free|nul_free]. destruct H as [_ ->]. apply N.
  apply in_or_app. right. left. reflexivity.
Qed.
Lemma filter_prefix : forall c, has_prefix (newEntry referenceIndexCollection (filterCollection ++ KeySep)) (ref_filter_key c) = true.
Proof. intros c. apply has_prefix_spec. exists c. unfold ref_filter_key, newEntry. rewrite <- !app_assoc. reflexivity. Qed.
Lemma filter_prefix_key : forall c, ~ In NUL c -> has_prefix (newEntry referenceIndexCollection (filterCollection ++ KeySep)) (ref_key c) = false.
Proof.
  intros c N. destruct (has_prefix _ _) eqn:E; [|reflexivity]. exfalso. apply has_prefix_spec in E as [t E].
  apply (ref_keys_differ c t N). rewrite E. unfold ref_filter_key, newEntry. rewrite <- !app_assoc. reflexivity.
Qed.
Lemma filter_key_split : forall c, ~ In NUL c -> nth_error (split_byte (ref_filter_key c) NUL) 2 = Some c.
Proof.
  intros c N. unfold ref_filter_key, newEntry, KeySep. cbn [app].
  rewrite split_byte_app by nul_free. rewrite split_byte_app by nul_free. rewrite split_byte_none by assumption. reflexivity.
Qed.
Lemma canonical_nul : forall r u, ~ In NUL u -> ~ In NUL (CanonicaliseURI r u).
Proof.
  intros r u H I. apply H. unfold CanonicaliseURI, trim_prefix in I. destruct (has_prefix r u) eqn:E; [|assumption].
  rewrite <- (firstn_skipn (length r) u). apply in_or_app. auto.
Qed.

(** ** What the reference part of the database looks like *)
Record refs_shape (st : store) : Prop := {
  rs_nodup : NoDup (map fst (s_refs st));
  rs_entries : forall c f, In (c, f) (s_refs st) -> ~ In NUL c /\ settled f;
  rs_db : forall k v, ldb_Get (s_db st) k = Some v -> in_coll referenceIndexCollection k ->
     exists c, ~ In NUL c /\ (k = ref_key c \/ (k = ref_filter_key c /\ exists f, settled f /\ v = Encode NewEncoder f)) }.

(** the effect of a sync or delete on this part *)
Lemma ref_get_sync : forall root h st d st', Forall event_ok h -> run root h = Some st -> SyncDocument st d = Some st' ->
  forall k, in_coll referenceIndexCollection k ->
  ldb_Get (s_db st') k = kv_get (apply_bops (apply_bops (ldb (s_db st)) (ref_deleteURI st (d_uri d)))
                                 (fst (ref_index st (d_uri d) (d_refs d)))) k.
Proof.
  intros root h st d st' OK RUN SY k IC. assert (GI := greb_invariant _ _ _ OK RUN).
  apply sync_inv in SY. destruct SY as [old ns sc OLD _ _ _ _ _ _ _ DB]. unfold ldb_Get. rewrite DB.
  unfold greb_keys in GI. rewrite GI in OLD. injection OLD as <-.
  assert (NS : forall s, symbol_key s <> k) by (intros s E; exact (refInd_not_symbol s k IC E)).
  assert (ND : forall u, newEntry documentCollection u <> k).
  { intros u E. apply (in_coll_other documentCollection referenceIndexCollection k); [nul_free|nul_free|discriminate|exists u; now rewrite <- E|assumption]. }
  rewrite !apply_bops_app. change (apply_bops ?m [BPut ?k0 ?v0]) with (kv_put m k0 v0).
  rewrite kv_get_put_other by apply ND.
  rewrite get_dels_out.
  2:{ intros C. apply set_remove_all_in in C as [C _]. destruct (last_synced h (d_uri d)) as [d0|]; [|destruct C].
      apply in_map_iff in C as (s & E & _). now apply (NS s). }
  rewrite <- !apply_bops_app. set (A := ref_deleteURI st (d_uri d)). set (C := fst (ref_index st (d_uri d) (d_refs d))).
  rewrite !apply_bops_app.
  assert (P : forall m, kv_get (apply_bops m (map (fun s => BPut (symbol_key s) (Serialise s)) (List.filter has_key (d_symbols d)))) k = kv_get m k).
  { intros m. apply get_unaffected. intros o I. apply in_map_iff in I as (s & <- & _). apply NS. }
  assert (Q : forall ops m m', kv_get m k = kv_get m' k -> kv_get (apply_bops m ops) k = kv_get (apply_bops m' ops) k).
  { induction ops as [|o ops IH]; intros m m' E; [exact E|]. simpl. apply IH. destruct o; simpl; [rewrite !kv_get_put|rewrite !kv_get_del]; now rewrite E. }
  apply Q. apply P.
Qed.

Lemma ref_get_delete : forall root h st u st', Forall event_ok h -> run root h = Some st -> DeleteDocument st u = Some st' ->
  forall k, in_coll referenceIndexCollection k ->
  ldb_Get (s_db st') k = kv_get (apply_bops (ldb (s_db st)) (ref_deleteURI st u)) k.
Proof.
  intros root h st u st' OK RUN DE k IC. assert (GI := greb_invariant _ _ _ OK RUN). assert (CI := ciDeletor_empty _ _ _ u RUN).
  apply delete_inv in DE as (ixs & ks & syms & C1 & C2 & _ & _ & _ & _ & _ & DB).
  rewrite CI in C1. injection C1 as <- <-. unfold greb_keys in GI. rewrite GI in C2. injection C2 as <-.
  unfold ldb_Get. rewrite DB. simpl app. rewrite !apply_bops_app. change (apply_bops ?m [BDel ?k0]) with (kv_del m k0).
  rewrite kv_get_del_other.
  2:{ intros E. apply (in_coll_other documentCollection referenceIndexCollection k); [nul_free|nul_free|discriminate|exists u; now rewrite <- E|assumption]. }
  assert (Q : forall ops m m', kv_get m k = kv_get m' k -> kv_get (apply_bops m ops) k = kv_get (apply_bops m' ops) k).
  { induction ops as [|o ops IH]; intros m m' E; [exact E|]. simpl. apply IH. destruct o; simpl; [rewrite !kv_get_put|rewrite !kv_get_del]; now rewrite E. }
  apply Q. apply get_dels_out. intros C. destruct (last_synced h u) as [d0|]; [|destruct C].
  apply in_map_iff in C as (s & E & _). exact (refInd_not_symbol s k IC E).
Qed.

Lemma newReferenceIndex_spec : forall db, ascending (ldb db) ->
  (forall k v, ldb_Get db k = Some v -> in_coll referenceIndexCollection k ->
     exists c, ~ In NUL c /\ (k = ref_key c \/ (k = ref_filter_key c /\ exists f, settled f /\ v = Encode NewEncoder f))) ->
  exists m, newReferenceIndex db = Some m /\ NoDup (map fst m)
    /\ (forall c f, In (c, f) m -> ~ In NUL c /\ settled f)
    /\ (forall c f, settled f -> (ldb_Get db (ref_filter_key c) = Some (Encode NewEncoder f) <-> assoc_get m c = Some f))
    /\ (forall c, ldb_Get db (ref_filter_key c) = None <-> assoc_get m c = None).
Proof.
  intros db ASC SH. unfold newReferenceIndex. rewrite ldb_PrefixStream_eq.
  set (p := newEntry referenceIndexCollection (filterCollection ++ KeySep)).
  set (es := List.filter (fun e => has_prefix p (fst e)) (ldb db)).
  assert (ES : forall k v, In (k, v) es <-> ldb_Get db k = Some v /\ has_prefix p k = true).
  { intros k v. unfold es. rewrite filter_In. simpl. unfold ldb_Get. rewrite (kv_get_in _ _ _ ASC). tauto. }
  assert (SHE : forall k v, In (k, v) es -> exists c f, ~ In NUL c /\ k = ref_filter_key c /\ settled f /\ v = Encode NewEncoder f).
  { intros k v I. apply ES in I as [G P]. destruct (SH k v G) as (c & N & [->|(-> & f & S & ->)]).
    - apply has_prefix_spec in P as [t ->]. exists ((filterCollection ++ KeySep) ++ t). unfold p, newEntry. rewrite <- !app_assoc. reflexivity.
    - unfold p in P. rewrite filter_prefix_key in P by assumption. discriminate.
    - exists c, f. auto. }
  assert (NDE : NoDup (map fst es)).
  { unfold es. assert (ND : NoDup (map fst (ldb db))).
    { clear - ASC. induction (ldb db) as [|a l IH]; simpl; constructor.
      - intros I. apply in_map_iff in I as (e & E & I). apply (ascending_lt _ _ ASC) in I. rewrite E, str_ltb_irrefl in I. discriminate.
      - apply IH. now apply ascending_inv in ASC. }
    clearbody p. clear - ND. induction (ldb db) as [|e l IH]; simpl in *; [constructor|]. inversion ND; subst.
    destruct (has_prefix p (fst e)); [|auto]. simpl. constructor; [|auto].
    intros I. apply H1. apply in_map_iff in I as (e' & E & I). apply filter_In in I as [I _]. rewrite <- E. now apply in_map. }
  set (step := fun acc k v => match acc with
       | None => (None, true)
       | Some m => match nth_error (split_byte k NUL) 2, FilterDecode v with
           | Some c, Some (f, _) => (Some (assoc_set m c f), false)
           | _, _ => (None, true) end end).
  assert (G : forall es' m0, (forall k v, In (k, v) es' -> exists c f, ~ In NUL c /\ k = ref_filter_key c /\ settled f /\ v = Encode NewEncoder f) ->
     NoDup (map fst es') -> NoDup (map fst m0) -> (forall c f, In (c, f) m0 -> ~ In NUL c /\ settled f) ->
     exists m, stream step es' (Some m0) = Some m /\ NoDup (map fst m) /\ (forall c f, In (c, f) m -> ~ In NUL c /\ settled f)
       /\ forall c, assoc_get m c = match kv_get es' (ref_filter_key c) with Some v => option_map fst (FilterDecode v) | None => assoc_get m0 c end).
  { induction es' as [|[k v] es' IH]; intros m0 SHP ND0 NDm SM.
    - exists m0. simpl. auto.
    - destruct (SHP k v (or_introl eq_refl)) as (c & f & N & -> & S & ->).
      assert (STP : step (Some m0) (ref_filter_key c) (Encode NewEncoder f) = (Some (assoc_set m0 c f), false)).
      { unfold step. rewrite filter_key_split, filter_codec by assumption. reflexivity. }
      cbn [stream]. rewrite STP. cbn [kv_get]. simpl map in ND0. inversion ND0; subst.
      destruct (IH (assoc_set m0 c f)) as (m & E1 & E2 & E3 & E4).
      + intros k v I. apply SHP. right. exact I.
      + assumption.
      + now apply assoc_set_nodup.
      + intros c' f' I. apply assoc_set_in in I as [[-> ->]|I]; auto.
      + exists m. split; [exact E1|]. split; [exact E2|]. split; [exact E3|]. intros c'. rewrite E4, assoc_get_set.
        destruct (str_eqb c c') eqn:Ec.
        * apply str_eqb_eq in Ec. subst c'. rewrite str_eqb_refl. rewrite filter_codec by assumption.
          rewrite kv_absent by assumption. reflexivity.
        * apply str_eqb_neq in Ec. destruct (str_eqb (ref_filter_key c) (ref_filter_key c')) eqn:E5; [|reflexivity].
          apply str_eqb_eq in E5. apply ref_filter_key_inj in E5. contradiction. }
  destruct (G es [] SHE NDE) as (m & E1 & E2 & E3 & E4); [constructor|intros ? ? []|].
  exists m. split; [exact E1|]. split; [exact E2|]. split; [exact E3|].
  assert (EG : forall c, kv_get es (ref_filter_key c) = ldb_Get db (ref_filter_key c)).
  { intros c. destruct (ldb_Get db (ref_filter_key c)) as [v|] eqn:E.
    - assert (I : In (ref_filter_key c, v) es) by (apply ES; split; [assumption|apply filter_prefix]).
      clear - I NDE. induction es as [|[k w] l IH]; simpl in *; [destruct I|]. inversion NDE; subst.
      destruct I as [I|I]; [injection I as -> ->; now rewrite str_eqb_refl|].
      destruct (str_eqb k (ref_filter_key c)) eqn:E; [|auto]. apply str_eqb_eq in E. subst. exfalso. apply H1. apply (in_map fst) in I. exact I.
    - apply kv_absent. intros I. apply in_map_iff in I as ([k v] & Ek & I). simpl in Ek. subst k. apply ES in I as [I _]. congruence. }
  split.
  - intros c f S. rewrite E4, EG. simpl. split.
    + intros ->. rewrite filter_codec by assumption. reflexivity.
    + destruct (ldb_Get db (ref_filter_key c)) as [v|] eqn:E; [|discriminate]. intros D.
      assert (I : In (ref_filter_key c, v) es) by (apply ES; split; [assumption|apply filter_prefix]).
      apply SHE in I as (c' & f' & _ & E5 & S' & ->). rewrite filter_codec in D by assumption. simpl in D. injection D as ->. reflexivity.
  - intros c. rewrite E4, EG. simpl. split; [intros ->; reflexivity|].
    destruct (ldb_Get db (ref_filter_key c)) as [v|] eqn:E; [|reflexivity]. intros D.
    assert (I : In (ref_filter_key c, v) es) by (apply ES; split; [assumption|apply filter_prefix]).
    apply SHE in I as (c' & f' & _ & E5 & S' & ->). rewrite filter_codec in D by assumption. discriminate.
Qed.

Lemma refs_shape_run : forall root h st, Forall event_ok h -> run root h = Some st -> refs_shape st.
Proof.
  intros root h. induction h as [|e h IH] using rev_ind; intros st OK R.
  - injection R as <-. split; [constructor|intros ? ? []|discriminate].
  - apply Forall_app in OK as [OK OKe]. inversion_clear OKe as [|? ? OE _].
    apply run_init_some in R as (st0 & R & St). specialize (IH st0 OK R). destruct IH as [I1 I2 I3].
    destruct e as [d|u'| |v'| |m]; simpl in St.
    + assert (RG := ref_get_sync _ _ _ _ _ OK R St). apply sync_inv in St. assert (RE := sp_refs _ _ _ St).
      assert (NU : ~ In NUL (d_uri d)) by apply OE. assert (NC := canonical_nul (s_uri st0) _ NU).
      unfold ref_index in *. destruct (haveReferences (d_uri d)) eqn:HR; simpl in RE.
      * set (c := CanonicaliseURI (s_uri st0) (d_uri d)) in *.
        set (f0 := match assoc_get (s_refs st0) c with Some f => f | None => NewFilter end) in *.
        set (f1 := Commit (fold_left Insert (map ei_ref (d_refs d)) f0)) in *.
        assert (S1 : settled f1).
        { apply commit_settled. unfold f0. destruct (assoc_get (s_refs st0) c) eqn:E; [|auto]. left. apply assoc_get_in in E. now apply I2 in E. }
        split; rewrite ?RE.
        -- now apply assoc_set_nodup.
        -- intros c' f' I. apply assoc_set_in in I as [[-> ->]|I]; auto.
        -- intros k v G IC. rewrite RG in G by assumption. simpl in G. rewrite !kv_get_put in G.
           destruct (str_eqb (ref_filter_key c) k) eqn:E1.
           { apply str_eqb_eq in E1. injection G as <-. exists c. split; [assumption|]. right. split; [auto|]. exists f1. auto. }
           destruct (str_eqb (ref_key c) k) eqn:E2.
           { apply str_eqb_eq in E2. exists c. auto. }
           apply (I3 k v); [|assumption]. unfold ldb_Get. unfold ref_deleteURI in G. rewrite HR in G.
           fold c in G. destruct (assoc_get (s_refs st0) c); [|exact G]. simpl in G. rewrite !kv_get_del, E1, E2 in G. exact G.
      * split; rewrite ?RE; auto.
        intros k v G IC. rewrite RG in G by assumption. simpl in G. unfold ref_deleteURI in G. rewrite HR in G. apply (I3 k v G IC).
    + assert (RG := ref_get_delete _ _ _ _ _ OK R St).
      apply delete_inv in St as (? & ? & ? & _ & _ & _ & _ & _ & RE & _ & _).
      split; rewrite ?RE; auto. intros k v G IC. rewrite RG in G by assumption. apply (I3 k v); [|assumption].
      unfold ref_deleteURI in G. destruct (haveReferences u'); [|exact G]. destruct (assoc_get _ _); [|exact G].
      simpl in G. rewrite !kv_get_del in G. destruct (str_eqb _ k); [discriminate|]. destruct (str_eqb _ k); [discriminate|]. exact G.
    + injection St as <-. split; simpl; auto. intros k v G. change (ldb_Get (ldb_Clear (s_db st0)) k = Some v) in G.
      rewrite ldb_Clear_get in G. discriminate.
    + injection St as <-. split; simpl; auto. intros k v G IC. apply (I3 k v); [|assumption].
      unfold ldb_Get in *. simpl in G. rewrite kv_get_put_other in G; [exact G|]. intros E. destruct IC as [r ->].
      assert (N : ~ In NUL versionKey) by nul_free. apply N. rewrite E. apply in_or_app. right. left. reflexivity.
    + unfold NewStore in St. destruct (newReferenceIndex_spec (s_db st0)) as (m & E & J1 & J2 & _).
      * now apply (db_ascending root h).
      * exact I3.
      * rewrite E in St. injection St as <-. split; simpl; auto.
    + injection St as <-. split; auto.
Qed.

End S.
