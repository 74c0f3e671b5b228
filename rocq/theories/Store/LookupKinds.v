From Coq Require Import String.
From Coq Require Import List Bool NArith ZArith Lia Permutation.
From Coq.Strings Require Import Byte.
From Verif Require Import Base.Bytes Base.BytesProofs Base.Protocol Base.Decimal Base.DecimalProofs
  Codec.CodecModel Codec.CodecSpec Codec.CodecProofs Codec.SymbolCodecModel Codec.SymbolCodecSpec Codec.SymbolCodecProofs
  Symbols.Symbols Symbols.KeysModel Words.TokeniserModel Storage.KvModel Storage.KvSpec Storage.KvProofs
  Store.FilterModel Store.StoreModel Store.StoreSpec Store.StoreProofs Store.LookupProofs.
Import ListNotations.
Open Scope list_scope.

(** what the index keeps of each symbol *)
Definition keep (s : symbol) : symbol :=
  match s with
  | SInterface s => SInterface (Interface (i_location s) zero_loc (i_description s) (i_deprecated s) (i_name s) (i_extends s))
  | SFunction s => SFunction (Function (f_location s) zero_loc (f_name s) (map forget_param (f_params s)) (f_return s)
          (f_description s) (f_deprecated s))
  | SMethod s => SMethod (Method (m_location s) zero_loc (m_name s) (map forget_param (m_params s)) (m_return s)
          (m_description s) (m_scope s) (m_visibility s) (m_static s) (m_classmodifier s) (m_deprecated s))
  | SClassConst s => SClassConst (ClassConst zero_loc (cc_location s) (cc_description s) (cc_name s) (cc_value s) (cc_scope s)
          Public (cc_deprecated s))
  | SProperty s => SProperty (Property (pr_location s) zero_loc (pr_description s) (pr_deprecated s) (pr_name s)
          (pr_scope s) (pr_visibility s) (pr_static s) (pr_types s))
  | s => s
  end.

Lemma keep_shown : forall s, shown s (keep s).
Proof.
  destruct s; simpl; try reflexivity; repeat split; try reflexivity; apply forget_params_same.
Qed.

Section S.
Context {T : Text} {X : XorFilter}.
Hypothesis TOK : text_ok T.

Lemma keep_key : forall s, symbol_key (keep s) = symbol_key s.
Proof. destruct s; reflexivity. Qed.

Lemma prefix_sep : forall C q q' r, ~ In NUL q -> ~ In NUL q' ->
  (has_prefix (newEntry C (q ++ KeySep)) (newEntry C (q' ++ KeySep ++ r)) = true <-> q' = q).
Proof.
  intros C q q' r N N'. rewrite has_prefix_spec. unfold newEntry. split.
  - intros [t E]. rewrite <- !app_assoc in E. do 2 apply app_inv_head in E.
    apply nul_sep in E; auto. now destruct E.
  - intros ->. exists r. rewrite <- !app_assoc. reflexivity.
Qed.

Lemma prefix_sep2 : forall C c n c' n' r, ~ In NUL c -> ~ In NUL c' -> ~ In NUL n -> ~ In NUL n' ->
  (has_prefix (newEntry C (c ++ KeySep ++ n ++ KeySep)) (newEntry C (c' ++ KeySep ++ n' ++ KeySep ++ r)) = true <-> c' = c /\ n' = n).
Proof.
  intros C c n c' n' r N1 N2 N3 N4. rewrite has_prefix_spec. unfold newEntry. split.
  - intros [t E]. rewrite <- !app_assoc in E. do 2 apply app_inv_head in E.
    apply nul_sep in E; auto. destruct E as [<- E]. apply nul_sep in E; auto. destruct E as [<- _]. auto.
  - intros [-> ->]. exists r. rewrite <- !app_assoc. reflexivity.
Qed.

Lemma prefix_name : forall C c n c' n', ~ In NUL c -> ~ In NUL c' ->
  (has_prefix (newEntry C (c ++ KeySep ++ n)) (newEntry C (c' ++ KeySep ++ n')) = true <-> c' = c /\ exists t, n' = n ++ t).
Proof.
  intros C c n c' n' N1 N2. rewrite has_prefix_spec. unfold newEntry. split.
  - intros [t E]. rewrite <- !app_assoc in E. do 2 apply app_inv_head in E.
    apply nul_sep in E; auto. destruct E as [<- ->]. eauto.
  - intros [-> [t ->]]. exists t. rewrite <- !app_assoc. reflexivity.
Qed.

Definition answers (cur : symbol -> Prop) (q : query) (l : list symbol) : Prop :=
  NoDup l /\ forall x, In x l <-> exists s, cur s /\ wanted q s /\ x = keep s.

Lemma current_names : forall h s, Forall event_ok h -> current h s -> indexed_kind s /\ forall n, In n (symbol_names s) -> ~ In NUL n.
Proof.
  intros h s OK (u & d & L & D). apply latest_in in L as [L1 L2].
  assert (DOK := synced_docs_ok _ _ OK L1). apply declares_iff in D; auto. destruct D as (IK & I & _).
  destruct DOK as (_ & _ & F & _). rewrite Forall_forall in F. split; [assumption|]. apply (F s I).
Qed.

Lemma kind_scan : forall A (inj : A -> symbol) (read : dec A) keepA C db cur q qk,
  (forall a, keep (inj a) = inj (keepA a)) ->
  (forall a u, symbol_of_file u (inj a) -> read (Serialise (inj a)) = Some (keepA a, [])) ->
  (forall s, GetCollection s = C <-> exists a, s = inj a) ->
  (forall a b, inj a = inj b -> a = b) ->
  ascending (ldb db) -> holds db C cur ->
  (forall a, cur (inj a) -> (has_prefix (newEntry C qk) (symbol_key (inj a)) = true <-> wanted q (inj a))) ->
  (forall s, wanted q s -> exists a, s = inj a) ->
  exists l, option_map (map inj) (get_all read db (newEntry C qk)) = Some l /\ answers cur q l.
Proof.
  intros A inj read keepA C db cur q qk HK READ COLL INJ ASC HOLDS PRE WK.
  destruct (scan_exact A inj read keepA READ) with (C := C) (db := db) (cur := cur) (q := qk) as (l & G & ND & S1 & S2); auto.
  { intros a _. rewrite <- HK. apply keep_key. }
  exists (map inj l). rewrite G. split; [reflexivity|]. split.
  - clear - ND INJ. induction ND; simpl; constructor; [|assumption]. intros I. apply in_map_iff in I as (b & E & I). apply INJ in E. now subst.
  - intros x. split.
    + intros I. apply in_map_iff in I as (y & <- & I). destruct (S1 y I) as (a & Cu & P & -> & _).
      exists (inj a). rewrite HK. apply PRE in P; auto.
    + intros (s & Cu & W & ->). destruct (WK s W) as (a & ->). rewrite HK. apply in_map. apply S2; [assumption|]. apply PRE; auto.
Qed.

Ltac coll_iff := solve [intros s0; split; [destruct s0; simpl; try discriminate; eauto|intros [a0 ->]; reflexivity]].
Ltac wk := solve [intros s0 W; destruct s0; simpl in W; try contradiction; eauto].

Lemma own_plain : forall h C, Forall event_ok h ->
  C <> propertyCollection -> C <> classConstCollection ->
  forall d1 d2 s1 s2, In d1 (synced_docs h) -> In d2 (synced_docs h) ->
    In s1 (d_symbols d1) -> In s2 (d_symbols d2) -> GetCollection s1 = C -> indexed_kind s1 -> indexed_kind s2 ->
    symbol_key s1 = symbol_key s2 -> d_uri d1 = d_uri d2.
Proof.
  intros h C OK N1 N2 d1 d2 s1 s2 I1 I2 J1 J2 EC K1 K2 E.
  apply (synced_docs_ok _ _ OK) in I1 as (_ & _ & F1 & _). apply (synced_docs_ok _ _ OK) in I2 as (_ & _ & F2 & _).
  rewrite Forall_forall in F1, F2.
  destruct (key_same_entry TOK _ _ _ _ (F1 _ J1) (F2 _ J2) K1 K2 E) as [_ U];
    destruct s1; simpl in EC; subst C; try exact I; try exact U; contradiction.
Qed.

Lemma own_property : forall h, Forall event_ok h -> plain_uris h ->
  forall d1 d2 s1 s2, In d1 (synced_docs h) -> In d2 (synced_docs h) ->
    In s1 (d_symbols d1) -> In s2 (d_symbols d2) -> GetCollection s1 = propertyCollection -> indexed_kind s1 -> indexed_kind s2 ->
    symbol_key s1 = symbol_key s2 -> d_uri d1 = d_uri d2.
Proof.
  intros h OK PU d1 d2 s1 s2 I1 I2 J1 J2 EC K1 K2 E.
  destruct (PU d1 I1), (PU d2 I2).
  apply (synced_docs_ok _ _ OK) in I1 as (_ & _ & F1 & _). apply (synced_docs_ok _ _ OK) in I2 as (_ & _ & F2 & _).
  rewrite Forall_forall in F1, F2.
  destruct (key_same_entry TOK _ _ _ _ (F1 _ J1) (F2 _ J2) K1 K2 E) as [_ U];
    destruct s1; simpl in EC; try discriminate; auto.
Qed.

Lemma own_const : forall h, Forall event_ok h -> no_shared_constants h ->
  forall d1 d2 s1 s2, In d1 (synced_docs h) -> In d2 (synced_docs h) ->
    In s1 (d_symbols d1) -> In s2 (d_symbols d2) -> GetCollection s1 = classConstCollection -> indexed_kind s1 -> indexed_kind s2 ->
    symbol_key s1 = symbol_key s2 -> d_uri d1 = d_uri d2.
Proof.
  intros h OK PU d1 d2 s1 s2 I1 I2 J1 J2 EC K1 K2 E. assert (I1' := I1). assert (I2' := I2).
  apply (synced_docs_ok _ _ OK) in I1 as (_ & _ & F1 & _). apply (synced_docs_ok _ _ OK) in I2 as (_ & _ & F2 & _).
  rewrite Forall_forall in F1, F2.
  destruct (key_same_entry TOK _ _ _ _ (F1 _ J1) (F2 _ J2) K1 K2 E) as [U _];
    destruct s1 as [s1|s1|s1|s1|s1|s1|s1|s1|s1|s1]; simpl in EC; try discriminate; auto.
  destruct s2 as [s2|s2|s2|s2|s2|s2|s2|s2|s2|s2]; simpl in U; try contradiction. destruct U. eapply PU; eauto.
Qed.

Definition query_collection (q : query) : gostr :=
  match q with
  | QClass _ => classCollection | QInterface _ => interfaceCollection | QTrait _ => traitCollection
  | QFunction _ => functionCollection | QConst _ => constCollection | QDefine _ => defineCollection
  | QGlobalVariable _ => globalVariableCollection | QMethod _ _ | QAllMethods _ => methodCollection
  | QProperty _ _ | QAllProperties _ => propertyCollection | QClassConst _ _ | QAllClassConsts _ => classConstCollection
  end.

(** what a look-up returns, from what the database holds of its collection *)
Theorem ask_general : forall st cur q,
  ascending (ldb (s_db st)) -> holds (s_db st) (query_collection q) cur ->
  (forall n, In n (query_names q) -> ~ In NUL n) ->
  (match q with
   | QClassConst c n => forall a t, cur (SClassConst a) -> ts_fqn (cc_scope a) = c -> cc_name a = n ++ t -> t = []
   | _ => True end) ->
  exists l, ask st q = Some l /\ answers cur q l.
Proof.
  intros st cur q ASC HOLDS QN NL.
  assert (LN : forall a, ~ In NUL a -> ~ In NUL (to_lower a)) by (intros a; apply TOK; auto).
  assert (CN : forall s n, cur s -> GetCollection s = query_collection q -> In n (symbol_names s) -> ~ In NUL n).
  { intros s n Cu EC. destruct HOLDS as [_ H]. destruct (H s Cu EC) as (_ & _ & u & _ & _ & N & _). auto. }
  destruct q as [n|n|n|n|n|n|n|c n|c|c n|c|c n|c]; unfold ask; simpl in QN.
  - unfold Query_GetClasses, GetClasses. apply (kind_scan _ SClass ReadClass (fun a => a) classCollection); auto; try (nul_free || discriminate || coll_iff || wk).
    + intros a u (H & _). rewrite <- (app_nil_r (Serialise _)). now apply class_roundtrip.
    + congruence.
    + intros a Cu. unfold symbol_key. cbn [GetKey GetCollection wanted]. rewrite prefix_sep; [apply same_class_name_iff; assumption|..]; apply fold_name_nul; auto.
      apply (CN _ _ Cu eq_refl). left. reflexivity.
  - apply (kind_scan _ SInterface ReadInterface (fun s => Interface (i_location s) zero_loc (i_description s) (i_deprecated s) (i_name s) (i_extends s)) interfaceCollection); auto; try (nul_free || discriminate || coll_iff || wk).
    + intros a u (H & _). rewrite <- (app_nil_r (Serialise _)). now apply interface_roundtrip.
    + congruence.
    + intros a Cu. unfold symbol_key. cbn [GetKey GetCollection wanted]. rewrite prefix_sep; [reflexivity|auto|]. apply (CN _ _ Cu eq_refl). left. reflexivity.
  - apply (kind_scan _ STrait ReadTrait (fun a => a) traitCollection); auto; try (nul_free || discriminate || coll_iff || wk).
    + intros a u (H & _). rewrite <- (app_nil_r (Serialise _)). now apply trait_roundtrip.
    + congruence.
    + intros a Cu. unfold symbol_key. cbn [GetKey GetCollection wanted]. rewrite prefix_sep; [reflexivity|auto|]. apply (CN _ _ Cu eq_refl). left. reflexivity.
  - apply (kind_scan _ SFunction ReadFunction (fun s => Function (f_location s) zero_loc (f_name s) (map forget_param (f_params s)) (f_return s)
          (f_description s) (f_deprecated s)) functionCollection); auto; try (nul_free || discriminate || coll_iff || wk).
    + intros a u (H & _). rewrite <- (app_nil_r (Serialise _)). now apply function_roundtrip.
    + congruence.
    + intros a Cu. unfold symbol_key. cbn [GetKey GetCollection wanted]. rewrite prefix_sep; [reflexivity|auto|]. apply (CN _ _ Cu eq_refl). left. reflexivity.
  - apply (kind_scan _ SConst ReadConst (fun a => a) constCollection); auto; try (nul_free || discriminate || coll_iff || wk).
    + intros a u (H & _). rewrite <- (app_nil_r (Serialise _)). now apply const_roundtrip.
    + congruence.
    + intros a Cu. unfold symbol_key. cbn [GetKey GetCollection wanted]. rewrite prefix_sep; [reflexivity|auto|]. apply (CN _ _ Cu eq_refl). left. reflexivity.
  - apply (kind_scan _ SDefine ReadDefine (fun a => a) defineCollection); auto; try (nul_free || discriminate || coll_iff || wk).
    + intros a u (H & _). rewrite <- (app_nil_r (Serialise _)). now apply define_roundtrip.
    + congruence.
    + intros a Cu. unfold symbol_key. cbn [GetKey GetCollection wanted]. rewrite prefix_sep; [reflexivity|auto|]. apply (CN _ _ Cu eq_refl). left. reflexivity.
  - apply (kind_scan _ SGlobalVariable ReadGlobalVariable (fun a => a) globalVariableCollection); auto; try (nul_free || discriminate || coll_iff || wk).
    + intros a u (H & _). rewrite <- (app_nil_r (Serialise _)). now apply global_variable_roundtrip.
    + congruence.
    + intros a Cu. destruct (proj2 HOLDS _ Cu eq_refl) as [IK _]. unfold symbol_key. rewrite GetKey_global by assumption. cbn [GetCollection wanted].
      rewrite prefix_sep; [reflexivity|auto|]. apply (CN _ _ Cu eq_refl). left. reflexivity.
  - apply (kind_scan _ SMethod ReadMethod (fun s => Method (m_location s) zero_loc (m_name s) (map forget_param (m_params s)) (m_return s)
          (m_description s) (m_scope s) (m_visibility s) (m_static s) (m_classmodifier s) (m_deprecated s)) methodCollection); auto; try (nul_free || discriminate || coll_iff || wk).
    + intros a u (H & _). rewrite <- (app_nil_r (Serialise _)). now apply method_roundtrip.
    + congruence.
    + intros a Cu. unfold symbol_key. cbn [GetKey GetCollection wanted]. rewrite prefix_sep2; [reflexivity|auto| | |].
      * apply (CN _ _ Cu eq_refl). left. reflexivity.
      * apply LN. auto.
      * apply LN. apply (CN _ _ Cu eq_refl). right. left. reflexivity.
  - apply (kind_scan _ SMethod ReadMethod (fun s => Method (m_location s) zero_loc (m_name s) (map forget_param (m_params s)) (m_return s)
          (m_description s) (m_scope s) (m_visibility s) (m_static s) (m_classmodifier s) (m_deprecated s)) methodCollection); auto; try (nul_free || discriminate || coll_iff || wk).
    + intros a u (H & _). rewrite <- (app_nil_r (Serialise _)). now apply method_roundtrip.
    + congruence.
    + intros a Cu. unfold symbol_key. cbn [GetKey GetCollection wanted]. rewrite prefix_sep; [reflexivity|auto|].
      apply (CN _ _ Cu eq_refl). left. reflexivity.
  - apply (kind_scan _ SProperty ReadProperty (fun s => Property (pr_location s) zero_loc (pr_description s) (pr_deprecated s) (pr_name s)
          (pr_scope s) (pr_visibility s) (pr_static s) (pr_types s)) propertyCollection); auto; try (nul_free || discriminate || coll_iff || wk).
    + intros a u (H & _). rewrite <- (app_nil_r (Serialise _)). now apply property_roundtrip.
    + congruence.
    + intros a Cu. unfold symbol_key. cbn [GetKey GetCollection wanted]. rewrite prefix_sep2; [reflexivity|auto| |auto|].
      * apply (CN _ _ Cu eq_refl). left. reflexivity.
      * apply (CN _ _ Cu eq_refl). right. left. reflexivity.
  - apply (kind_scan _ SProperty ReadProperty (fun s => Property (pr_location s) zero_loc (pr_description s) (pr_deprecated s) (pr_name s)
          (pr_scope s) (pr_visibility s) (pr_static s) (pr_types s)) propertyCollection); auto; try (nul_free || discriminate || coll_iff || wk).
    + intros a u (H & _). rewrite <- (app_nil_r (Serialise _)). now apply property_roundtrip.
    + congruence.
    + intros a Cu. unfold symbol_key. cbn [GetKey GetCollection wanted]. rewrite prefix_sep; [reflexivity|auto|].
      apply (CN _ _ Cu eq_refl). left. reflexivity.
  - apply (kind_scan _ SClassConst ReadClassConst (fun s => ClassConst zero_loc (cc_location s) (cc_description s) (cc_name s) (cc_value s) (cc_scope s)
          Public (cc_deprecated s)) classConstCollection); auto; try (nul_free || discriminate || coll_iff || wk).
    + intros a u (H & _). rewrite <- (app_nil_r (Serialise _)). now apply class_const_roundtrip.
    + congruence.
    + intros a Cu. unfold symbol_key. cbn [GetKey GetCollection wanted]. rewrite prefix_name; [|auto|].
      2:{ apply (CN _ _ Cu eq_refl). left. reflexivity. }
      split; intros [E1 E2]; split; auto.
      * destruct E2 as [t E2]. rewrite E2, (NL a t Cu E1 E2). apply app_nil_r.
      * exists []. now rewrite app_nil_r.
  - apply (kind_scan _ SClassConst ReadClassConst (fun s => ClassConst zero_loc (cc_location s) (cc_description s) (cc_name s) (cc_value s) (cc_scope s)
          Public (cc_deprecated s)) classConstCollection); auto; try (nul_free || discriminate || coll_iff || wk).
    + intros a u (H & _). rewrite <- (app_nil_r (Serialise _)). now apply class_const_roundtrip.
    + congruence.
    + intros a Cu. unfold symbol_key. cbn [GetKey GetCollection wanted]. rewrite prefix_sep; [reflexivity|auto|].
      apply (CN _ _ Cu eq_refl). left. reflexivity.
Qed.

Lemma query_collection_ok : forall q, ~ In NUL (query_collection q)
  /\ query_collection q <> referenceIndexCollection /\ query_collection q <> documentCollection.
Proof. destruct q; (split; [nul_free|split; discriminate]). Qed.

Lemma covered_own : forall h q, Forall event_ok h -> covered h q ->
  forall d1 d2 s1 s2, In d1 (synced_docs h) -> In d2 (synced_docs h) ->
    In s1 (d_symbols d1) -> In s2 (d_symbols d2) -> GetCollection s1 = query_collection q -> indexed_kind s1 -> indexed_kind s2 ->
    symbol_key s1 = symbol_key s2 -> d_uri d1 = d_uri d2.
Proof.
  intros h q OK COV. destruct q; simpl in COV;
    first [apply (own_plain h); [exact OK|discriminate|discriminate] | apply own_property; assumption | apply own_const; tauto].
Qed.

Definition exact_answer (h : list event) : query -> list symbol -> Prop := answers (current h).

Lemma kind_exact : forall A (inj : A -> symbol) (read : dec A) keepA C root h st q qk,
  (forall a, keep (inj a) = inj (keepA a)) ->
  (forall a u, symbol_of_file u (inj a) -> read (Serialise (inj a)) = Some (keepA a, [])) ->
  (forall s, GetCollection s = C <-> exists a, s = inj a) ->
  (forall a b, inj a = inj b -> a = b) ->
  Forall event_ok h -> run root h = Some st ->
  (forall d1 d2 s1 s2, In d1 (synced_docs h) -> In d2 (synced_docs h) ->
    In s1 (d_symbols d1) -> In s2 (d_symbols d2) -> GetCollection s1 = C -> indexed_kind s1 -> indexed_kind s2 ->
    symbol_key s1 = symbol_key s2 -> d_uri d1 = d_uri d2) ->
  ~ In NUL C -> C <> referenceIndexCollection -> C <> documentCollection ->
  (forall a, current h (inj a) -> (has_prefix (newEntry C qk) (symbol_key (inj a)) = true <-> wanted q (inj a))) ->
  (forall s, wanted q s -> exists a, s = inj a) ->
  exists l, option_map (map inj) (get_all read (s_db st) (newEntry C qk)) = Some l /\ exact_answer h q l.
Proof.
  intros A inj read keepA C root h st q qk HK READ COLL INJ OK RUN OWN CN CR CD PRE WK.
  apply (kind_scan A inj read keepA); auto; [now apply (db_ascending root h)|].
  apply (run_holds TOK A inj C COLL root); auto.
Qed.

Theorem ask_exact : forall root h st q, Forall event_ok h -> run root h = Some st ->
  (forall n, In n (query_names q) -> ~ In NUL n) -> covered h q ->
  exists l, ask st q = Some l /\ exact_answer h q l.
Proof.
  intros root h st q OK RUN QN COV. apply ask_general; auto.
  - now apply (db_ascending root h).
  - destruct (query_collection_ok q) as (C1 & C2 & C3).
    apply (run_holds TOK {s : symbol | GetCollection s = query_collection q} (@proj1_sig _ _) _) with (root := root); auto.
    + intros s. split; [intros E; exists (exist _ s E); reflexivity|intros [[s' E] ->]; exact E].
    + now apply covered_own.
  - destruct q; auto. destruct COV as [_ NL]. intros a t (u & d & L & D). apply latest_in in L as [L _].
    apply declares_iff in D; [|assumption|now apply (synced_docs_ok h)]. destruct D as (_ & D & _). now apply (NL d).
Qed.

Lemma exact_answer_exactly : forall h q l, exact_answer h q l -> exactly shown (fun s => current h s /\ wanted q s) l.
Proof.
  intros h q l [ND H]. split; [assumption|]. split.
  - intros x I. apply H in I as (s & C & W & ->). exists s. split; [auto|apply keep_shown].
  - intros s [C W]. exists (keep s). split; [apply H; eauto|apply keep_shown].
Qed.
End S.
