From Coq Require Import String.
From Coq Require Import List Bool NArith ZArith Lia Permutation.
From Coq.Strings Require Import Byte.
From Verif Require Import Base.Bytes Base.BytesProofs Base.Protocol Base.Decimal Base.DecimalProofs
  Codec.CodecSpec Symbols.Symbols Symbols.KeysModel Words.TokeniserSpec
  Storage.KvModel Storage.KvSpec Storage.KvProofs
  Store.FilterModel Store.StoreModel Store.StoreSpec Store.StoreProofs Store.LookupProofs Store.RefProofs Store.StoreTheorems.
Import ListNotations.
Open Scope list_scope.

Lemma assoc_set_all : forall A (l m : list (gostr * A)), NoDup (map fst l) -> NoDup (map fst m) ->
  (forall k, assoc_get (fold_left (fun m e => assoc_set m (fst e) (snd e)) l m) k =
    match assoc_get l k with Some a => Some a | None => assoc_get m k end)
  /\ NoDup (map fst (fold_left (fun m e => assoc_set m (fst e) (snd e)) l m)).
Proof.
  induction l as [|[k0 a0] l IH]; intros m NL NM; [split; [reflexivity|exact NM]|].
  simpl in NL. inversion_clear NL as [|? ? NI NL']. simpl fold_left.
  destruct (IH (assoc_set m k0 a0) NL' (assoc_set_nodup _ _ _ _ NM)) as [G N]. split; [|exact N].
  intros k. rewrite G. simpl. rewrite assoc_get_set. destruct (str_eqb k0 k) eqn:E.
  - apply str_eqb_eq in E. subst k. destruct (assoc_get l k0) eqn:E'; [|reflexivity].
    apply assoc_get_in in E'. exfalso. apply NI. apply in_map_iff. eexists; split; [|exact E']. reflexivity.
  - reflexivity.
Qed.

Lemma assoc_remove_get : forall A (m : list (gostr * A)) k k', assoc_get (assoc_remove m k) k' = if str_eqb k k' then None else assoc_get m k'.
Proof.
  unfold assoc_remove. induction m as [|[k0 a0] m IH]; intros k k'; simpl; [now destruct (str_eqb k k')|].
  destruct (str_eqb k0 k) eqn:E; simpl.
  - apply str_eqb_eq in E. subst k0. rewrite IH. destruct (str_eqb k k'); reflexivity.
  - rewrite IH. destruct (str_eqb k0 k') eqn:E'; [|reflexivity]. apply str_eqb_eq in E'. subst k0.
    assert (str_eqb k k' = false) as ->; [|reflexivity]. apply str_eqb_neq. apply str_eqb_neq in E. congruence.
Qed.
Lemma assoc_remove_nodup : forall A (m : list (gostr * A)) k, NoDup (map fst m) -> NoDup (map fst (assoc_remove m k)).
Proof.
  unfold assoc_remove. induction m as [|[k0 a0] m IH]; intros k N; simpl in *; [constructor|]. inversion_clear N as [|? ? NI N'].
  destruct (negb (str_eqb k0 k)); [|auto]. simpl. constructor; [|auto].
  intros I. apply NI. apply in_map_iff in I as (e & E & I). apply filter_In in I as [I _]. rewrite <- E. now apply in_map.
Qed.
Lemma assoc_none_keys : forall A (m : list (gostr * A)) k, assoc_get m k = None <-> ~ In k (map fst m).
Proof.
  induction m as [|[k0 a0] m IH]; intros k; simpl; [tauto|]. destruct (str_eqb k0 k) eqn:E.
  - apply str_eqb_eq in E. split; [discriminate|tauto].
  - apply str_eqb_neq in E. rewrite IH. tauto.
Qed.

Lemma find_uri_in : forall ds u d, find (fun d => str_eqb (d_uri d) u) ds = Some d -> In d ds /\ d_uri d = u.
Proof. intros ds u d H. apply find_some in H as [I E]. apply str_eqb_eq in E. auto. Qed.
Lemma find_uri_none : forall ds u, find (fun d => str_eqb (d_uri d) u) ds = None <-> ~ In u (map d_uri ds).
Proof.
  intros ds u. split.
  - intros H I. apply in_map_iff in I as (d & E & I). apply (find_none _ _ H) in I. apply str_eqb_neq in I. contradiction.
  - intros H. destruct (find _ ds) eqn:E; [|reflexivity]. apply find_uri_in in E as [I <-]. exfalso. apply H. now apply in_map.
Qed.
Lemma find_snoc : forall ds d u, find (fun d => str_eqb (d_uri d) u) (ds ++ [d]) =
  match find (fun d => str_eqb (d_uri d) u) ds with Some x => Some x | None => if str_eqb (d_uri d) u then Some d else None end.
Proof. induction ds as [|a ds IH]; intros d u; simpl; [reflexivity|]. destruct (str_eqb (d_uri a) u); [reflexivity|apply IH]. Qed.

Section S.
Context {T : Text} {X : XorFilter}.

(** what the index has for [u] once the [files] have been compared *)
Definition compared (h : list event) (files : list doc) (u : gostr) : option doc :=
  match find (fun d => str_eqb (d_uri d) u) files with
  | Some d => match latest h u with
              | Some d0 => if str_eqb (d_hash d) (d_hash d0) then Some d0 else Some d
              | None => Some d
              end
  | None => latest h u
  end.

Lemma prepare_run : forall root h st, Forall event_ok h -> run root h = Some st -> s_synced st = [] ->
  exists m, PrepareForIndexing st = run root (h ++ [EvSynced m]) /\ NoDup (map fst m)
    /\ forall u, assoc_get m u = if has_prefix (B "file://") u then option_map d_hash (latest h u) else None.
Proof.
  intros root h st OK R SY. destruct (scan_docs root h st (B "file://") OK R) as (us & E & ND & IU & NU).
  unfold PrepareForIndexing. rewrite E.
  rewrite (map_opt_some _ _ _ (fun e => (match uri_of_key (fst e) with Some u => u | None => [] end, snd e))).
  2:{ intros e I. apply in_map_iff in I as ([u hash] & <- & I). cbn [fst snd]. rewrite uri_of_key_doc; [reflexivity|]. eapply NU; eauto. }
  rewrite map_map. assert (map (fun x => (match uri_of_key (fst (newEntry documentCollection (fst x), snd x)) with Some u => u | None => [] end,
        snd (newEntry documentCollection (fst x), snd x))) us = us) as ->.
  { rewrite <- (map_id us) at 2. apply map_ext_in. intros [u hash] I. cbn [fst snd]. rewrite uri_of_key_doc; [reflexivity|]. eapply NU; eauto. }
  rewrite SY. eexists. rewrite run_snoc, R. simpl step. split; [reflexivity|].
  destruct (assoc_set_all _ us [] ND (NoDup_nil _)) as [G N]. split; [exact N|].
  intros u. rewrite G. cbn [assoc_get]. destruct (assoc_get us u) as [hash|] eqn:A.
  - apply assoc_get_in in A. apply IU in A as ((d & L & <-) & P). now rewrite P, L.
  - destruct (has_prefix (B "file://") u) eqn:P; [|reflexivity]. destruct (latest h u) as [d|] eqn:L; [|reflexivity].
    exfalso. assert (I : In (u, d_hash d) us) by (apply IU; eauto). apply assoc_in_get in I; [congruence|exact ND].
Qed.

Lemma sync_synced : forall st d st', SyncDocument st d = Some st' -> s_synced st' = s_synced st.
Proof. intros st d st' H. apply sync_inv in H. apply (sp_synced _ _ _ H). Qed.

(** which of the files are analysed *)
Definition needs (h : list event) (d : doc) : bool :=
  match latest h (d_uri d) with Some d0 => negb (str_eqb (d_hash d) (d_hash d0)) | None => true end.

Record indexing (root : gostr) (h : list event) (files : list doc) (hs : list event) (st : store) : Prop := {
  ix_run : run root (h ++ hs) = Some st;
  ix_ok : Forall event_ok hs;
  ix_synced : synced_docs hs = List.filter (needs h) files;
  ix_latest : forall u, latest (h ++ hs) u = compared h files u;
  ix_nodup : NoDup (map fst (s_synced st));
  ix_map : forall u, assoc_get (s_synced st) u =
      if existsb (fun d => str_eqb (d_uri d) u) files then None
      else if has_prefix (B "file://") u then option_map d_hash (latest h u) else None
}.

Lemma compare_run : forall root h files hs st d, Forall event_ok h -> indexing root h files hs st -> doc_ok d ->
  ~ In (d_uri d) (map d_uri files) ->
  exists es, CompareAndIndexDocument st d = run root (h ++ hs ++ es) /\
    (forall st', CompareAndIndexDocument st d = Some st' -> indexing root h (files ++ [d]) (hs ++ es) st').
Proof.
  intros root h files hs st d OK IX DOK NI. destruct IX as [R OKs SD LA ND MP].
  assert (EX : existsb (fun d0 => str_eqb (d_uri d0) (d_uri d)) files = false).
  { destruct (existsb _ files) eqn:E; [|reflexivity]. apply existsb_exists in E as (d0 & I & E). apply str_eqb_eq in E. exfalso. apply NI. rewrite <- E. now apply in_map. }
  assert (LD : latest (h ++ hs) (d_uri d) = latest h (d_uri d)).
  { rewrite LA. unfold compared. rewrite (proj2 (find_uri_none files (d_uri d)) NI). reflexivity. }
  (* the hash compared with *)
  set (m := assoc_remove (s_synced st) (d_uri d)).
  assert (SAVED : exists st1 es1, (st1 = with_synced st m \/ (st1 = st /\ assoc_get (s_synced st) (d_uri d) = None))
      /\ CompareAndIndexDocument st d = (if needs h d then SyncDocument st1 d else Some st1)
      /\ run root (h ++ hs ++ es1) = Some st1 /\ synced_docs es1 = [] /\ Forall event_ok es1
      /\ (forall u, latest (h ++ hs ++ es1) u = latest (h ++ hs) u)).
  { unfold CompareAndIndexDocument. assert (MD := MP (d_uri d)). rewrite EX in MD. unfold needs.
    destruct (assoc_get (s_synced st) (d_uri d)) as [hash|] eqn:A.
    - exists (with_synced st m), [EvSynced m]. split; [left; reflexivity|].
      destruct (has_prefix (B "file://") (d_uri d)); [|discriminate]. destruct (latest h (d_uri d)) as [d0|]; [|discriminate]. injection MD as ->.
      split; [destruct (str_eqb (d_hash d) (d_hash d0)); reflexivity|].
      split; [rewrite app_assoc, run_snoc, R; reflexivity|]. split; [reflexivity|]. split; [repeat constructor|].
      intros u. rewrite app_assoc, latest_snoc. reflexivity.
    - exists st, []. split; [right; auto|].
      rewrite (doc_value_hash root (h ++ hs) st (d_uri d)); [|apply Forall_app; auto|exact R]. rewrite LD.
      split; [destruct (latest h (d_uri d)) as [d0|]; simpl; [destruct (str_eqb (d_hash d) (d_hash d0)); reflexivity|reflexivity]|].
      rewrite app_nil_r. split; [exact R|]. split; [reflexivity|]. split; [constructor|reflexivity]. }
  destruct SAVED as (st1 & es1 & ST1 & CE & R1 & SD1 & OK1 & LA1).
  assert (MP1 : NoDup (map fst (s_synced st1)) /\ forall u, assoc_get (s_synced st1) u =
      if existsb (fun d => str_eqb (d_uri d) u) (files ++ [d]) then None
      else if has_prefix (B "file://") u then option_map d_hash (latest h u) else None).
  { split; [destruct ST1 as [->|[-> _]]; [apply assoc_remove_nodup|]; exact ND|].
    intros u. rewrite existsb_app. cbn [existsb]. rewrite orb_false_r. destruct ST1 as [->|[-> A]].
    - cbn [s_synced with_synced]. unfold m. rewrite assoc_remove_get, MP. destruct (str_eqb (d_uri d) u); [now rewrite orb_true_r|now rewrite orb_false_r].
    - destruct (str_eqb (d_uri d) u) eqn:E; [apply str_eqb_eq in E; subst u; rewrite A, orb_true_r; reflexivity|]. rewrite orb_false_r. apply MP. }
  destruct MP1 as [ND1 MP1].
  assert (CM : forall u, compared h (files ++ [d]) u = if str_eqb (d_uri d) u then (if needs h d then Some d else latest h u) else compared h files u).
  { intros u. unfold compared. rewrite find_snoc. destruct (str_eqb (d_uri d) u) eqn:E.
    - apply str_eqb_eq in E. subst u. rewrite (proj2 (find_uri_none files (d_uri d)) NI). unfold needs.
      destruct (latest h (d_uri d)); [|reflexivity]. destruct (str_eqb _ _); reflexivity.
    - destruct (find _ files); reflexivity. }
  destruct (needs h d) eqn:NE.
  - exists (es1 ++ [EvSync d]). split.
    + rewrite CE. rewrite !app_assoc, run_snoc, <- app_assoc, R1. reflexivity.
    + intros st' Est. rewrite CE in Est. split.
      * rewrite !app_assoc, run_snoc, <- app_assoc, R1. exact Est.
      * apply Forall_app. split; [exact OKs|]. apply Forall_app. split; [exact OK1|]. constructor; [exact DOK|constructor].
      * rewrite !synced_docs_app, SD, SD1, filter_app. simpl. rewrite NE. reflexivity.
      * intros u. rewrite !app_assoc, latest_snoc, <- app_assoc, LA1, LA, CM. reflexivity.
      * rewrite (sync_synced _ _ _ Est). exact ND1.
      * intros u. rewrite (sync_synced _ _ _ Est). apply MP1.
  - exists es1. split; [rewrite CE, R1; reflexivity|]. intros st' Est. rewrite CE in Est. injection Est as <-. split; auto.
    + apply Forall_app. auto.
    + rewrite synced_docs_app, SD, SD1, filter_app. simpl. rewrite NE. reflexivity.
    + intros u. rewrite LA1, LA, CM. destruct (str_eqb (d_uri d) u) eqn:E; [|reflexivity]. apply str_eqb_eq in E. subst u. rewrite <- LD. symmetry. apply LA.
Qed.

Lemma index_files_snoc : forall st files d, index_files st (files ++ [d]) =
  match index_files st files with Some st' => CompareAndIndexDocument st' d | None => None end.
Proof. intros. unfold index_files. rewrite fold_left_app. reflexivity. Qed.

Lemma index_files_run : forall root h m st files, Forall event_ok h -> run root (h ++ [EvSynced m]) = Some st -> s_synced st = m ->
  NoDup (map fst m) -> (forall u, assoc_get m u = if has_prefix (B "file://") u then option_map d_hash (latest h u) else None) ->
  NoDup (map d_uri files) -> Forall doc_ok files -> forall st', index_files st files = Some st' ->
  exists hs, indexing root h files hs st'.
Proof.
  intros root h m st files OK R SY ND MP. induction files as [|d files IH] using rev_ind; intros NF DF st' E.
  - injection E as <-. exists [EvSynced m]. split; [exact R|repeat constructor|reflexivity|intros u; rewrite latest_snoc; reflexivity|now rewrite SY|].
    intros u. rewrite SY. apply MP.
  - rewrite map_app in NF. simpl in NF. apply NoDup_remove in NF as [NF NI]. rewrite app_nil_r in *. apply Forall_app in DF as [DF Dd]. inversion_clear Dd.
    rewrite index_files_snoc in E. destruct (index_files st files) as [st1|] eqn:E1; [|discriminate].
    destruct (IH NF DF st1 eq_refl) as [hs IX]. destruct (compare_run root h files hs st1 d OK IX) as (es & _ & H'); auto. exists (hs ++ es). auto.
Qed.

Lemma index_files_total : forall root h m st files, xor_ok X -> Forall event_ok h -> run root (h ++ [EvSynced m]) = Some st -> s_synced st = m ->
  NoDup (map fst m) -> (forall u, assoc_get m u = if has_prefix (B "file://") u then option_map d_hash (latest h u) else None) ->
  NoDup (map d_uri files) -> Forall doc_ok files -> Forall event_encoded h -> Forall encoded_doc files -> exists st', index_files st files = Some st'.
Proof.
  intros root h m st files XOK OK R SY ND MP. induction files as [|d files IH] using rev_ind; intros NF DF EH EF; [eexists; reflexivity|].
  rewrite map_app in NF. simpl in NF. apply NoDup_remove in NF as [NF NI]. rewrite app_nil_r in *. apply Forall_app in DF as [DF Dd]. inversion_clear Dd.
  apply Forall_app in EF as [EF Ed]. inversion_clear Ed.
  destruct (IH NF DF EH EF) as [st1 E1]. rewrite index_files_snoc, E1.
  destruct (index_files_run root h m st files OK R SY ND MP NF DF st1 E1) as [hs IX].
  assert (OK' : Forall event_ok (h ++ hs)) by (apply Forall_app; split; [exact OK|exact (ix_ok _ _ _ _ _ IX)]).
  assert (ST : forall s, exists st', SyncDocument (with_synced st1 s) d = Some st').
  { intros s. apply (sync_total root ((h ++ hs) ++ [EvSynced s])); [|rewrite run_snoc, (ix_run _ _ _ _ _ IX); reflexivity|assumption].
    apply Forall_app. split; [exact OK'|repeat constructor]. }
  assert (ST' : exists st', SyncDocument st1 d = Some st') by (apply (sync_total root (h ++ hs)); [exact OK'|exact (ix_run _ _ _ _ _ IX)|assumption]).
  unfold CompareAndIndexDocument. destruct (assoc_get (s_synced st1) (d_uri d)).
  - destruct (str_eqb _ _); eauto.
  - destruct (ldb_Get _ _); [destruct (str_eqb _ _)|]; eauto.
Qed.

Theorem index_folder_run : forall root h st files, Forall event_ok h -> run root h = Some st -> s_synced st = [] ->
  NoDup (map d_uri files) -> Forall doc_ok files -> forall st', index_folder st files = Some st' ->
  exists hs, run root (h ++ hs) = Some st' /\ Forall event_ok hs /\ synced_docs hs = List.filter (needs h) files
    /\ (forall u, latest (h ++ hs) u = after_indexing h files u) /\ s_synced st' = [].
Proof.
  intros root h st files OK R SY NF DF st' E. destruct (prepare_run root h st OK R SY) as (m & PE & ND & MP).
  unfold index_folder in E. rewrite PE in E. destruct (run root (h ++ [EvSynced m])) as [st1|] eqn:R1; [|discriminate].
  assert (SY1 : s_synced st1 = m) by (rewrite run_snoc, R in R1; injection R1 as <-; reflexivity).
  destruct (index_files st1 files) as [st2|] eqn:E2; [|discriminate].
  destruct (index_files_run root h m st1 files OK R1 SY1 ND MP NF DF st2 E2) as [hs IX].
  unfold FinishIndexing in E. rewrite delete_all_run in E. set (us := map fst (s_synced st2)) in *.
  destruct (run_from st2 (map EvDelete us)) as [st3|] eqn:R3; [|discriminate]. injection E as <-.
  assert (IN : forall u, In u us <-> ~ In u (map d_uri files) /\ has_prefix (B "file://") u = true /\ latest h u <> None).
  { intros u. assert (M := ix_map _ _ _ _ _ IX u). assert (NK := assoc_none_keys _ (s_synced st2) u). fold us in NK.
    assert (FE : existsb (fun d => str_eqb (d_uri d) u) files = false <-> ~ In u (map d_uri files)).
    { split.
      - intros F I. apply in_map_iff in I as (d & Ed & I). assert (C : existsb (fun d => str_eqb (d_uri d) u) files = true); [|congruence].
        apply existsb_exists. exists d. split; [exact I|]. apply str_eqb_eq. exact Ed.
      - intros F. destruct (existsb _ files) eqn:C; [|reflexivity]. apply existsb_exists in C as (d & I & Ed). apply str_eqb_eq in Ed. exfalso. apply F. rewrite <- Ed. now apply in_map. }
    split.
    - intros I. destruct (existsb _ files) eqn:Ex; [tauto|]. destruct (has_prefix _ u) eqn:P; [|tauto].
      destruct (latest h u) eqn:L; [|tauto]. split; [tauto|]. split; [reflexivity|discriminate].
    - intros (A & P & L). apply FE in A. rewrite A, P in M. destruct (latest h u) eqn:L'; [|congruence].
      destruct (in_dec (list_eq_dec Byte.byte_eq_dec) u us) as [I|I]; [exact I|]. apply NK in I. simpl in M. congruence. }
  exists (hs ++ map EvDelete us ++ [EvSynced []]). split; [|split; [|split; [|split]]].
  - rewrite !app_assoc, run_snoc, run_app, (ix_run _ _ _ _ _ IX), R3. reflexivity.
  - apply Forall_app. split; [exact (ix_ok _ _ _ _ _ IX)|]. apply Forall_app. split; [|repeat constructor].
    apply deletes_ok. intros u I. apply IN in I as (_ & _ & L). destruct (latest h u) as [d|] eqn:L'; [|congruence].
    apply latest_in in L' as [L1 <-]. apply (synced_docs_ok _ _ OK L1).
  - rewrite !synced_docs_app, synced_docs_deletes. simpl. rewrite app_nil_r. apply (ix_synced _ _ _ _ _ IX).
  - intros u. rewrite !app_assoc, latest_snoc, latest_app_deletes, (ix_latest _ _ _ _ _ IX). unfold compared, after_indexing.
    destruct (existsb (fun u' => str_eqb u' u) us) eqn:Ex.
    + apply existsb_exists in Ex as (u' & I & E). apply str_eqb_eq in E. subst u'. apply IN in I as (A & P & L).
      rewrite (proj2 (find_uri_none _ _) A), P. reflexivity.
    + assert (NI : ~ In u us).
      { intros I. assert (C : existsb (fun u' => str_eqb u' u) us = true); [|congruence]. apply existsb_exists. exists u. split; [exact I|apply str_eqb_refl]. }
      destruct (find _ files) eqn:F; [reflexivity|]. apply find_uri_none in F. destruct (has_prefix _ u) eqn:P; [|reflexivity].
      destruct (latest h u) eqn:L; [|reflexivity]. exfalso. apply NI. apply IN. rewrite L. split; [exact F|]. split; [exact P|discriminate].
  - reflexivity.
Qed.

Theorem index_folder_total : forall root h st files, xor_ok X -> Forall event_ok h -> Forall event_encoded h -> run root h = Some st -> s_synced st = [] ->
  NoDup (map d_uri files) -> Forall doc_ok files -> Forall encoded_doc files -> exists st', index_folder st files = Some st'.
Proof.
  intros root h st files XOK OK EH R SY NF DF EF. destruct (prepare_run root h st OK R SY) as (m & PE & ND & MP).
  unfold index_folder. rewrite PE. rewrite run_snoc, R. cbn [step].
  assert (R1 : run root (h ++ [EvSynced m]) = Some (with_synced st m)) by (rewrite run_snoc, R; reflexivity).
  destruct (index_files_total root h m (with_synced st m) files) as [st2 E2]; auto. rewrite E2.
  destruct (index_files_run root h m (with_synced st m) files OK R1 eq_refl ND MP NF DF st2 E2) as [hs IX].
  unfold FinishIndexing. rewrite delete_all_run.
  assert (G : forall us st h, run root h = Some st -> Forall event_ok h -> (forall u, In u us -> ~ In NUL u) -> exists st', run_from st (map EvDelete us) = Some st').
  { clear - XOK. induction us as [|u us IH]; intros st h R OK N; [eexists; reflexivity|].
    destruct (step_total XOK root h st (EvDelete u) OK R I) as [st1 S]. unfold run_from. cbn [map fold_left]. rewrite S.
    apply (IH st1 (h ++ [EvDelete u])); [rewrite run_snoc, R; exact S| |intros; apply N; right; assumption].
    apply Forall_app. split; [exact OK|]. constructor; [apply N; left; reflexivity|constructor]. }
  destruct (G (map fst (s_synced st2)) st2 (h ++ hs)) as [st3 E3].
  - apply (ix_run _ _ _ _ _ IX).
  - apply Forall_app. split; [exact OK|exact (ix_ok _ _ _ _ _ IX)].
  - intros u I. assert (M := ix_map _ _ _ _ _ IX u). destruct (assoc_get (s_synced st2) u) eqn:A.
    + destruct (existsb _ files); [discriminate|]. destruct (has_prefix _ u); [|discriminate]. destruct (latest h u) as [d|] eqn:L; [|discriminate].
      apply latest_in in L as [L1 <-]. apply (synced_docs_ok _ _ OK L1).
    + apply assoc_none_keys in A. contradiction.
  - rewrite E3. eauto.
Qed.
End S.
