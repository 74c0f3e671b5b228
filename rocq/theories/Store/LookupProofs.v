From Coq Require Import String.
From Coq Require Import List Bool NArith ZArith Lia.
From Coq.Strings Require Import Byte.
From Verif Require Import Base.Bytes Base.BytesProofs Base.Protocol Base.Decimal Base.DecimalProofs
  Codec.CodecModel Codec.CodecSpec Codec.CodecProofs Codec.SymbolCodecModel Codec.SymbolCodecSpec Codec.SymbolCodecProofs
  Symbols.Symbols Symbols.KeysModel Words.TokeniserModel Storage.KvModel Storage.KvSpec Storage.KvProofs
  Store.FilterModel Store.StoreModel Store.StoreSpec Store.StoreProofs.
Import ListNotations.
Open Scope list_scope.

(** ** Range text *)
Lemma nat_or_digit_colon : is_digit_byte x3a = false /\ is_digit_byte x2d = false.
Proof. split; reflexivity. Qed.

(** A text ending in a range text can be split uniquely, if what precedes it
    does not end in a digit. *)
Lemma uri_range_inj : forall u r u' r',
  ~ ends_in_digit u -> ~ ends_in_digit u' -> nonneg_range r -> nonneg_range r' ->
  u <> [] -> u' <> [] ->
  u ++ Range_String r = u' ++ Range_String r' -> u = u' /\ r = r'.
Proof.
  intros u [[a b] [c d]] u' [[a' b'] [c' d']] N N' (H1 & H2 & H3 & H4) (K1 & K2 & K3 & K4) E E' H.
  cbn [r_start r_end p_line p_char] in *. unfold Range_String, Position_String in H. cbn [r_start r_end p_line p_char] in H.
  assert (A : forall z, (0 <= z)%Z -> forall x, In x (Itoa z) -> is_digit_byte x = true) by exact Itoa_nonneg_digits.
  assert (LHS : forall (u : gostr) a b c d, u ++ (Itoa a ++ B ":" ++ Itoa b) ++ B "-" ++ Itoa c ++ B ":" ++ Itoa d
     = (((((u ++ Itoa a) ++ [x3a]) ++ Itoa b) ++ [x2d]) ++ Itoa c ++ [x3a]) ++ Itoa d).
  { intros. change (B ":") with [x3a]. change (B "-") with [x2d]. rewrite <- !app_assoc. reflexivity. }
  rewrite !LHS in H. clear LHS.
  rewrite (app_assoc _ (Itoa c)), (app_assoc _ (Itoa c')) in H.
  apply digit_tail in H as [H Hd]; try reflexivity; try (apply A; assumption).
  apply app_inj_tail in H as [H _].
  apply digit_tail in H as [H Hc]; try reflexivity; try (apply A; assumption).
  apply app_inj_tail in H as [H _].
  apply digit_tail in H as [H Hb]; try reflexivity; try (apply A; assumption).
  apply app_inj_tail in H as [H _].
  destruct (exists_last E) as (p & x & ->). destruct (exists_last E') as (p' & x' & ->).
  apply digit_tail in H.
  - destruct H as [-> Ha]. apply Itoa_inj in Ha, Hb, Hc, Hd. subst. auto.
  - destruct (is_digit_byte x) eqn:D; [|reflexivity]. exfalso. apply N. exists p, x. auto.
  - destruct (is_digit_byte x') eqn:D; [|reflexivity]. exfalso. apply N'. exists p', x'. auto.
  - apply A; assumption.
  - apply A; assumption.
Qed.

Lemma Range_String_inj : forall r r', nonneg_range r -> nonneg_range r' -> Range_String r = Range_String r' -> r = r'.
Proof.
  intros r r' H H' E.
  destruct (uri_range_inj [x61] r [x61] r') as [_ R]; auto; try discriminate.
  - intros (p & b & E1 & D). destruct p as [|? [|]]; try discriminate. injection E1 as <-. discriminate.
  - intros (p & b & E1 & D). destruct p as [|? [|]]; try discriminate. injection E1 as <-. discriminate.
  - now rewrite E.
Qed.

Section S.
Context {T : Text} {X : XorFilter}.
Hypothesis TOK : text_ok T.

(** ** Case-folded class names *)
Lemma fold_name_split : forall ns a, ~ In BSL a -> GetClassFQNLowerCase (ns ++ BSL :: a) = ns ++ BSL :: to_lower a.
Proof.
  intros ns a H. unfold GetClassFQNLowerCase. rewrite last_index_byte_app by assumption.
  rewrite firstn_app, Nat.sub_diag, firstn_all, app_nil_r. simpl.
  replace (length ns + 1)%nat with (length (ns ++ [BSL])) by (rewrite app_length; reflexivity).
  change (BSL :: a) with ([BSL] ++ a). rewrite app_assoc, skipn_app, skipn_all, Nat.sub_diag. reflexivity.
Qed.

Lemma last_split : forall x, In BSL x -> exists ns a, x = ns ++ BSL :: a /\ ~ In BSL a.
Proof.
  intros x H. destruct (last_index_byte x BSL) as [i|] eqn:E.
  - apply last_index_byte_some in E. destruct E as (a & b & E1 & _ & E2). eauto.
  - apply last_index_byte_none in E. contradiction.
Qed.

Lemma same_class_name_iff : forall x y, GetClassFQNLowerCase x = GetClassFQNLowerCase y <-> same_class_name x y.
Proof.
  assert (LB : forall a, ~ In BSL a -> ~ In BSL (to_lower a)) by (intros a; apply TOK; auto).
  assert (NB : forall x, ~ In BSL x -> GetClassFQNLowerCase x = x).
  { intros x H. unfold GetClassFQNLowerCase. apply last_index_byte_none in H. now rewrite H. }
  intros x y. split.
  - intros H. destruct (in_dec Byte.byte_eq_dec BSL x) as [I|N], (in_dec Byte.byte_eq_dec BSL y) as [I'|N'].
    + apply last_split in I as (ns & a & -> & Na). apply last_split in I' as (ns' & b & -> & Nb).
      rewrite !fold_name_split in H by assumption. apply (f_equal (@rev _)) in H.
      change (BSL :: to_lower a) with ([BSL] ++ to_lower a) in H. change (BSL :: to_lower b) with ([BSL] ++ to_lower b) in H.
      rewrite !rev_app_distr in H. simpl in H. rewrite <- !app_assoc in H. simpl in H.
      apply sep_cancel in H; [|rewrite <- in_rev; auto|rewrite <- in_rev; auto]. destruct H as [H1 H2].
      apply (f_equal (@rev _)) in H1, H2. rewrite !rev_involutive in H1, H2. subst ns'.
      right. exists ns, a, b. auto.
    + apply last_split in I as (ns & a & -> & Na). rewrite fold_name_split, NB in H by assumption.
      exfalso. apply N'. rewrite <- H. apply in_or_app. right. left. reflexivity.
    + apply last_split in I' as (ns & a & -> & Na). rewrite fold_name_split, NB in H by assumption.
      exfalso. apply N. rewrite H. apply in_or_app. right. left. reflexivity.
    + left. now rewrite !NB in H by assumption.
  - intros [->|(ns & a & b & Na & Nb & E & -> & ->)]; [reflexivity|].
    rewrite !fold_name_split by assumption. now rewrite E.
Qed.

Lemma fold_name_nul : forall x, ~ In NUL x -> ~ In NUL (GetClassFQNLowerCase x).
Proof.
  intros x H. destruct (in_dec Byte.byte_eq_dec BSL x) as [I|N].
  - apply last_split in I as (ns & a & -> & Na). rewrite fold_name_split by assumption.
    rewrite in_app_iff in *. intros [C|[C|C]]; [auto|discriminate|].
    revert C. apply TOK; [auto|]. intros C. apply H. right. right. exact C.
  - unfold GetClassFQNLowerCase. apply last_index_byte_none in N. now rewrite N.
Qed.

(** ** Keys identify declarations *)
Lemma has_key_iff : forall s, has_key s = true <-> indexed_kind s.
Proof.
  intros s. unfold has_key.
  assert (NE : forall a b : gostr, negb (str_eqb (a ++ KeySep ++ b) []) = true).
  { intros. rewrite negb_true_iff, str_eqb_neq. intros E. destruct a; discriminate. }
  destruct s; simpl; try (split; [trivial|intros _; apply NE]).
  unfold tc_IsEmpty. split.
  - intros H. destruct (g_types s) as [|t0 l] eqn:E; simpl in H; [discriminate|].
    destruct (ts_IsEmpty t0 && forallb ts_IsEmpty l) eqn:F; [discriminate|].
    change (forallb ts_IsEmpty (t0 :: l) = false) in F.
    assert (exists t, In t (t0 :: l) /\ ts_IsEmpty t = false) as (t & I & N).
    { clear -F. induction (t0 :: l) as [|a r IH]; [discriminate|]. simpl in F.
      apply andb_false_iff in F as [F|F]; [exists a; simpl; auto|]. destruct (IH F) as (t & I & N). exists t. simpl. auto. }
    exists t. split; [exact I|]. unfold ts_IsEmpty in N. apply orb_false_iff in N as [N1 N2].
    apply str_eqb_neq in N1, N2. auto.
  - intros (t & I & N1 & N2). destruct (g_types s) as [|t0 l] eqn:E; [destruct I|].
    assert (F : forallb ts_IsEmpty (t0 :: l) = false).
    { destruct (forallb ts_IsEmpty (t0 :: l)) eqn:F; [exfalso|reflexivity].
      rewrite forallb_forall in F. apply F in I. unfold ts_IsEmpty in I.
      apply orb_true_iff in I as [I|I]; apply str_eqb_eq in I; contradiction. }
    rewrite F. simpl. apply NE.
Qed.

Lemma nul_sep : forall a b a' b' : gostr, ~ In NUL a -> ~ In NUL a' ->
  a ++ KeySep ++ b = a' ++ KeySep ++ b' -> a = a' /\ b = b'.
Proof. intros a b a' b' H H' E. now apply (sep_cancel NUL a b a' b') in E. Qed.

Lemma GetKey_global : forall s, indexed_kind (SGlobalVariable s) -> GetKey (SGlobalVariable s) = g_name s ++ KeySep ++ l_uri (g_location s).
Proof.
  intros s H. apply has_key_iff in H. unfold has_key in H. simpl in *.
  destruct (tc_IsEmpty (g_types s)); [discriminate|reflexivity].
Qed.

Lemma key_same_entry : forall u s u' s',
  symbol_of_file u s -> symbol_of_file u' s' -> indexed_kind s -> indexed_kind s' ->
  symbol_key s = symbol_key s' ->
  (match s with SProperty _ => u = u' \/ (~ ends_in_digit u /\ ~ ends_in_digit u' /\ u <> [] /\ u' <> []) | _ => True end) ->
  same_entry s s' /\ (match s with SClassConst _ => True | _ => u = u' end).
Proof.
  intros u s u' s' (OK & U & N & R & _) (OK' & U' & N' & R' & _) IK IK' E P.
  unfold symbol_key in E. apply in_newEntry in E; try apply GetCollection_nul. destruct E as [EC EK].
  assert (LN : forall a, ~ In NUL a -> ~ In NUL (to_lower a)) by (intros a; apply TOK; auto).
  destruct s as [s|s|s|s|s|s|s|s|s|s], s' as [s'|s'|s'|s'|s'|s'|s'|s'|s'|s']; try discriminate EC;
    try rewrite !GetKey_global in EK by assumption; simpl in U, U', N, N'; unfold symbol_uri in *; simpl in *.
  - apply nul_sep in EK as [E1 E2]; [|apply fold_name_nul; apply N; auto|apply fold_name_nul; apply N'; auto].
    split; [now apply same_class_name_iff|congruence].
  - apply nul_sep in EK as [E1 E2]; [split; [auto|congruence]| |]; [apply N; auto|apply N'; auto].
  - apply nul_sep in EK as [E1 E2]; [split; [auto|congruence]| |]; [apply N; auto|apply N'; auto].
  - apply nul_sep in EK as [E1 E2]; [split; [auto|congruence]| |]; [apply N; auto|apply N'; auto].
  - apply nul_sep in EK as [E1 E2]; [split; [auto|congruence]| |]; [apply N; auto|apply N'; auto].
  - apply nul_sep in EK as [E1 E2]; [split; [auto|congruence]| |]; [apply N; auto|apply N'; auto].
  - apply nul_sep in EK as [E1 E2]; [|apply N; auto|apply N'; auto].
    apply nul_sep in E2 as [E2 E3]; [|apply LN; apply N; auto|apply LN; apply N'; auto].
    split; [auto|congruence].
  - apply nul_sep in EK as [E1 E2]; [|apply N; auto|apply N'; auto]. auto.
  - apply nul_sep in EK as [E1 E2]; [|apply N; auto|apply N'; auto].
    apply nul_sep in E2 as [E2 E3]; [|apply N; auto|apply N'; auto].
    rewrite U, U' in E3.
    destruct P as [->|(P1 & P2 & P3 & P4)].
    + apply app_inv_head in E3. apply Range_String_inj in E3; auto.
    + apply uri_range_inj in E3; auto. destruct E3. auto.
  - apply nul_sep in EK as [E1 E2]; [split; [auto|congruence]| |]; [apply N; auto|apply N'; auto].
Qed.

Lemma same_entry_key : forall u s s', symbol_of_file u s -> symbol_of_file u s' ->
  indexed_kind s -> indexed_kind s' -> same_entry s s' -> symbol_key s = symbol_key s'.
Proof.
  intros u s s' (_ & U & _) (_ & U' & _) IK IK' E.
  destruct s as [s|s|s|s|s|s|s|s|s|s], s' as [s'|s'|s'|s'|s'|s'|s'|s'|s'|s']; simpl in E; try contradiction;
    unfold symbol_uri in U, U'; simpl in U, U'; unfold symbol_key; f_equal;
    try (rewrite !GetKey_global by assumption); simpl.
  - apply same_class_name_iff in E. congruence.
  - congruence.
  - congruence.
  - congruence.
  - congruence.
  - congruence.
  - destruct E as [-> ->]. congruence.
  - destruct E as [-> ->]. reflexivity.
  - destruct E as (-> & -> & ->). congruence.
  - congruence.
Qed.

(** ** declares = what the key lookup yields *)
Lemma find_rev_iff : forall A (p : A -> bool) l s,
  find p (rev l) = Some s <->
  p s = true /\ exists before after, l = before ++ s :: after /\ forall s', In s' after -> p s' = false.
Proof.
  intros A p l s. induction l as [|a l IH] using rev_ind.
  - simpl. split; [discriminate|]. intros (_ & b & c & E & _). destruct b; discriminate.
  - rewrite rev_app_distr. simpl. destruct (p a) eqn:Pa.
    + split.
      * intros E. injection E as <-. split; [assumption|]. exists l, []. split; [reflexivity|intros ? []].
      * intros (Ps & b & c & E & N). destruct c as [|z c _] using rev_ind.
        -- apply app_inj_tail in E as [_ E]. now subst.
        -- change (s :: c ++ [z]) with ((s :: c) ++ [z]) in E. rewrite app_assoc in E. apply app_inj_tail in E as [_ E]. subst z.
           rewrite N in Pa; [discriminate|]. apply in_or_app. right. left. reflexivity.
    + rewrite IH. split.
      * intros (Ps & b & c & -> & N). split; [assumption|]. exists b, (c ++ [a]). split; [now rewrite <- app_assoc|].
        intros s' I. apply in_app_iff in I as [I|[<-|[]]]; auto.
      * intros (Ps & b & c & E & N). split; [assumption|]. destruct c as [|z c _] using rev_ind.
        -- apply app_inj_tail in E as [_ E]. congruence.
        -- change (s :: c ++ [z]) with ((s :: c) ++ [z]) in E. rewrite app_assoc in E. apply app_inj_tail in E as [E _]. 
           exists b, c. split; [exact E|]. intros s' I. apply N. apply in_or_app. auto.
Qed.

Lemma filter_split : forall A (f : A -> bool) l b s a, List.filter f l = b ++ s :: a ->
  exists b' a', l = b' ++ s :: a' /\ a = List.filter f a' /\ f s = true.
Proof.
  intros A f. induction l as [|x l IH]; intros b s a E; simpl in E.
  - destruct b; discriminate.
  - destruct (f x) eqn:F.
    + destruct b as [|y b]; simpl in E; injection E as -> E.
      * exists [], l. auto.
      * destruct (IH b s a E) as (b' & a' & -> & H). exists (y :: b'), a'. auto.
    + destruct (IH b s a E) as (b' & a' & -> & H). exists (x :: b'), a'. auto.
Qed.

Lemma declares_iff : forall d s, doc_ok d ->
  (declares d s <-> indexed_kind s /\ In s (d_symbols d) /\ doc_symbol_at d (symbol_key s) = Some s).
Proof.
  intros d s (_ & _ & F & _). rewrite Forall_forall in F. unfold declares, doc_symbol_at. split.
  - intros (IK & b & a & E & N). split; [assumption|]. assert (I : In s (d_symbols d)) by (rewrite E; apply in_or_app; right; left; reflexivity).
    split; [assumption|]. apply find_rev_iff. split; [apply str_eqb_refl|].
    exists (List.filter has_key b), (List.filter has_key a). rewrite E, filter_app. simpl.
    rewrite (proj2 (has_key_iff s) IK). split; [reflexivity|].
    intros s' I'. apply filter_In in I' as [I' K']. apply has_key_iff in K'. apply str_eqb_neq. intros Q.
    assert (I2 : In s' (d_symbols d)) by (rewrite E; apply in_or_app; right; right; assumption).
    apply (N s' I' K'). eapply key_same_entry; eauto. destruct s; auto.
  - intros (IK & I & E). split; [assumption|]. apply find_rev_iff in E as (_ & b & a & E & N).
    apply filter_split in E as (b' & a' & E & -> & _). exists b', a'. split; [assumption|].
    intros s' I' K' Q. assert (I2 : In s' (d_symbols d)) by (rewrite E; apply in_or_app; right; right; assumption).
    assert (In s' (List.filter has_key a')) as I3 by (apply filter_In; split; [assumption|now apply has_key_iff]).
    apply N in I3. apply str_eqb_neq in I3. apply I3. symmetry. eapply same_entry_key; eauto.
Qed.

(** ** Scans that decode every value *)
Lemma get_all_stream : forall A (read : dec A) es acc,
  (forall k v, In (k, v) es -> exists a r, read v = Some (a, r)) ->
  exists l, stream (fun acc k v => match acc with
                    | None => (None, true)
                    | Some l => match read v with
                                | Some (a, _) => (Some (l ++ [a]), false)
                                | None => (None, true)
                                end
                    end) es (Some acc) = Some (acc ++ l)
    /\ Forall2 (fun e a => exists r, read (snd e) = Some (a, r)) es l.
Proof.
  intros A read. induction es as [|[k v] es IH]; intros acc H.
  - exists []. simpl. rewrite app_nil_r. auto.
  - destruct (H k v (or_introl eq_refl)) as (a & r & E). simpl. rewrite E.
    destruct (IH (acc ++ [a])) as (l & L1 & L2); [intros; apply (H k0); right; assumption|].
    exists (a :: l). rewrite L1, <- app_assoc. split; [reflexivity|]. constructor; [|assumption]. simpl. eauto.
Qed.

Lemma get_all_spec : forall A (read : dec A) db p, ascending (ldb db) ->
  (forall k v, ldb_Get db k = Some v -> has_prefix p k = true -> exists a r, read v = Some (a, r)) ->
  exists l, get_all read db p = Some l
   /\ Forall2 (fun e a => exists r, read (snd e) = Some (a, r)) (List.filter (fun e => has_prefix p (fst e)) (ldb db)) l.
Proof.
  intros A read db p ASC H. unfold get_all. rewrite ldb_PrefixStream_eq.
  apply (get_all_stream A read _ []). intros k v I. apply filter_In in I as [I P]. apply kv_get_in in I; eauto.
Qed.

Lemma ascending_nodup : forall l, ascending l -> NoDup (map fst l).
Proof.
  induction l as [|a l IH]; intros H; simpl; constructor.
  - intros I. apply in_map_iff in I as (e & E & I). apply (ascending_lt _ _ H) in I. rewrite E, str_ltb_irrefl in I. discriminate.
  - apply IH. now apply ascending_inv in H.
Qed.

Lemma Forall2_in_l : forall A C (R : A -> C -> Prop) l1 l2 a, Forall2 R l1 l2 -> In a l1 -> exists c, In c l2 /\ R a c.
Proof. induction 1; intros []; [subst; exists y; simpl; auto|]. destruct (IHForall2 H1) as (c & I & Rc). exists c. simpl. auto. Qed.
Lemma Forall2_in_r : forall A C (R : A -> C -> Prop) l1 l2 c, Forall2 R l1 l2 -> In c l2 -> exists a, In a l1 /\ R a c.
Proof. induction 1; intros []; [subst; exists x; simpl; auto|]. destruct (IHForall2 H1) as (a & I & Rc). exists a. simpl. auto. Qed.

(** ** Exactness of a scan, from what the database holds of a collection *)
(** the collection [C] of [db] holds exactly the symbols [cur] *)
Definition holds (db : leveldb) (C : gostr) (cur : symbol -> Prop) : Prop :=
  (forall k v, ldb_Get db k = Some v -> in_coll C k ->
     exists s, cur s /\ GetCollection s = C /\ symbol_key s = k /\ v = Serialise s /\ indexed_kind s /\ exists u, symbol_of_file u s)
  /\ (forall s, cur s -> GetCollection s = C ->
     indexed_kind s /\ ldb_Get db (symbol_key s) = Some (Serialise s) /\ exists u, symbol_of_file u s).

Section Scan.
  Variable A : Type.
  Variable inj : A -> symbol.
  Variable read : dec A.
  Variable keep : A -> A.
  Hypothesis READ : forall a u, symbol_of_file u (inj a) -> read (Serialise (inj a)) = Some (keep a, []).
  Hypothesis KEEP : forall a, indexed_kind (inj a) -> symbol_key (inj (keep a)) = symbol_key (inj a).
  Variable C : gostr.
  Hypothesis COLL : forall s, GetCollection s = C <-> exists a, s = inj a.
  Variables (db : leveldb) (cur : symbol -> Prop).
  Hypothesis ASC : ascending (ldb db).
  Hypothesis HOLDS : holds db C cur.

  Lemma entry_cur : forall k v, ldb_Get db k = Some v -> in_coll C k ->
    exists a, cur (inj a) /\ symbol_key (inj a) = k /\ v = Serialise (inj a) /\ indexed_kind (inj a) /\ exists u, symbol_of_file u (inj a).
  Proof.
    intros k v G IC. destruct HOLDS as [H _]. destruct (H k v G IC) as (s & Cu & EC & K & V & IK & SF).
    apply COLL in EC as [a ->]. exists a. auto 8.
  Qed.
  Lemma cur_entry : forall a, cur (inj a) ->
    indexed_kind (inj a) /\ ldb_Get db (symbol_key (inj a)) = Some (Serialise (inj a)) /\ exists u, symbol_of_file u (inj a).
  Proof. intros a Cu. destruct HOLDS as [_ H]. apply H; [exact Cu|]. apply COLL. eauto. Qed.

  Lemma scan_exact : forall q, exists l,
    get_all read db (newEntry C q) = Some l /\ NoDup l
    /\ (forall x, In x l -> exists a, cur (inj a) /\ has_prefix (newEntry C q) (symbol_key (inj a)) = true
                                   /\ x = keep a /\ exists u, symbol_of_file u (inj a))
    /\ (forall a, cur (inj a) -> has_prefix (newEntry C q) (symbol_key (inj a)) = true -> In (keep a) l).
  Proof.
    intros q. assert (PC : forall k, has_prefix (newEntry C q) k = true -> in_coll C k).
    { intros k P. apply has_prefix_spec in P as [t ->]. exists (q ++ t). unfold newEntry. rewrite !app_assoc. reflexivity. }
    destruct (get_all_spec A read db (newEntry C q) ASC) as (l & G & F).
    { intros k v E P. destruct (entry_cur k v E (PC k P)) as (a & _ & _ & -> & _ & u & SF).
      rewrite (READ a u SF). eauto. }
    exists l. split; [exact G|].
    set (es := List.filter (fun e => has_prefix (newEntry C q) (fst e)) (ldb db)) in *.
    assert (IN : forall e, In e es -> exists a, cur (inj a) /\ symbol_key (inj a) = fst e /\ snd e = Serialise (inj a)
                  /\ indexed_kind (inj a) /\ has_prefix (newEntry C q) (fst e) = true /\ exists u, symbol_of_file u (inj a)).
    { intros [k v] I. apply filter_In in I as [I P]. simpl in *.
      destruct (entry_cur k v) as (a & H1 & H2 & H3 & H4 & H5); [now apply kv_get_in|auto|]. exists a. auto 8. }
    split; [|split].
    - assert (M : map (fun x => symbol_key (inj x)) l = map fst es).
      { clear G. induction F as [|e x es' l' (r & E) F IH]; [reflexivity|]. simpl. f_equal.
        - destruct (IN e (or_introl eq_refl)) as (a & _ & K & V & IK & _ & u & SF).
          rewrite V, (READ a u SF) in E. injection E as <- <-. rewrite KEEP; auto.
        - apply IH. intros e' I. apply IN. right. assumption. }
      apply (NoDup_map_inv (fun x => symbol_key (inj x))). rewrite M.
      unfold es. clear - ASC. apply ascending_nodup in ASC. induction (ldb db) as [|e m IH]; simpl; [constructor|].
      simpl in ASC. inversion ASC; subst. destruct (has_prefix _ _); [|auto]. simpl. constructor; [|auto].
      intros I. apply H1. apply in_map_iff in I as (e' & E & I). apply filter_In in I as [I _]. rewrite <- E. now apply in_map.
    - intros x I. destruct (Forall2_in_r _ _ _ _ _ _ F I) as (e & Ie & r & E).
      destruct (IN e Ie) as (a & Cu & K & V & IK & P & u & SF). exists a. rewrite K. repeat split; auto; [|exists u; assumption].
      rewrite V, (READ a u SF) in E. congruence.
    - intros a Cu P. destruct (cur_entry a Cu) as (IK & G' & u & SF).
      assert (I : In (symbol_key (inj a), Serialise (inj a)) es).
      { apply filter_In. split; [now apply kv_get_in|assumption]. }
      destruct (Forall2_in_l _ _ _ _ _ _ F I) as (x & Ix & r & E). simpl in E. rewrite (READ a u SF) in E.
      injection E as <- _. assumption.
  Qed.
End Scan.

(** ** Generic exactness of a lookup *)
Section Kind.
  Variable A : Type.
  Variable inj : A -> symbol.
  Variable read : dec A.
  Variable keep : A -> A.
  Hypothesis READ : forall a u, symbol_of_file u (inj a) -> read (Serialise (inj a)) = Some (keep a, []).
  Hypothesis KEEP : forall a, indexed_kind (inj a) -> symbol_key (inj (keep a)) = symbol_key (inj a).
  Variable C : gostr.
  Hypothesis COLL : forall s, GetCollection s = C <-> exists a, s = inj a.
  Hypothesis INJ : forall a b, inj a = inj b -> a = b.

  Variables (root : gostr) (h : list event) (st : store).
  Hypothesis OK : Forall event_ok h.
  Hypothesis RUN : run root h = Some st.
  (** documents of the history do not share keys of this kind *)
  Hypothesis OWN : forall d1 d2 s1 s2, In d1 (synced_docs h) -> In d2 (synced_docs h) ->
    In s1 (d_symbols d1) -> In s2 (d_symbols d2) -> GetCollection s1 = C -> indexed_kind s1 -> indexed_kind s2 ->
    symbol_key s1 = symbol_key s2 -> d_uri d1 = d_uri d2.

  Hypothesis CN : ~ In NUL C.
  Hypothesis CR : C <> referenceIndexCollection.
  Hypothesis CD : C <> documentCollection.

  Lemma key_coll : forall s s', symbol_key s = symbol_key s' -> GetCollection s = GetCollection s'.
  Proof. intros s s' E. apply in_newEntry in E as [E _]; auto using GetCollection_nul. Qed.

  Lemma in_doc_keys : forall d k, In k (doc_keys d) -> exists s, In s (d_symbols d) /\ indexed_kind s /\ symbol_key s = k.
  Proof.
    intros d k I. apply in_map_iff in I as (s & E & I). apply filter_In in I as [I K]. apply has_key_iff in K. eauto.
  Qed.

  Lemma own_value : forall d1 s, In d1 (synced_docs h) -> In s (d_symbols d1) -> GetCollection s = C -> indexed_kind s ->
    ldb_Get (s_db st) (symbol_key s) = match latest h (d_uri d1) with Some d => doc_value d (symbol_key s) | None => None end.
  Proof.
    intros d1 s I1 I2 EC IK. apply (db_value root); auto.
    intros d I K. apply in_doc_keys in K as (s' & I' & IK' & E).
    eapply OWN with (s1 := s') (s2 := s); eauto. rewrite <- EC. now apply key_coll.
  Qed.

  (** every db entry of the collection is a current declaration *)
  Lemma db_entry_current : forall k v, ldb_Get (s_db st) k = Some v -> in_coll C k ->
    exists a, current h (inj a) /\ symbol_key (inj a) = k /\ v = Serialise (inj a) /\ indexed_kind (inj a)
              /\ exists u, symbol_of_file u (inj a).
  Proof.
    intros k v G IC. destruct (db_keys _ _ _ _ _ RUN G) as [(d & I & K)|[K|[(u & K)|K]]].
    - apply in_doc_keys in K as (s & Is & IK & <-).
      assert (EC : GetCollection s = C).
      { destruct IC as [r E]. apply in_newEntry in E as [E _]; auto using GetCollection_nul. }
      rewrite (own_value d s I Is EC IK) in G.
      destruct (latest h (d_uri d)) as [d'|] eqn:L; [|discriminate].
      unfold doc_value in G. destruct (doc_symbol_at d' (symbol_key s)) as [s'|] eqn:S; [|discriminate]. injection G as <-.
      assert (S' := S). unfold doc_symbol_at in S'. apply find_some in S' as [S1 S2]. apply str_eqb_eq in S2.
      rewrite <- in_rev in S1. apply filter_In in S1 as [S1 S3]. apply has_key_iff in S3.
      assert (EC' : GetCollection s' = C) by (rewrite <- EC; now apply key_coll).
      destruct (proj1 (COLL s') EC') as [a ->]. exists a.
      apply latest_in in L as L'. destruct L' as [L1 L2].
      assert (DOK := synced_docs_ok _ _ OK L1).
      split; [|split; [assumption|]; split; [reflexivity|]; split; [assumption|]].
      + exists (d_uri d), d'. split; [assumption|]. apply declares_iff; auto. rewrite S2. auto.
      + exists (d_uri d'). destruct DOK as (_ & _ & F & _). rewrite Forall_forall in F. auto.
    - exfalso. eapply in_coll_other with (c := C) (c' := referenceIndexCollection); eauto. nul_free.
    - exfalso. eapply in_coll_other with (c := C) (c' := documentCollection); eauto; [nul_free|]. subst. exists u. reflexivity.
    - exfalso. destruct IC as [r E]. assert (N : ~ In NUL versionKey) by nul_free. apply N. rewrite <- K, E.
      unfold newEntry, KeySep. apply in_or_app. right. left. reflexivity.
  Qed.

  Lemma current_db_entry : forall a, current h (inj a) ->
    indexed_kind (inj a) /\ ldb_Get (s_db st) (symbol_key (inj a)) = Some (Serialise (inj a)) /\ exists u, symbol_of_file u (inj a).
  Proof.
    intros a (u & d & L & D). apply latest_in in L as L'. destruct L' as [L1 L2].
    assert (DOK := synced_docs_ok _ _ OK L1). apply declares_iff in D; auto. destruct D as (IK & I & S).
    assert (EC : GetCollection (inj a) = C) by (apply COLL; eauto).
    split; [assumption|]. split.
    - rewrite (own_value d _ L1 I EC IK), L2, L. unfold doc_value. now rewrite S.
    - exists (d_uri d). destruct DOK as (_ & _ & F & _). rewrite Forall_forall in F. auto.
  Qed.

  Lemma run_holds : holds (s_db st) C (current h).
  Proof.
    split.
    - intros k v G IC. destruct (db_entry_current k v G IC) as (a & H1 & H2 & H3 & H4 & H5). exists (inj a).
      split; [exact H1|]. split; [apply COLL; eauto|]. auto.
    - intros s Cu EC. apply COLL in EC as [a ->]. now apply current_db_entry.
  Qed.
End Kind.
End S.
