From Coq Require Import String.
From Coq Require Import List Bool NArith ZArith Lia.
From Coq.Strings Require Import Byte.
From Verif Require Import Base.Bytes Base.BytesProofs Base.Protocol
  Codec.CodecModel Codec.CodecSpec Codec.CodecProofs Codec.SymbolCodecModel Codec.SymbolCodecProofs
  Symbols.Symbols Symbols.KeysModel Words.TokeniserModel Words.TokeniserSpec Words.TokeniserProofs
  Storage.KvModel Storage.KvSpec Storage.KvProofs
  Store.FilterModel Store.StoreModel Store.StoreSpec Store.StoreProofs Store.LookupProofs Store.LookupKinds Store.StoreTheorems
  Store.SearchModel Store.SearchSpec Types.TypesModel.
Import ListNotations.
Open Scope list_scope.

(** ** Splitting keywords *)
Lemma split_two : forall s c p q r, split_byte s c = p :: q :: r -> exists t, s = p ++ c :: t /\ split_byte t c = q :: r /\ ~ In c p.
Proof.
  intros s c p q r E. assert (J := join_split s c). rewrite E in J. cbn [join] in J.
  assert (F : forall x, In x (q :: r) -> ~ In c x) by (intros x I; apply (split_byte_parts_free s); rewrite E; right; exact I).
  exists (join (q :: r) [c]). split; [symmetry; exact J|]. split; [apply split_join; [discriminate|exact F]|].
  apply (split_byte_parts_free s). rewrite E. left. reflexivity.
Qed.

Lemma join_last : forall ps c, (2 <= length ps)%nat ->
  join ps [c] = join (removelast ps) [c] ++ c :: last ps [].
Proof.
  induction ps as [|p ps IH]; intros c L; [simpl in L; lia|].
  destruct ps as [|q ps]; [simpl in L; lia|]. destruct ps as [|r ps].
  - reflexivity.
  - change (join (p :: q :: r :: ps) [c]) with (p ++ [c] ++ join (q :: r :: ps) [c]).
    rewrite IH by (simpl; lia).
    change (removelast (p :: q :: r :: ps)) with (p :: removelast (q :: r :: ps)).
    change (last (p :: q :: r :: ps) []) with (last (q :: r :: ps) []).
    assert (N : removelast (q :: r :: ps) <> []) by discriminate.
    destruct (removelast (q :: r :: ps)) as [|x xs] eqn:E; [congruence|].
    change (join (p :: x :: xs) [c]) with (p ++ [c] ++ join (x :: xs) [c]). rewrite <- !app_assoc. reflexivity.
Qed.

Lemma last_in : forall A (l : list A) d, l <> [] -> In (last l d) l.
Proof. induction l as [|a [|b l] IH]; intros d N; [congruence|left; reflexivity|]. right. apply IH. discriminate. Qed.

Lemma scope_and_name : forall k, let '(scope, w) := GetScopeAndNameFromString k in qualifier k scope w.
Proof.
  intros [|b k']; [right; left; auto|]. unfold GetScopeAndNameFromString. cbv iota beta. set (k := b :: k').
  assert (J := join_split k BSL). assert (F : forall p, In p (split_byte k BSL) -> ~ In BSL p) by (intros p; apply split_byte_parts_free).
  destruct (split_byte k BSL) as [|p [|q r]] eqn:E; [now apply split_byte_not_nil in E| |].
  - cbv iota beta. cbn [join] in J. assert (N : ~ In BSL k) by (rewrite <- J; apply F; left; reflexivity).
    destruct p as [|c p]; [discriminate J|]. cbv iota beta. left. rewrite J. repeat split; auto; discriminate.
  - assert (G : forall ps, ps = p :: q :: r -> ~ In BSL (last ps []) /\ k = join (removelast ps) [BSL] ++ BSL :: last ps []).
    { intros ps ->. split; [apply F, last_in; discriminate|]. rewrite <- J. apply join_last. simpl. lia. }
    destruct p as [|c p].
    + destruct r as [|r0 r].
      * cbv iota beta. right. right. exists []. cbn [join] in J. split; [apply F; right; left; reflexivity|]. split; [symmetry; exact J|reflexivity].
      * cbv iota beta. right. right. exists (BSL :: join (removelast (q :: r0 :: r)) [BSL]).
        split; [apply F; right; apply last_in; discriminate|].
        change (trim_prefix (BSL :: join (removelast (q :: r0 :: r)) [BSL]) [BSL]) with (join (removelast (q :: r0 :: r)) [BSL]).
        split; [|reflexivity].
        destruct (G _ eq_refl) as [_ G2]. rewrite G2.
        change (last ([] :: q :: r0 :: r) []) with (last (q :: r0 :: r) []).
        change (removelast ([] :: q :: r0 :: r)) with ([] :: removelast (q :: r0 :: r)).
        destruct (removelast (q :: r0 :: r)) eqn:E2; [discriminate|]. reflexivity.
    + destruct (G _ eq_refl) as [G1 G2]. cbv iota beta. right. right. exists (join (removelast ((c :: p) :: q :: r)) [BSL]).
      split; [exact G1|]. split; [exact G2|].
      assert (T : trim_prefix (join (removelast ((c :: p) :: q :: r)) [BSL]) [BSL] = join (removelast ((c :: p) :: q :: r)) [BSL]).
      { assert (N : byte_eqb BSL c = false).
        { apply byte_eqb_neq. intros <-. apply (F (BSL :: p)); left; reflexivity. }
        change (removelast ((c :: p) :: q :: r)) with ((c :: p) :: removelast (q :: r)).
        unfold trim_prefix. destruct (removelast (q :: r)); cbn [join app has_prefix]; rewrite N; reflexivity. }
      rewrite T. destruct q; destruct r; reflexivity.
Qed.

Lemma trim_prefix_bsl : forall ns, trim_prefix ns [BSL] = match ns with b :: t => if byte_eqb b BSL then t else ns | [] => [] end.
Proof.
  intros [|b t]; [reflexivity|]. unfold trim_prefix. cbn [has_prefix]. rewrite (byte_eqb_sym BSL b).
  destruct (byte_eqb b BSL); reflexivity.
Qed.

Lemma qualifier_functional : forall k s w s' w', qualifier k s w -> qualifier k s' w' -> s = s' /\ w = w'.
Proof.
  assert (A : forall ns w, In BSL (ns ++ BSL :: w)) by (intros; apply in_or_app; right; left; reflexivity).
  assert (C : forall (ns ns' w w' : gostr), ~ In BSL w -> ~ In BSL w' -> ns ++ BSL :: w = ns' ++ BSL :: w' -> ns = ns' /\ w = w').
  { intros ns ns' w w' N N' E.
    assert (L := last_index_byte_app ns BSL w N). rewrite E, last_index_byte_app in L by assumption. injection L as L.
    assert (ns = ns').
    { assert (F := f_equal (firstn (length ns)) E). rewrite firstn_app, firstn_all, Nat.sub_diag in F.
      rewrite <- L, firstn_app, firstn_all, Nat.sub_diag in F. cbn [firstn] in F. rewrite !app_nil_r in F. congruence. }
    subst ns'. apply app_inv_head in E. split; congruence. }
  intros k s w s' w' [(N & K & -> & ->)|[(K & -> & ->)|(ns & W & K & ->)]]
                     [(N' & K' & -> & ->)|[(K' & -> & ->)|(ns' & W' & K' & ->)]];
    auto; try congruence; try (exfalso; subst k; eauto; fail).
  - subst k. destruct ns'; discriminate.
  - subst k. destruct ns; discriminate.
  - rewrite K in K'. destruct (C _ _ _ _ W W' K') as [-> ->]. auto.
Qed.

(** ** The search loop *)
Section Loop.
  Context {S : Type}.
  Variable onData : S -> gostr -> option (S * bool).

  Fixpoint visits (L : list (gostr * gostr)) (acc : option (list gostr * S * bool)) : option (list gostr * S * bool) :=
    match L with
    | [] => acc
    | (k, v) :: L' =>
        match acc with
        | Some (_, _, false) => visits L' (fst (com_step onData acc k v))
        | _ => acc
        end
    end.

  Lemma visits_stopped : forall L acc, (forall x y, acc <> Some (x, y, false)) -> visits L acc = acc.
  Proof. intros [|[k v] L] acc N; [reflexivity|]. simpl. destruct acc as [[[x y] [|]]|]; try reflexivity. now destruct (N x y). Qed.

  Lemma visits_app : forall L1 L2 acc, visits (L1 ++ L2) acc = visits L2 (visits L1 acc).
  Proof.
    induction L1 as [|[k v] L1 IH]; intros L2 acc; [reflexivity|]. simpl.
    destruct acc as [[[x y] [|]]|].
    - symmetry. apply visits_stopped. discriminate.
    - apply IH.
    - symmetry. apply visits_stopped. discriminate.
  Qed.

  Lemma stream_visits : forall es seen s, stream (com_step onData) es (Some (seen, s, false)) = visits es (Some (seen, s, false)).
  Proof.
    induction es as [|[k v] es IH]; intros seen s; [reflexivity|]. cbn [stream visits]. unfold com_step at 1 3.
    destruct (ReadString v) as [[cv r]|]; [|cbn [fst]; now rewrite visits_stopped by discriminate].
    destruct (existsb (str_eqb cv) seen); [cbn [fst]; apply IH|].
    destruct (onData s cv) as [[s' [|]]|]; cbn [fst]; [now rewrite visits_stopped by discriminate|apply IH|now rewrite visits_stopped by discriminate].
  Qed.

  Context {T : Text} {X : XorFilter}.

  Definition visited (com : leveldb) (coll : gostr) (words : list gostr) : list (gostr * gostr) :=
    flat_map (fun w => List.filter (fun e => has_prefix (newEntry coll (to_lower w)) (fst e)) (ldb com)) words.

  Lemma com_words_visits : forall com coll words acc, com_words onData com coll words acc = visits (visited com coll words) acc.
  Proof.
    induction words as [|w ws IH]; intros acc; [reflexivity|]. cbn [com_words]. unfold visited. cbn [flat_map].
    rewrite visits_app. destruct acc as [[[seen s] [|]]|].
    - rewrite !visits_stopped; try discriminate; [reflexivity|]. rewrite visits_stopped; discriminate.
    - rewrite IH. unfold visited. rewrite ldb_PrefixStream_eq, stream_visits. reflexivity.
    - rewrite !visits_stopped; try discriminate; [reflexivity|]. rewrite visits_stopped; discriminate.
  Qed.
End Loop.

(** the loop with the callbacks of the Search* functions *)
Section Symbols.
  Variable f : gostr -> option symbol.
  Variable o : search_options.
  Variable onData : list symbol * Z -> gostr -> option ((list symbol * Z) * bool).
  Hypothesis DATA : forall acc cv, onData acc cv = Some (match f cv with None => (acc, false) | Some s => accept o acc s end).

  Definition accepted (cv : gostr) : list symbol :=
    match f cv with Some s => if isSymbolValid s o then [s] else [] | None => [] end.

  Variable c0 : Z.
  Record loop_inv (seen : list gostr) (l : list symbol) (c : Z) (stop : bool) : Prop := LoopInv {
    li_list : l = flat_map accepted (rev seen);
    li_nodup : NoDup seen;
    li_count : c = (match so_limit o with None => c0 | Some _ => c0 + Z.of_nat (length l) end)%Z;
    li_limit : (match so_limit o with
               | None => stop = false
               | Some n => (Z.of_nat (length l) <= Z.max 1 (n - c0))%Z /\ (stop = false <-> l = [] \/ (c0 + Z.of_nat (length l) < n)%Z)
               end) }.

  Lemma loop_step : forall seen l c cv, loop_inv seen l c false -> ~ In cv seen ->
    exists l' c' stop, onData (l, c) cv = Some ((l', c'), stop) /\ loop_inv (cv :: seen) l' c' stop.
  Proof.
    intros seen l c cv [E ND EC LIM] NI. rewrite DATA.
    assert (ND' : NoDup (cv :: seen)) by (constructor; assumption).
    assert (EL : flat_map accepted (rev (cv :: seen)) = l ++ accepted cv).
    { simpl. rewrite flat_map_app. simpl. rewrite app_nil_r, <- E. reflexivity. }
    unfold accepted in EL. destruct (f cv) as [s|].
    2:{ exists l, c, false. split; [reflexivity|]. rewrite app_nil_r in EL. constructor; auto. }
    unfold accept. cbn [fst snd]. destruct (isSymbolValid s o).
    2:{ exists l, c, false. split; [reflexivity|]. rewrite app_nil_r in EL. constructor; auto. }
    unfold IsLimitReached. destruct (so_limit o) as [n|] eqn:EO.
    - do 3 eexists. split; [reflexivity|]. destruct LIM as [L1 L2]. apply proj1 in L2. specialize (L2 eq_refl). subst c. constructor; auto; rewrite EO.
      + rewrite app_length. simpl. lia.
      + rewrite app_length. cbn [length]. split.
        * destruct L2 as [->|L2]; simpl in *; lia.
        * rewrite Z.leb_gt. split; [intros H; right; lia|]. intros [H|H]; [destruct l; discriminate H|lia].
    - do 3 eexists. split; [reflexivity|]. constructor; auto; rewrite EO; auto.
  Qed.

  Lemma visits_spec : forall L seen l c stop, loop_inv seen l c stop ->
    (forall k v, In (k, v) L -> exists cv r, ReadString v = Some (cv, r)) ->
    exists seen' l' c' stop', visits onData L (Some (seen, (l, c), stop)) = Some (seen', (l', c'), stop')
      /\ loop_inv seen' l' c' stop'
      /\ (forall cv, In cv seen' -> In cv seen \/ exists k v r, In (k, v) L /\ ReadString v = Some (cv, r))
      /\ (forall cv, In cv seen -> In cv seen')
      /\ (stop' = false -> forall k v cv r, In (k, v) L -> ReadString v = Some (cv, r) -> In cv seen').
  Proof.
    induction L as [|[k v] L IH]; intros seen l c stop INV RD.
    { simpl. exists seen, l, c, stop. split; [reflexivity|]. split; [assumption|]. split; [auto|]. split; [auto|]. intros _ ? ? ? ? []. }
    destruct stop.
    { exists seen, l, c, true. split; [reflexivity|]. split; [assumption|]. split; [auto|]. split; [auto|]. discriminate. }
    cbn [visits]. destruct (RD k v (or_introl eq_refl)) as (cv & r & E). unfold com_step. rewrite E.
    assert (RD' : forall k v, In (k, v) L -> exists cv r, ReadString v = Some (cv, r)) by (intros; eapply RD; right; eassumption).
    destruct (existsb (str_eqb cv) seen) eqn:X.
    - cbn [fst]. destruct (IH seen l c false INV RD') as (seen' & l' & c' & stop' & V & I' & H1 & H2 & H3).
      exists seen', l', c', stop'. split; [exact V|]. split; [exact I'|]. split; [|split; [exact H2|]].
      + intros x Ix. destruct (H1 x Ix) as [?|(k' & v' & r' & I1 & I2)]; [auto|]. right. exists k', v', r'. split; [right; exact I1|exact I2].
      + intros Hs k' v' cv' r' [Ek|Ik] R'; [|eauto]. injection Ek as <- <-. rewrite E in R'. injection R' as <- <-.
        apply H2. apply existsb_exists in X as (y & Iy & Ey). apply str_eqb_eq in Ey. now subst.
    - assert (NI : ~ In cv seen).
      { intros I. assert (existsb (str_eqb cv) seen = true) by (apply existsb_exists; exists cv; split; [exact I|apply str_eqb_refl]). congruence. }
      destruct (loop_step seen l c cv INV NI) as (l1 & c1 & st1 & D & I1). rewrite D.
      destruct (IH (cv :: seen) l1 c1 st1 I1 RD') as (seen' & l' & c' & stop' & V & I' & H1 & H2 & H3).
      exists seen', l', c', stop'. split.
      { destruct st1; cbn [fst]; exact V. }
      split; [exact I'|]. split; [|split].
      + intros x Ix. destruct (H1 x Ix) as [[<-|?]|(k' & v' & r' & J1 & J2)].
        * right. exists k, v, r. split; [left; reflexivity|exact E].
        * auto.
        * right. exists k', v', r'. split; [right; exact J1|exact J2].
      + intros x Ix. apply H2. right. exact Ix.
      + intros Hs k' v' cv' r' [Ek|Ik] R'; [|eauto]. injection Ek as <- <-. rewrite E in R'. injection R' as <- <-.
        apply H2. left. reflexivity.
  Qed.
End Symbols.

(** ** What the completion database holds *)
Definition is_put (o : bop) : Prop := match o with BPut _ _ => True | BDel _ => False end.

Lemma puts_get : forall ops m k v, Forall is_put ops -> kv_get (apply_bops m ops) k = Some v -> In (BPut k v) ops \/ kv_get m k = Some v.
Proof.
  induction ops as [|o ops IH] using rev_ind; intros m k v F G; [auto|].
  apply Forall_app in F as [F Fo]. inversion_clear Fo as [|? ? P _]. destruct o as [k' v'|]; [|destruct P].
  rewrite apply_bops_app in G. cbn in G. rewrite kv_get_put in G. destruct (str_eqb_spec k' k) as [->|N].
  - injection G as ->. left. apply in_or_app. right. left. reflexivity.
  - apply IH in G as [G|G]; auto. left. apply in_or_app. auto.
Qed.

Lemma puts_kept : forall ops m k, Forall is_put ops ->
  (exists v, In (BPut k v) ops) \/ kv_get m k <> None -> kv_get (apply_bops m ops) k <> None.
Proof.
  induction ops as [|o ops IH] using rev_ind; intros m k F H; [destruct H as [[v []]|H]; exact H|].
  apply Forall_app in F as [F Fo]. inversion_clear Fo as [|? ? P _]. destruct o as [k' v'|]; [|destruct P].
  rewrite apply_bops_app. cbn. rewrite kv_get_put. destruct (str_eqb_spec k' k) as [->|N]; [discriminate|].
  apply IH; [assumption|]. destruct H as [[v I]|H]; [|auto]. left. exists v. apply in_app_or in I as [I|[E|[]]]; [assumption|congruence].
Qed.

Section Com.
Context {T : Text} {X : XorFilter}.

Definition ns_key (ns : gostr) (i : nat) : gostr := snd (indexablesFromNamespaceName ns) ++ KeySep ++ Decimal.Itoa (Z.of_nat i).

Inductive com_put (d : doc) : gostr -> gostr -> Prop :=
| cp_sym : forall s coll name t, In s (d_symbols d) -> has_key s = true -> indexable s = Some (coll, name) -> token name t ->
    com_put d (newEntry coll (to_lower t ++ KeySep ++ GetKey s)) (WriteString NewEncoder (GetKey s))
| cp_ns : forall ns i scope part t, In ns (d_namespaces d) ->
    nth_error (fst (indexablesFromNamespaceName ns)) i = Some (scope, part) -> token part t ->
    com_put d (newEntry (namespace_IndexCollection scope) (to_lower t ++ KeySep ++ ns_key ns i)) (WriteString NewEncoder (ns_key ns i))
| cp_doc : forall r v, com_put d (newEntry documentCompletionIndex r) v.

Lemma entries_spec : forall uri coll name key ops, createCompletionEntries uri coll name key = Some ops ->
  Forall is_put ops
  /\ (forall k v, In (BPut k v) ops -> (exists t, token name t /\ k = newEntry coll (to_lower t ++ KeySep ++ key) /\ v = WriteString NewEncoder key)
                                 \/ (exists r, k = newEntry documentCompletionIndex r))
  /\ (forall t, token name t -> In (BPut (newEntry coll (to_lower t ++ KeySep ++ key)) (WriteString NewEncoder key)) ops).
Proof.
  intros uri coll name key ops H. unfold createCompletionEntries, getCompletionKeys in H.
  destruct (tokenise name) as [toks|] eqn:E; [|discriminate]. injection H as <-. split; [|split].
  - apply Forall_app. split; [|constructor; [exact I|constructor]]. apply Forall_forall. intros o I0.
    apply in_map_iff in I0 as (k & <- & _). exact I.
  - intros k v I0. apply in_app_or in I0 as [I0|[I0|[]]].
    + apply in_map_iff in I0 as (k' & E1 & I1). injection E1 as <- <-. apply in_map_iff in I1 as (k'' & <- & I1).
      apply in_map_iff in I1 as (t & <- & I1). left. exists t. split; [exists toks; auto|auto].
    + injection I0 as <- _. right. eexists. reflexivity.
  - intros t (toks' & E' & I0). rewrite E in E'. injection E' as <-. apply in_or_app. left. apply in_map_iff.
    exists (newEntry coll (to_lower t ++ KeySep ++ key)). split; [reflexivity|]. apply in_map.
    apply (in_map (fun t => to_lower t ++ KeySep ++ key)). exact I0.
Qed.

Lemma number_nth : forall A (l : list A) i j x, In (j, x) (number i l) <-> exists n, j = (i + n)%nat /\ nth_error l n = Some x.
Proof.
  induction l as [|a l IH]; intros i j x; simpl.
  - split; [intros []|]. intros ([|n] & _ & E); discriminate.
  - rewrite IH. split.
    + intros [E|(n & -> & E)]; [injection E as <- <-; exists 0%nat; split; [lia|reflexivity]|]. exists (S n). split; [lia|exact E].
    + intros ([|n] & -> & E); [left; injection E as ->; f_equal; lia|]. right. exists n. split; [lia|exact E].
Qed.

Lemma sync_com : forall st d st' (P : sync_parts st d st'),
  Forall is_put (sp_nscom _ _ _ P ++ sp_symcom _ _ _ P)
  /\ (forall k v, In (BPut k v) (sp_nscom _ _ _ P ++ sp_symcom _ _ _ P) -> com_put d k v)
  /\ (forall s coll name t, In s (d_symbols d) -> has_key s = true -> indexable s = Some (coll, name) -> token name t ->
       exists v, In (BPut (newEntry coll (to_lower t ++ KeySep ++ GetKey s)) v) (sp_nscom _ _ _ P ++ sp_symcom _ _ _ P))
  /\ (forall ns i scope part t, In ns (d_namespaces d) -> nth_error (fst (indexablesFromNamespaceName ns)) i = Some (scope, part) -> token part t ->
       exists v, In (BPut (newEntry (namespace_IndexCollection scope) (to_lower t ++ KeySep ++ ns_key ns i)) v) (sp_nscom _ _ _ P ++ sp_symcom _ _ _ P)).
Proof.
  intros st d st' P.
  assert (SC := concat_opt_some _ _ _ (sp_symcom_eq _ _ _ P)). assert (NC := concat_opt_some _ _ _ (sp_nscom_eq _ _ _ P)).
  assert (SYM : forall o, In o (sp_symcom _ _ _ P) -> exists s coll name ops, In s (d_symbols d) /\ has_key s = true
            /\ indexable s = Some (coll, name) /\ createCompletionEntries (d_uri d) coll name (GetKey s) = Some ops /\ In o ops).
  { intros o I0. apply SC in I0 as (ops & I1 & I2). apply in_map_iff in I1 as (s & E & I1). apply filter_In in I1 as [I1 K].
    unfold symbol_com_ops in E. destruct (indexable s) as [[coll name]|] eqn:IX; [|injection E as <-; destruct I2].
    exists s, coll, name, ops. auto. }
  assert (NS : forall o, In o (sp_nscom _ _ _ P) -> exists ns i scope part ops, In ns (d_namespaces d)
            /\ nth_error (fst (indexablesFromNamespaceName ns)) i = Some (scope, part)
            /\ createCompletionEntries (d_uri d) (namespace_IndexCollection scope) part (ns_key ns i) = Some ops /\ In o ops).
  { intros o I0. apply NC in I0 as (ops & I1 & I2). apply in_map_iff in I1 as (ns & E & I1). unfold namespace_com_ops in E.
    destruct (indexablesFromNamespaceName ns) as [is nskey] eqn:EI. apply (concat_opt_some _ _ _ E) in I2 as (ops' & J1 & J2).
    apply in_map_iff in J1 as ([i [scope part]] & E1 & J1). apply number_nth in J1 as (n & -> & J1). cbn [fst snd] in E1.
    exists ns, n, scope, part, ops'. rewrite EI. cbn [fst]. unfold ns_key. rewrite EI. cbn [snd]. auto. }
  split; [|split; [|split]].
  - apply Forall_forall. intros o I0. apply in_app_or in I0 as [I0|I0].
    + apply NS in I0 as (ns & i & scope & part & ops & _ & _ & E & I1). apply entries_spec in E as (F & _). rewrite Forall_forall in F. auto.
    + apply SYM in I0 as (s & coll & name & ops & _ & _ & _ & E & I1). apply entries_spec in E as (F & _). rewrite Forall_forall in F. auto.
  - intros k v I0. apply in_app_or in I0 as [I0|I0].
    + apply NS in I0 as (ns & i & scope & part & ops & H1 & H2 & E & I1). apply entries_spec in E as (_ & F & _).
      destruct (F _ _ I1) as [(t & Ht & -> & ->)|(r & ->)]; [econstructor 2; eassumption|constructor 3].
    + apply SYM in I0 as (s & coll & name & ops & H1 & H2 & H3 & E & I1). apply entries_spec in E as (_ & F & _).
      destruct (F _ _ I1) as [(t & Ht & -> & ->)|(r & ->)]; [econstructor 1; eassumption|constructor 3].
  - intros s coll name t I0 K IX Ht.
    assert (J : In (symbol_com_ops (d_uri d) s) (map (symbol_com_ops (d_uri d)) (List.filter has_key (d_symbols d)))).
    { apply in_map. apply filter_In. auto. }
    destruct (symbol_com_ops (d_uri d) s) as [ops|] eqn:E.
    + eexists. apply in_or_app. right. apply SC. exists ops. split; [exact J|]. unfold symbol_com_ops in E. rewrite IX in E.
      apply entries_spec in E as (_ & _ & F). apply F. exact Ht.
    + exfalso. unfold symbol_com_ops in E. rewrite IX in E. unfold createCompletionEntries, getCompletionKeys in E.
      destruct Ht as (toks & Et & _). rewrite Et in E. discriminate.
  - intros ns i scope part t I0 NE Ht.
    assert (J : In (namespace_com_ops (d_uri d) ns) (map (namespace_com_ops (d_uri d)) (d_namespaces d))) by (apply in_map; exact I0).
    assert (K : namespace_com_ops (d_uri d) ns <> None).
    { assert (EQ := sp_nscom_eq _ _ _ P). intros E. rewrite E in J. clear - J EQ. revert EQ. generalize (sp_nscom st d st' P).
      induction (map (namespace_com_ops (d_uri d)) (d_namespaces d)) as [|x l IH]; intros r EQ; [destruct J|].
      destruct J as [->|J]; [discriminate|]. destruct x; [|discriminate]. simpl in EQ. destruct (concat_opt l) eqn:E; [|discriminate]. eapply IH; eauto. }
    destruct (namespace_com_ops (d_uri d) ns) as [ops|] eqn:E; [|congruence].
    eexists. apply in_or_app. left. apply NC. exists ops. split; [exact J|]. unfold namespace_com_ops in E.
    destruct (indexablesFromNamespaceName ns) as [is nskey] eqn:EI.
    assert (J2 : In (i, (scope, part)) (number 0 is)) by (apply number_nth; exists i; split; [lia|]; exact NE).
    apply (concat_opt_some _ _ _ E).
    destruct (createCompletionEntries (d_uri d) (namespace_IndexCollection scope) part (ns_key ns i)) as [o'|] eqn:E'.
    + exists o'. split.
      * rewrite <- E'. unfold ns_key. rewrite EI. cbn [snd].
        apply (in_map (fun e : nat * (gostr * gostr) => createCompletionEntries (d_uri d) (namespace_IndexCollection (fst (snd e))) (snd (snd e))
           (nskey ++ KeySep ++ Decimal.Itoa (Z.of_nat (fst e)))) _ _ J2).
      * apply entries_spec in E' as (_ & _ & F). apply F. exact Ht.
    + exfalso. unfold createCompletionEntries, getCompletionKeys in E'.
      destruct Ht as (toks & Et & _). rewrite Et in E'. discriminate.
Qed.

Lemma com_content : forall root h st, run root h = Some st ->
  (forall k v, ldb_Get (s_com st) k = Some v -> exists d, In d (synced_docs h) /\ com_put d k v)
  /\ (forall d s coll name t, In d (synced_docs h) -> In s (d_symbols d) -> has_key s = true -> indexable s = Some (coll, name) -> token name t ->
        ldb_Get (s_com st) (newEntry coll (to_lower t ++ KeySep ++ GetKey s)) <> None)
  /\ (forall d ns i scope part t, In d (synced_docs h) -> In ns (d_namespaces d) ->
        nth_error (fst (indexablesFromNamespaceName ns)) i = Some (scope, part) -> token part t ->
        ldb_Get (s_com st) (newEntry (namespace_IndexCollection scope) (to_lower t ++ KeySep ++ ns_key ns i)) <> None).
Proof.
  intros root h. induction h as [|e h IH] using rev_ind; intros st R.
  - injection R as <-. split; [discriminate|]. split; intros d **; match goal with H : In _ (synced_docs []) |- _ => destruct H end.
  - apply run_init_some in R as (st0 & R & St). destruct (IH st0 R) as (H1 & H2 & H3).
    assert (OLD : s_com st = s_com st0 -> synced_docs (h ++ [e]) = synced_docs h -> 
       (forall k v, ldb_Get (s_com st) k = Some v -> exists d, In d (synced_docs (h ++ [e])) /\ com_put d k v)
  /\ (forall d s coll name t, In d (synced_docs (h ++ [e])) -> In s (d_symbols d) -> has_key s = true -> indexable s = Some (coll, name) -> token name t ->
        ldb_Get (s_com st) (newEntry coll (to_lower t ++ KeySep ++ GetKey s)) <> None)
  /\ (forall d ns i scope part t, In d (synced_docs (h ++ [e])) -> In ns (d_namespaces d) ->
        nth_error (fst (indexablesFromNamespaceName ns)) i = Some (scope, part) -> token part t ->
        ldb_Get (s_com st) (newEntry (namespace_IndexCollection scope) (to_lower t ++ KeySep ++ ns_key ns i)) <> None)).
    { intros -> ->. auto. }
    assert (SD : synced_docs (h ++ [e]) = synced_docs h ++ synced_docs [e]) by apply flat_map_app.
    destruct e as [d|u'| |v| |m]; cbn [step] in St.
    + clear OLD. apply sync_inv in St. destruct (sync_com _ _ _ St) as (P1 & P2 & P3 & P4).
      unfold ldb_Get. rewrite (sp_com _ _ _ St), SD. split; [|split].
      * intros k v G. apply puts_get in G as [G|G]; [|apply H1 in G as (d' & I' & C)|assumption].
        -- exists d. split; [apply in_or_app; right; left; reflexivity|]. auto.
        -- exists d'. split; [apply in_or_app; auto|exact C].
      * intros d' s coll name t I'. intros. apply puts_kept; [assumption|]. apply in_app_or in I' as [I'|[<-|[]]].
        -- right. eapply H2; eauto.
        -- left. eapply P3; eauto.
      * intros d' ns i scope part t I'. intros. apply puts_kept; [assumption|]. apply in_app_or in I' as [I'|[<-|[]]].
        -- right. eapply H3; eauto.
        -- left. eapply P4; eauto.
    + apply delete_inv in St as (ixs & ks & syms & _ & _ & _ & E & _). apply OLD; [exact E|]. rewrite SD. apply app_nil_r.
    + injection St as <-. apply OLD; [reflexivity|]. rewrite SD. apply app_nil_r.
    + injection St as <-. apply OLD; [reflexivity|]. rewrite SD. apply app_nil_r.
    + unfold NewStore in St. destruct (newReferenceIndex (s_db st0)); [|discriminate]. injection St as <-. apply OLD; [reflexivity|]. rewrite SD. apply app_nil_r.
    + injection St as <-. apply OLD; [reflexivity|]. rewrite SD. apply app_nil_r.
Qed.
End Com.

(** ** A search of one kind *)
Lemma valid_iff : forall s o, isSymbolValid s o = true <-> satisfies o s.
Proof. intros. unfold isSymbolValid, satisfies. rewrite forallb_forall. reflexivity. Qed.

Lemma prefix_coll : forall c p c' q, ~ In NUL c -> ~ In NUL c' ->
  has_prefix (newEntry c p) (newEntry c' q) = true -> c = c' /\ has_prefix p q = true.
Proof. intros c p c' q H H' P. unfold newEntry, KeySep in P. cbn [app] in P. now apply sep_prefix_cancel in P. Qed.

Lemma substring_free : forall (c : byte) t s, substring t s -> ~ In c s -> ~ In c t.
Proof. intros c t s (a & b & ->) N I. apply N. apply in_or_app. right. apply in_or_app. auto. Qed.

Section One.
Context {T : Text} {X : XorFilter}.
Hypothesis TOK : text_ok T.

Lemma token_free : forall name t, ~ In NUL name -> token name t -> ~ In NUL (to_lower t).
Proof.
  intros name t N (toks & E & I). apply TOK; [auto|]. apply Tokenise_sound in E as (_ & _ & F).
  eapply substring_free; [apply F, I|exact N].
Qed.

Lemma prefix_word : forall w t r, ~ In NUL w -> has_prefix w (t ++ KeySep ++ r) = true -> has_prefix w t = true.
Proof.
  intros w t r N H. apply has_prefix_spec in H as [u E].
  revert t E. induction w as [|b w IH]; intros t E; [reflexivity|].
  destruct t as [|c t]; cbn in E.
  - injection E as <- _. exfalso. apply N. left. reflexivity.
  - injection E as <- E. cbn. rewrite byte_eqb_refl. cbn. apply IH; [|exact E]. intros I. apply N. right. exact I.
Qed.

Definition search_outcome (h : list event) (k : kind) (hit : symbol -> Prop) (o : search_options) (count : Z) (r : outcome) : Prop :=
  let '(l, complete, count') := r in
  NoDup l
  /\ (forall x, In x l -> exists s, current h s /\ kind_of s = k /\ x = keep s /\ satisfies o x
       /\ exists d s0, In d (synced_docs h) /\ In s0 (d_symbols d) /\ kind_of s0 = k /\ symbol_key s0 = symbol_key s /\ hit s0)
  /\ (complete = true -> forall s, current h s -> kind_of s = k -> hit s -> satisfies o (keep s) -> In (keep s) l)
  /\ (match so_limit o with
      | None => complete = true /\ count' = count
      | Some n => (Z.of_nat (length l) <= Z.max 1 (n - count))%Z /\ count' = (count + Z.of_nat (length l))%Z
          /\ (complete = true <-> l = [] \/ (count' < n)%Z)
      end).

Lemma search_index_spec : forall A (inj : A -> symbol) (read : dec A) keepA C comC k ce root h st,
  (forall a, keep (inj a) = inj (keepA a)) ->
  (forall a u, symbol_of_file u (inj a) -> read (Serialise (inj a)) = Some (keepA a, [])) ->
  (forall s, GetCollection s = C <-> exists a, s = inj a) ->
  (forall s, kind_of s = k <-> exists a, s = inj a) ->
  (forall a, indexable (inj a) = Some (comC, simple_name (inj a))) ->
  (forall s name, indexable s = Some (comC, name) -> kind_of s = k) ->
  (ce = true -> read [] = None) ->
  Forall event_ok h -> run root h = Some st -> clean_names h ->
  (forall d1 d2 s1 s2, In d1 (synced_docs h) -> In d2 (synced_docs h) ->
    In s1 (d_symbols d1) -> In s2 (d_symbols d2) -> GetCollection s1 = C -> indexed_kind s1 -> indexed_kind s2 ->
    symbol_key s1 = symbol_key s2 -> d_uri d1 = d_uri d2) ->
  ~ In NUL C -> C <> referenceIndexCollection -> C <> documentCollection ->
  ~ In NUL comC -> comC <> namespaceCompletionIndex -> comC <> documentCompletionIndex ->
  forall w o count, ~ In NUL w -> well_encoded w ->
  exists r, search_index read inj ce st comC C w o count = Some r
    /\ search_outcome h k (fun s => matches w (simple_name s)) o count r.
Proof.
  intros A inj read keepA C comC k ce root h st HK READ COLL KIND IDX IDXK EMP OK RUN CLEAN OWN CN CR CD CCN CC1 CC2 w o count NW WE.
  assert (ENT := db_entry_current TOK A inj C COLL root h st OK RUN OWN CN CR CD).
  assert (CUR := current_db_entry TOK A inj C COLL root h st OK RUN OWN).
  destruct (com_content root h st RUN) as (CS & CCm & _).
  assert (ASC := com_ascending _ _ _ RUN).
  set (f := fun cv => match fetch read inj ce (s_db st) C cv with Some x => x | None => None end).
  assert (FE : forall cv, fetch read inj ce (s_db st) C cv = Some (f cv)).
  { intros cv. unfold f, fetch. destruct (ldb_Get (s_db st) (newEntry C cv)) as [v|] eqn:G; [|reflexivity].
    destruct (ce && str_eqb v [])%bool; [reflexivity|].
    destruct (ENT _ _ G) as (a & _ & _ & -> & _ & u & SF); [exists cv; reflexivity|]. rewrite (READ a u SF). reflexivity. }
  assert (F1 : forall cv x, f cv = Some x -> symbol_key x = newEntry C cv /\ exists a, current h (inj a) /\ x = keep (inj a)).
  { intros cv x. unfold f, fetch. destruct (ldb_Get (s_db st) (newEntry C cv)) as [v|] eqn:G; [|discriminate].
    destruct (ce && str_eqb v [])%bool; [discriminate|].
    destruct (ENT _ _ G) as (a & Cu & K & -> & _ & u & SF); [exists cv; reflexivity|]. rewrite (READ a u SF).
    intros E. injection E as <-. split; [rewrite <- HK, keep_key; exact K|]. exists a. rewrite HK. auto. }
  assert (F2 : forall a, current h (inj a) -> f (GetKey (inj a)) = Some (keep (inj a))).
  { intros a Cu. destruct (CUR a Cu) as (IK & G & u & SF). unfold f, fetch.
    replace (newEntry C (GetKey (inj a))) with (symbol_key (inj a)) by (unfold symbol_key; f_equal; apply COLL; eauto).
    rewrite G. assert (R := READ a u SF). destruct ce; cbn [andb].
    - destruct (str_eqb_spec (Serialise (inj a)) []) as [E|_]; [rewrite E, EMP in R by reflexivity; discriminate|].
      rewrite R, HK. reflexivity.
    - rewrite R, HK. reflexivity. }
  set (onD := on_symbol read inj ce (s_db st) C o).
  assert (DATA : forall acc cv, onD acc cv = Some (match f cv with None => (acc, false) | Some s => accept o acc s end)).
  { intros acc cv. unfold onD, on_symbol. rewrite FE. destruct (f cv); reflexivity. }
  destruct (Tokenise_ok is_upper is_digit w WE) as (words & TW & _).
  assert (WF : forall x, In x words -> ~ In NUL (to_lower x)).
  { intros x I. apply (token_free w); [assumption|]. exists words. auto. }
  assert (VIS : forall ek v, In (ek, v) (visited (s_com st) comC words) -> exists d s t x,
     In d (synced_docs h) /\ In s (d_symbols d) /\ has_key s = true /\ indexable s = Some (comC, simple_name s) /\ token (simple_name s) t
     /\ In x words /\ has_prefix (to_lower x) (to_lower t) = true /\ ReadString v = Some (GetKey s, [])).
  { intros ek v I. apply in_flat_map in I as (x & Ix & I). apply filter_In in I as [I P]. cbn [fst] in P.
    apply (kv_get_in _ _ _ ASC) in I. destruct (CS ek v I) as (d & Id & CP). destruct CP as [s coll name t Is K IX Ht|ns i scope part t I1 I2 I3|r v'].
    - assert (CN' : ~ In NUL coll) by (destruct s; cbn in IX; try discriminate; injection IX as <- _; nul_free).
      apply prefix_coll in P as [<- P]; [|assumption|assumption].
      assert (EK : kind_of s = k) by (eapply IDXK; exact IX). apply KIND in EK as [a ->].
      assert (name = simple_name (inj a)) by (rewrite IDX in IX; congruence). subst name.
      exists d, (inj a), t, x. repeat (split; [assumption|]).
      split; [eapply prefix_word; eauto|].
      assert (GL : go_len (GetKey (inj a))).
      { apply (synced_docs_ok _ _ OK) in Id as (_ & _ & FF & _). rewrite Forall_forall in FF. apply (FF _ Is). }
      unfold NewEncoder. rewrite WriteString_app. cbn [app]. rewrite <- (app_nil_r (bytes_enc _)). now apply rt_bytes.
    - exfalso. apply CC1. unfold namespace_IndexCollection in P.
      assert (exists r, has_prefix (newEntry comC (to_lower x)) (newEntry namespaceCompletionIndex r) = true) as [r Pr].
      { destruct scope as [|b sc]; [eauto|]. destruct (str_eqb (b :: sc) [BSL]); [eauto|].
        unfold newEntry in P at 2. rewrite <- !app_assoc in P. eexists. unfold newEntry at 2. exact P. }
      apply prefix_coll in Pr as [<- _]; [reflexivity|assumption|nul_free].
    - exfalso. apply CC2. apply prefix_coll in P as [<- _]; [reflexivity|assumption|nul_free]. }
  destruct (visits_spec f o onD DATA count (visited (s_com st) comC words) [] [] count false) as (seen & l & c & stop & V & INV & S1 & _ & S3).
  { constructor; try reflexivity; [constructor|destruct (so_limit o); cbn; lia|]. destruct (so_limit o); [|reflexivity]. cbn. split; [lia|tauto]. }
  { intros ek v I. destruct (VIS ek v I) as (d & s & t & x & _ & _ & _ & _ & _ & _ & _ & R). eauto. }
  exists (l, negb stop, c). split.
  { unfold search_index, searchCompletions. unfold tokenise. rewrite TW, com_words_visits. fold onD. rewrite V. reflexivity. }
  destruct INV as [IL IN IC IM]. cbv beta iota delta [search_outcome]. split; [|split; [|split]].
  - rewrite IL. apply NoDup_rev in IN. clear - IN F1. induction IN as [|cv L NI ND IH]; [constructor|]. cbn [flat_map]. unfold accepted at 1.
    destruct (f cv) as [x|] eqn:E; [|exact IH]. destruct (isSymbolValid x o); [|exact IH]. cbn [app]. constructor; [|exact IH].
    intros I. apply in_flat_map in I as (cv' & I' & Ix). unfold accepted in Ix. destruct (f cv') as [y|] eqn:E'; [|destruct Ix].
    destruct (isSymbolValid y o); [|destruct Ix]. destruct Ix as [->|[]].
    apply F1 in E as [K _]. apply F1 in E' as [K' _]. rewrite K in K'. unfold newEntry in K'. do 2 apply app_inv_head in K'. congruence.
  - intros x I. rewrite IL in I. apply in_flat_map in I as (cv & I & Ix). unfold accepted in Ix. destruct (f cv) as [y|] eqn:E; [|destruct Ix].
    destruct (isSymbolValid y o) eqn:VA; [|destruct Ix]. destruct Ix as [->|[]]. apply valid_iff in VA.
    destruct (F1 cv x E) as (KX & a & Cu & ->). exists (inj a). split; [exact Cu|]. split; [apply KIND; eauto|].
    split; [reflexivity|]. split; [exact VA|].
    apply in_rev in I. destruct (S1 cv I) as [[]|(ek & v & r & J1 & J2)].
    destruct (VIS ek v J1) as (d & s & t & w' & Id & Is & HK' & IX & Ht & Iw & P & R). rewrite R in J2. injection J2 as <- _.
    assert (EK : kind_of s = k) by (eapply IDXK; exact IX).
    exists d, s. split; [exact Id|]. split; [exact Is|]. split; [exact EK|]. split.
    + apply KIND in EK as [a' ->]. rewrite <- (keep_key (inj a)), KX. unfold symbol_key. f_equal. apply COLL; eauto.
    + exists w', t. split; [exists words; auto|]. auto.
  - intros CT s Cu K (x & t & (words' & TW' & Ix) & Ht & P) SAT. unfold tokenise in TW'. rewrite TW in TW'. injection TW' as <-.
    apply negb_true_iff in CT. apply KIND in K as [a ->].
    assert (Hk : exists d, In d (synced_docs h) /\ In (inj a) (d_symbols d) /\ has_key (inj a) = true).
    { destruct Cu as (u & d & L & D). apply latest_in in L as [L _]. exists d. split; [exact L|].
      apply declares_iff in D; [|assumption|eapply synced_docs_ok; eauto]. destruct D as (IK & D & _). split; [exact D|]. now apply has_key_iff. }
    destruct Hk as (d & Id & Is & HKey).
    assert (G := CCm d (inj a) comC (simple_name (inj a)) t Id Is HKey (IDX a) Ht).
    destruct (ldb_Get (s_com st) (newEntry comC (to_lower t ++ KeySep ++ GetKey (inj a)))) as [v|] eqn:GE; [|congruence].
    assert (IV : In (newEntry comC (to_lower t ++ KeySep ++ GetKey (inj a)), v) (visited (s_com st) comC words)).
    { apply in_flat_map. exists x. split; [exact Ix|]. apply filter_In. split; [now apply kv_get_in|]. cbn [fst].
      unfold newEntry. rewrite has_prefix_app_l, has_prefix_app_l. apply has_prefix_spec in P as [u ->]. rewrite <- !app_assoc. apply has_prefix_app. }
    destruct (VIS _ _ IV) as (d' & s' & t' & x' & Id' & Is' & K' & IX' & Ht' & _ & _ & R').
    assert (EK : GetKey s' = GetKey (inj a)).
    { destruct (CS _ _ GE) as (d'' & Id'' & CP). remember (newEntry comC (to_lower t ++ KeySep ++ GetKey (inj a))) as kk eqn:EQ.
      destruct CP as [s'' coll name t'' Is'' K'' IX'' Ht''|ns i scope part t'' J1 J2 J3|r v'].
      - assert (CN' : ~ In NUL coll) by (destruct s''; cbn in IX''; try discriminate; injection IX'' as <- _; nul_free).
        apply in_newEntry in EQ as [-> EQ]; [|assumption|assumption].
        assert (EK : kind_of s'' = k) by (eapply IDXK; exact IX''). apply KIND in EK as [a'' ->].
        assert (name = simple_name (inj a'')) by (rewrite IDX in IX''; congruence). subst name.
        apply nul_sep in EQ as [_ EQ]; [|eapply token_free; [exact (CLEAN _ _ Id'' Is'')|exact Ht'']|eapply token_free; [exact (CLEAN _ _ Id Is)|exact Ht]].
        assert (GL : go_len (GetKey (inj a''))).
        { apply (synced_docs_ok _ _ OK) in Id'' as (_ & _ & FF & _). rewrite Forall_forall in FF. apply (FF _ Is''). }
        assert (RR : ReadString (WriteString NewEncoder (GetKey (inj a''))) = Some (GetKey (inj a''), [])).
        { unfold NewEncoder. rewrite WriteString_app. cbn [app]. rewrite <- (app_nil_r (bytes_enc _)). now apply rt_bytes. }
        rewrite RR in R'. congruence.
      - exfalso. apply CC1.
        assert (exists r, newEntry comC (to_lower t ++ KeySep ++ GetKey (inj a)) = newEntry namespaceCompletionIndex r) as [r Pr].
        { unfold namespace_IndexCollection in EQ. destruct scope as [|b sc]; [eauto|]. destruct (str_eqb (b :: sc) [BSL]); [eauto|].
          rewrite <- EQ. unfold newEntry. rewrite <- !app_assoc. eexists. reflexivity. }
        apply in_newEntry in Pr as [<- _]; [reflexivity|assumption|nul_free].
      - exfalso. apply CC2. apply in_newEntry in EQ as [<- _]; [reflexivity|nul_free|assumption]. }
    rewrite EK in R'. assert (IS := S3 CT _ _ _ _ IV R').
    rewrite IL. apply in_flat_map. exists (GetKey (inj a)). split; [apply -> in_rev; exact IS|].
    unfold accepted. rewrite (F2 a Cu). apply valid_iff in SAT. rewrite SAT. left. reflexivity.
  - destruct (so_limit o); [|subst; auto]. destruct IM as [IM ST]. split; [exact IM|]. split; [exact IC|]. rewrite negb_true_iff, IC. exact ST.
Qed.

(** ** Qualified class searches *)
Section Scoped.
  Variable f : gostr -> option symbol.
  Variable o : search_options.
  Variable c0 : Z.
  Let F := (fun acc (k v : gostr) => match acc with
                    | None => (None, true)
                    | Some s => match ReadClass v with
                                | Some (c, _) => let '(s', stop) := accept o s (SClass c) in (Some s', stop)
                                | None => (None, true)
                                end
                    end).
  Lemma stream_classes : forall es seen l c, loop_inv f o c0 seen l c false -> NoDup (map fst es) ->
    (forall k v, In (k, v) es -> ~ In k seen) ->
    (forall k v, In (k, v) es -> exists cls r, ReadClass v = Some (cls, r) /\ f k = Some (SClass cls)) ->
    exists seen' l' c' stop', stream F es (Some (l, c)) = Some (l', c') /\ loop_inv f o c0 seen' l' c' stop'
      /\ (forall k, In k seen' -> In k seen \/ In k (map fst es)) /\ (forall k, In k seen -> In k seen')
      /\ (stop' = false -> forall k, In k (map fst es) -> In k seen').
  Proof.
    induction es as [|[k v] es IH]; intros seen l c INV ND NS RD.
    { exists seen, l, c, false. split; [reflexivity|]. split; [assumption|]. split; [auto|]. split; [auto|]. intros _ k []. }
    cbn [stream]. unfold F at 1. destruct (RD k v (or_introl eq_refl)) as (cls & r & E & Ef). rewrite E.
    assert (DATA : forall acc cv, (fun acc cv => Some (match f cv with None => (acc, false) | Some s => accept o acc s end)) acc cv
       = Some (match f cv with None => (acc, false) | Some s => accept o acc s end)) by reflexivity.
    destruct (loop_step f o _ DATA c0 seen l c k INV (NS k v (or_introl eq_refl))) as (l1 & c1 & st1 & D & I1).
    cbv beta in D. rewrite Ef in D. injection D as D. rewrite D. inversion_clear ND as [|? ? NI ND'].
    destruct st1.
    - exists (k :: seen), l1, c1, true. split; [reflexivity|]. split; [exact I1|]. split.
      + intros k' [<-|I']; [right; left; reflexivity|auto].
      + split; [right; assumption|]. discriminate.
    - destruct (IH (k :: seen) l1 c1 I1 ND') as (seen' & l' & c' & stop' & V & I' & H1 & H2 & H3).
      + intros k' v' I' [<-|J]; [apply NI; apply (in_map fst _ _ I')|]. exact (NS k' v' (or_intror I') J).
      + intros k' v' I'. apply (RD k' v'). right. exact I'.
      + exists seen', l', c', stop'. split; [exact V|]. split; [exact I'|]. split; [|split].
        * intros k' J. destruct (H1 k' J) as [[<-|J']|J']; [right; left; reflexivity|auto|right; right; exact J'].
        * intros k' J. apply H2. right. exact J.
        * intros Hs k' [<-|J]; [apply H2; left; reflexivity|auto].
  Qed.
End Scoped.

Lemma prefix_of_fold : forall p fqn, has_prefix (p ++ [BSL]) (GetClassFQNLowerCase fqn) = has_prefix (p ++ [BSL]) fqn.
Proof.
  assert (LB : forall a, ~ In BSL a -> ~ In BSL (to_lower a)) by (intros a; apply TOK; auto).
  assert (P : forall p ns a, ~ In BSL a -> has_prefix (p ++ [BSL]) (ns ++ BSL :: a) = has_prefix (p ++ [BSL]) (ns ++ [BSL])).
  { intros p ns a N. revert ns. induction p as [|b p IH]; intros [|c ns]; cbn [app has_prefix].
    - rewrite byte_eqb_refl. reflexivity.
    - destruct (byte_eqb BSL c); reflexivity.
    - destruct (byte_eqb b BSL); [|reflexivity]. cbn [andb]. destruct p as [|d p]; cbn [app has_prefix].
      + destruct a as [|x a]; [reflexivity|]. destruct (byte_eqb BSL x) eqn:Ex; [|reflexivity]. apply byte_eqb_eq in Ex. subst. exfalso. apply N. left. reflexivity.
      + destruct a as [|x a]; [reflexivity|]. destruct (byte_eqb d x) eqn:Ex; [|reflexivity]. cbn [andb].
        destruct (has_prefix (p ++ [BSL]) a) eqn:HP; [|reflexivity]. exfalso. apply has_prefix_spec in HP as [t ->]. apply N.
        right. apply in_or_app. left. apply in_or_app. right. left. reflexivity.
    - destruct (byte_eqb b c); [|reflexivity]. cbn [andb]. apply IH. }
  intros p fqn. destruct (in_dec Byte.byte_eq_dec BSL fqn) as [I|N].
  - apply last_split in I as (ns & a & -> & Na). rewrite fold_name_split by assumption. rewrite (P p ns (to_lower a)), (P p ns a) by auto. reflexivity.
  - unfold GetClassFQNLowerCase. apply last_index_byte_none in N. now rewrite N.
Qed.

Lemma ends_bsl : forall scope : gostr, scope <> [] ->
  (str_eqb (skipn (length scope - 1) scope) [BSL] = true <-> exists p, scope = p ++ [BSL]).
Proof.
  intros scope N. destruct (exists_last N) as (p & c & ->). rewrite app_length. cbn [length].
  replace (length p + 1 - 1)%nat with (length p) by lia. rewrite skipn_app, skipn_all, Nat.sub_diag. cbn [app skipn].
  split.
  - intros E. apply str_eqb_eq in E. injection E as ->. eauto.
  - intros [p' E]. apply app_inj_tail in E as [_ ->]. apply str_eqb_refl.
Qed.

Lemma below_iff : forall scope c, scope <> [] -> ~ In NUL scope ->
  let scope' := if str_eqb (skipn (length scope - 1) scope) [BSL] then scope else scope ++ [BSL] in
  (has_prefix (newEntry classCollection scope') (symbol_key (SClass c)) = true <-> below scope (ts_fqn (c_name c))).
Proof.
  intros scope c NE NN scope'.
  assert (exists p, scope' = p ++ [BSL] /\ ((exists q, scope = q ++ [BSL]) /\ scope' = scope \/ ~ (exists q, scope = q ++ [BSL]) /\ scope' = scope ++ [BSL]))
    as (p & Ep & D).
  { unfold scope'. destruct (str_eqb (skipn (length scope - 1) scope) [BSL]) eqn:E.
    - apply ends_bsl in E as [p E]; [|assumption]. exists p. split; [assumption|]. left. eauto.
    - exists scope. split; [reflexivity|]. right. split; [|reflexivity]. intros H. apply ends_bsl in H; [|assumption]. congruence. }
  assert (NN' : ~ In NUL scope').
  { destruct D as [[_ ->]|[_ ->]]; [assumption|]. intros I. apply in_app_or in I as [I|[I|[]]]; [auto|discriminate]. }
  unfold symbol_key. cbn [GetKey GetCollection]. unfold newEntry. rewrite !has_prefix_app_l.
  assert (PW : has_prefix scope' (GetClassFQNLowerCase (ts_fqn (c_name c)) ++ KeySep ++ l_uri (c_location c)) = true
     <-> has_prefix scope' (ts_fqn (c_name c)) = true).
  { rewrite Ep at 2. rewrite <- prefix_of_fold, <- Ep. split.
    - intros H. eapply prefix_word; eauto.
    - intros H. apply has_prefix_spec in H as [u ->]. rewrite <- app_assoc. apply has_prefix_app. }
  rewrite PW, has_prefix_spec. unfold below. destruct D as [[Q ->]|[Q ->]].
  - split.
    + intros [t E]. exists t. right. auto.
    + intros [t [E|[_ E]]]; [exists (BSL :: t)|exists t]; exact E.
  - split.
    + intros [t E]. exists t. left. rewrite E, <- app_assoc. reflexivity.
    + intros [t [E|[Q' _]]]; [|contradiction]. exists t. rewrite E, <- app_assoc. reflexivity.
Qed.

Lemma contains_iff : forall s sub, contains s sub = true <-> substring sub s.
Proof.
  induction s as [|b s IH]; intros sub; cbn [contains].
  - rewrite orb_false_r. split.
    + intros H. apply has_prefix_spec in H as [t E]. exists [], t. exact E.
    + intros (a & c & E). destruct a; [|discriminate]. destruct sub; [reflexivity|discriminate].
  - rewrite orb_true_iff, IH. split.
    + intros [H|(a & c & ->)].
      * apply has_prefix_spec in H as [t E]. exists [], t. exact E.
      * exists (b :: a), c. reflexivity.
    + intros ([|b' a] & c & E).
      * left. apply has_prefix_spec. exists c. exact E.
      * right. injection E as -> ->. exists a, c. reflexivity.
Qed.

Lemma scoped_classes_spec : forall root h st scope w o count, Forall event_ok h -> run root h = Some st ->
  scope <> [] -> ~ In NUL scope ->
  let o' := match w with [] => o | _ => WithPredicate o (fun s => match s with SClass c => contains (ts_original (c_name c)) w | _ => false end) end in
  let hit s := substring w (simple_name s) /\ below scope (match s with SClass c => ts_fqn (c_name c) | _ => [] end) in
  exists l count', getClassesByScopeStream (fun acc c => accept o' acc (SClass c)) st scope ([], count) = Some (l, count')
    /\ NoDup l
    /\ (forall x, In x l -> exists s, current h s /\ kind_of s = KClass /\ x = keep s /\ satisfies o x /\ hit s)
    /\ ((match so_limit o with None => True | Some n => l = [] \/ (count' < n)%Z end) -> forall s, current h s -> kind_of s = KClass -> hit s -> satisfies o (keep s) -> In (keep s) l)
    /\ (match so_limit o with
        | None => count' = count
        | Some n => (Z.of_nat (length l) <= Z.max 1 (n - count))%Z /\ count' = (count + Z.of_nat (length l))%Z
        end).
Proof.
  intros root h st scope w o count OK RUN SN NN o' hit.
  assert (COLL : forall s, GetCollection s = classCollection <-> exists a, s = SClass a).
  { intros s. split; [destruct s; simpl; try discriminate; eauto|intros [a ->]; reflexivity]. }
  assert (OWN := own_plain TOK h classCollection OK). specialize (OWN ltac:(discriminate) ltac:(discriminate)).
  assert (ENT := db_entry_current TOK _ SClass classCollection COLL root h st OK RUN OWN ltac:(nul_free) ltac:(discriminate) ltac:(discriminate)).
  assert (CUR := current_db_entry TOK _ SClass classCollection COLL root h st OK RUN OWN).
  assert (READ : forall a u, symbol_of_file u (SClass a) -> ReadClass (Serialise (SClass a)) = Some (a, [])).
  { intros a u (H & _). rewrite <- (app_nil_r (Serialise _)). now apply class_roundtrip. }
  assert (ASC := db_ascending _ _ _ RUN).
  assert (BEL := fun c => below_iff scope c SN NN). cbv zeta in BEL.
  unfold getClassesByScopeStream.
  set (scope' := if str_eqb (skipn (length scope - 1) scope) [BSL] then scope else scope ++ [BSL]) in *.
  rewrite ldb_PrefixStream_eq.
  set (es := List.filter (fun e => has_prefix (newEntry classCollection scope') (fst e)) (ldb (s_db st))).
  set (f := fun k => match ldb_Get (s_db st) k with Some v => match ReadClass v with Some (c, _) => Some (SClass c) | None => None end | None => None end).
  assert (ES : forall k v, In (k, v) es <-> ldb_Get (s_db st) k = Some v /\ has_prefix (newEntry classCollection scope') k = true).
  { intros k v. unfold es. rewrite filter_In. cbn [fst]. unfold ldb_Get. rewrite <- (kv_get_in _ _ _ ASC). reflexivity. }
  assert (EC : forall k v, In (k, v) es -> exists c, current h (SClass c) /\ symbol_key (SClass c) = k /\ ReadClass v = Some (c, [])).
  { intros k v I. apply ES in I as [G P]. destruct (ENT _ _ G) as (a & Cu & K & -> & _ & u & SF).
    - apply has_prefix_spec in P as [t ->]. unfold in_coll, newEntry. rewrite <- !app_assoc. eexists. reflexivity.
    - exists a. rewrite (READ a u SF). auto. }
  assert (FK : forall c, current h (SClass c) -> f (symbol_key (SClass c)) = Some (SClass c)).
  { intros c Cu. destruct (CUR c Cu) as (_ & G & u & SF). unfold f. rewrite G, (READ c u SF). reflexivity. }
  destruct (stream_classes f o' count es [] [] count) as (seen & l & c & stop & V & [IL IN IC IM] & S1 & _ & S3).
  { constructor; try reflexivity; [constructor|destruct (so_limit o'); cbn; lia|]. destruct (so_limit o'); [|reflexivity]. cbn. split; [lia|tauto]. }
  { unfold es. assert (NDA := ascending_nodup _ ASC). clear - NDA. induction (ldb (s_db st)) as [|e L IH]; [constructor|]. inversion_clear NDA as [|? ? NI ND].
    cbn [List.filter]. destruct (has_prefix _ _); [|auto]. cbn [map]. constructor; [|auto]. intros I. apply NI. apply in_map_iff in I as (y & <- & I). apply in_map. apply filter_In in I. apply I. }
  { intros k v _ []. }
  { intros k v I. destruct (EC k v I) as (cl & Cu & <- & R). exists cl, []. split; [exact R|]. now apply FK. }
  assert (VO : forall s, kind_of s = KClass -> (satisfies o' s <-> satisfies o s /\ substring w (simple_name s))).
  { intros s K. unfold o'. destruct w as [|b w].
    - split; [intros S; split; [exact S|exists [], (simple_name s); reflexivity]|intros [S _]; exact S].
    - unfold satisfies. cbn [WithPredicate so_predicates]. destruct s; try discriminate K. split.
      + intros S. split; [intros p I; apply S; apply in_or_app; auto|]. apply contains_iff.
        apply (S (fun s => match s with SClass c => contains (ts_original (c_name c)) (b :: w) | _ => false end)). apply in_or_app. right. left. reflexivity.
      + intros [S1' S2'] p I. apply in_app_or in I as [I|[<-|[]]]; [auto|]. apply contains_iff. exact S2'. }
  assert (LO : so_limit o' = so_limit o) by (unfold o'; destruct w; reflexivity).
  exists l, c. split; [exact V|]. split; [|split; [|split]].
  - rewrite IL. apply NoDup_rev in IN.
    assert (SUB : forall k, In k (rev seen) -> exists cl, current h (SClass cl) /\ symbol_key (SClass cl) = k).
    { intros k I. apply in_rev in I. destruct (S1 k I) as [[]|I']. apply in_map_iff in I' as ([k' v] & <- & I'). destruct (EC _ _ I') as (cl & Cu & K & _). eauto. }
    clear - IN SUB FK. induction IN as [|k L NI ND IH]; [constructor|]. cbn [flat_map].
    assert (IH' := IH (fun k I => SUB k (or_intror I))). clear IH.
    unfold accepted at 1. destruct (SUB k (or_introl eq_refl)) as (cl & Cu & <-). rewrite (FK cl Cu).
    destruct (isSymbolValid _ _); [|exact IH']. cbn [app]. constructor; [|exact IH'].
    intros I. apply in_flat_map in I as (k' & I' & Ix). destruct (SUB k' (or_intror I')) as (cl' & Cu' & <-). unfold accepted in Ix. rewrite (FK cl' Cu') in Ix.
    destruct (isSymbolValid _ _); [|destruct Ix]. destruct Ix as [E|[]]. rewrite E in I'. contradiction.
  - intros x I. rewrite IL in I. apply in_flat_map in I as (k & I & Ix). apply in_rev in I.
    destruct (S1 k I) as [[]|I']. apply in_map_iff in I' as ([k' v] & <- & I'). cbn [fst] in *. destruct (EC _ _ I') as (cl & Cu & K & _).
    subst k'. unfold accepted in Ix. rewrite (FK cl Cu) in Ix. destruct (isSymbolValid _ _) eqn:VA; [|destruct Ix]. destruct Ix as [<-|[]].
    apply valid_iff in VA. apply VO in VA as [VA SB]; [|reflexivity]. exists (SClass cl). repeat (split; [auto|]). apply BEL. apply ES in I'. apply I'.
  - intros NL s Cu K [SB BL] SAT. destruct s as [cl|s|s|s|s|s|s|s|s|s]; try discriminate K. assert (SF : stop = false) by (rewrite LO in IM, IC; destruct (so_limit o); [apply (proj2 IM); subst c; exact NL|exact IM]). rewrite IL. apply in_flat_map.
    exists (symbol_key (SClass cl)). split.
    + apply -> in_rev. apply S3; [exact SF|]. destruct (CUR cl Cu) as (_ & G & _).
      apply (in_map fst _ (symbol_key (SClass cl), Serialise (SClass cl))). apply ES. split; [exact G|]. now apply BEL.
    + unfold accepted. rewrite (FK cl Cu). assert (S : satisfies o' (SClass cl)) by (apply VO; auto). apply valid_iff in S. rewrite S. left. reflexivity.
  - rewrite LO in *. destruct (so_limit o); [|exact IC]. destruct IM as [IM _]. auto.
Qed.
End One.
