(** Claims about completion lists and the workspace symbol search. *)
From Coq Require Import String.
From Coq Require Import List Bool NArith ZArith Lia Permutation Sorted.
From Coq.Strings Require Import Byte.
From Verif Require Import Base.Bytes Base.BytesProofs Base.Protocol Base.Decimal Base.DecimalProofs Base.Utf8
  Codec.CodecModel Codec.CodecSpec Codec.SymbolCodecSpec Symbols.Symbols Symbols.KeysModel Words.TokeniserModel Words.TokeniserSpec Words.TokeniserProofs
  Storage.KvModel Storage.KvSpec Storage.KvProofs Store.FilterModel Store.StoreModel Store.StoreSpec Store.StoreProofs Store.LookupKinds
  Store.StoreTheorems Store.SearchModel Store.SearchSpec Store.SearchProofs Store.SearchTheorems Store.NamespaceProofs Store.Examples Types.TypesModel
  Completion.SortModel Completion.SortProofs Completion.CompletionModel Completion.CompletionSpec Completion.CompletionProofs.
Import ListNotations.
Open Scope list_scope.

(** ** C50 ranking *)
(** Members are proposed with a score each; the list shown is [orderItems]. *)
Definition ascending {A} (l : list (A * Z)) : Prop :=
  forall i j x y, (i < j)%nat -> nth_error l i = Some x -> nth_error l j = Some y -> (snd x <= snd y)%Z.

(** Nothing is lost, added or repeated. *)
Theorem C50_same_items : forall A (l : list (A * Z)), Permutation (orderItems l (map snd l)) l.
Proof. intros A l. apply SliceStable_perm. Qed.
Print Assumptions C50_same_items.

(** A list already in order is shown in this order, equal scores included. *)
Theorem C50_in_order_partial : forall A (l : list (A * Z)), ascending l -> orderItems l (map snd l) = l.
Proof.
  intros A l S. apply SliceStable_same. intros i j L. rewrite !nth_error_map.
  destruct (nth_error l j) as [y|] eqn:Ej; [|reflexivity]. destruct (nth_error l i) as [x|] eqn:Ei; [|reflexivity]. cbn [option_map].
  apply Z.ltb_ge. exact (S i j x y L Ei Ej).
Qed.
Print Assumptions C50_in_order_partial.

(** But a list that needs sorting may come out unsorted: the comparison reads
    the scores by position and they do not move with the items.  Here an
    inherited method (score 1) comes before two of the class itself. *)
Theorem C50_ranking_refuted : exists l : list (gostr * Z), ~ ascending (orderItems l (map snd l)).
Proof.
  exists [(B "inherited", 1%Z); (B "first", 0%Z); (B "second", 0%Z)]. intros S.
  assert (H := S 1%nat 2%nat (B "inherited", 1%Z) (B "second", 0%Z) ltac:(lia) eq_refl eq_refl). cbn in H. lia.
Qed.
Print Assumptions C50_ranking_refuted.

Example C50_hypotheses_met : ascending [(B "a", 0%Z); (B "b", 0%Z); (B "c", 2%Z)]
  /\ orderItems [(B "a", 0%Z); (B "c", 2%Z); (B "b", 1%Z)] [0%Z; 2%Z; 1%Z] = [(B "a", 0%Z); (B "b", 1%Z); (B "c", 2%Z)].
Proof.
  split; [|reflexivity]. intros i j x y L Ei Ej. destruct i as [|[|[|i]]]; cbn in Ei; try (destruct i; discriminate Ei); injection Ei as <-;
    destruct j as [|[|[|j]]]; cbn in Ej; try (destruct j; discriminate Ej); injection Ej as <-; cbn; lia.
Qed.

(** ** C64 completion lists *)
(** A completion request never fails; everything proposed is a current
    declaration of a wanted kind that matches what was typed; if fewer than
    1000 declarations are proposed, then the list is not marked incomplete and
    no matching declaration of the workspace is missing. *)
Theorem C64_proposals_partial : forall (T : Text) (X : XorFilter) root h st c word,
  text_ok T -> Forall event_ok h -> run root h = Some st -> clean_names h -> clean_namespaces h ->
  ~ In NUL word -> well_encoded word ->
  exists cl, complete c st word = Some cl
    /\ (forall x, In x (symbols cl) -> exists s q, In q (searches c word) /\ current h s /\ kind_of s = search_kind q /\ shown s x
          /\ (stable_names h -> wanted_at c word s))
    /\ (length (symbols cl) <= 999 + length (searches c word))%nat
    /\ ((length (symbols cl) < 1000)%nat -> cl_incomplete cl = false
          /\ forall s, current h s -> wanted_at c word s -> exists x, In x (symbols cl) /\ shown s x).
Proof.
  intros T X root h st c word TOK OK RUN CL CN NW WE.
  destruct (complete_spec TOK root h st c word OK RUN CL CN NW WE) as (PL & cl & rs & n & E & E' & SY & IC).
  destruct (chain_spec TOK root h st OK RUN CL (searches c word) 0%Z PL) as (rs' & n' & E'' & N & Bd & M & S & C & D).
  rewrite E' in E''. injection E'' as <- <-. exists cl. rewrite SY. split; [exact E|]. split; [|split].
  - intros x I. apply in_flat_map in I as ([[q l] b] & I & J). cbn [fst snd] in J.
    destruct (S q l b I x J) as (s & Cu & K & SH & F). assert (Iq : In q (searches c word)) by (rewrite <- M; apply in_map_iff; exists (q, l, b); auto).
    exists s, q. split; [exact Iq|]. split; [exact Cu|]. split; [exact K|]. split; [exact SH|]. intros ST. exists q. auto.
  - destruct c; cbn [searches length] in *; lia.
  - intros LT. assert (LN : (n < 1000)%Z) by lia. split.
    + rewrite IC. unfold last_flag. assert (A : forall b, In b (map (fun r : search * list symbol * bool => negb (snd r)) rs) -> b = false).
      { intros b I. apply in_map_iff in I as ([[q l] b'] & <- & I). cbn [snd]. destruct (C LN q l b' I) as [-> _]. reflexivity. }
      assert (NE : map (fun r : search * list symbol * bool => negb (snd r)) rs <> []) by (destruct rs; [destruct c; discriminate M|discriminate]).
      destruct (exists_last NE) as (l' & b & EL). rewrite EL in *. rewrite last_last. apply A. apply in_or_app. right. left. reflexivity.
    + intros s Cu (q & Iq & F). assert (Iq' := Iq). rewrite <- M in Iq'. apply in_map_iff in Iq' as ([[q' l] b] & Eq & Ir). cbn [fst] in Eq. subst q'.
      destruct (C LN q l b Ir) as [_ C2]. exists (keep s). split; [|apply keep_shown]. apply in_flat_map. exists (q, l, b). split; [exact Ir|]. exact (C2 s Cu F).
Qed.
Print Assumptions C64_proposals_partial.

(** After "implements", in "use" of traits, and after "new" with an unqualified
    name the mark is right for any number of declarations: a list not marked
    incomplete lacks nothing. *)
Theorem C64_mark_partial : forall (T : Text) (X : XorFilter) root h st c word,
  text_ok T -> Forall event_ok h -> run root h = Some st -> clean_names h -> clean_namespaces h ->
  ~ In NUL word -> well_encoded word ->
  (c = InImplements \/ c = InTraitUse \/ (c = InNew /\ word <> [] /\ ~ In BSL word)) ->
  exists cl, complete c st word = Some cl
    /\ (cl_incomplete cl = false -> forall s, current h s -> wanted_at c word s -> exists x, In x (symbols cl) /\ shown s x).
Proof.
  intros T X root h st c word TOK OK RUN CL CN NW WE ONE.
  destruct (complete_spec TOK root h st c word OK RUN CL CN NW WE) as (PL & cl & rs & n & E & E' & SY & IC).
  destruct (chain_spec TOK root h st OK RUN CL (searches c word) 0%Z PL) as (rs' & n' & E'' & N & Bd & M & S & C & D).
  rewrite E' in E''. injection E'' as <- <-. exists cl. split; [exact E|]. intros IF s Cu (q & Iq & F).
  assert (NQ : ~ qualified_class q).
  { destruct ONE as [->|[->|(-> & N1 & N2)]]; cbn in Iq; destruct Iq as [<-|[]]; cbn; tauto. }
  assert (O : exists l b, rs = [(q, l, b)]).
  { destruct ONE as [->|[->|(-> & N1 & N2)]]; cbn in Iq; destruct Iq as [<-|[]]; cbn [searches] in M;
      (destruct rs as [|[[q' l] b] [|r rs]]; [discriminate M| |destruct r as [[? ?] ?]; discriminate M]); cbn in M; injection M as ->; eauto. }
  destruct O as (l & b & ->). rewrite IC in IF. cbn in IF. destruct (D q l b (or_introl eq_refl)) as [_ D2]. exists (keep s). split; [|apply keep_shown].
  rewrite SY. cbn. rewrite app_nil_r. apply D2; auto. destruct b; [reflexivity|discriminate IF].
Qed.
Print Assumptions C64_mark_partial.

(** In expressions the mark of the last search wins: with more classes than the
    limit the list is cut and yet not marked incomplete, so the editor will not
    ask again. *)
Definition item_uri (i : nat) : gostr := B "file:///w/" ++ Itoa (Z.of_nat i) ++ B ".php".
Definition item_doc (i : nat) : doc := Doc (item_uri i) (B "h") [a_class (item_uri i) "\Item"] [] [].
Definition many_items : list event := map (fun i => EvSync (item_doc i)) (seq 0 1005).

Lemma item_uri_inj : forall i j, item_uri i = item_uri j -> i = j.
Proof. intros i j E. unfold item_uri in E. apply app_inv_head in E. apply app_inv_tail in E. apply Itoa_inj in E. lia. Qed.
Lemma item_uri_small : forall i, In i (seq 0 1005) -> (length (item_uri i) < 40)%nat.
Proof.
  assert (A : forallb (fun i => Nat.ltb (length (item_uri i)) 40) (seq 0 1005) = true) by (vm_compute; reflexivity).
  intros i I. rewrite forallb_forall in A. apply Nat.ltb_lt. exact (A i I).
Qed.
Lemma item_uri_nul : forall i, ~ In NUL (item_uri i).
Proof.
  intros i I. unfold item_uri in I. apply in_app_or in I as [I|I]; [revert I; not_in|]. apply in_app_or in I as [I|I]; [|revert I; not_in].
  apply Itoa_bytes in I as [I|I]; discriminate I.
Qed.
Lemma many_items_ok : Forall event_ok many_items.
Proof.
  apply Forall_forall. intros e I. apply in_map_iff in I as (i & <- & I). apply item_uri_small in I. cbn [event_ok].
  assert (L : go_len (item_uri i)) by (unfold go_len; lia).
  assert (P : forall a b, (0 <= a <= 100)%Z -> (0 <= b <= 100)%Z -> loc_ok (at_line (item_uri i) a b)).
  { intros a b Ha Hb. unfold loc_ok, at_line, pos_ok, int64. cbn. repeat split; try exact L; lia. }
  split; [exact (item_uri_nul i)|]. split; [vm_compute; reflexivity|]. split; [|split; [vm_compute; reflexivity|constructor]].
  constructor; [|constructor]. split; [|split; [reflexivity|split; [ok|split; [exact Logic.I|]]]].
  - unfold item_doc. cbn [symbol_ok a_class]. unfold class_ok. cbn. split; [apply P; lia|]. split; [apply P; lia|]. repeat match goal with |- _ /\ _ => split end; first [apply Forall_nil|exact Logic.I|ok|split; [vm_compute; reflexivity|constructor]].
  - assert (EK : GetKey (a_class (item_uri i) "\Item") = B "\item" ++ NUL :: item_uri i) by reflexivity.
    rewrite EK. unfold go_len. rewrite app_length. cbn [length]. change (length (B "\item")) with 5%nat. lia.
Qed.
Lemma many_items_run : exists st, run root_uri many_items = Some st.
Proof.
  apply (run_total maybe_filter_ok); [exact many_items_ok|]. apply Forall_forall. intros e I. apply in_map_iff in I as (i & <- & _). split; [|intros ns part []].
  intros s coll name [<-|[]] IX. cbn in IX. injection IX as <- <-. intros k r J. vm_compute in J. repeat (destruct J as [J|J]; [injection J as <- <-; discriminate|]); destruct J.
Qed.
Lemma many_items_docs : forall d, In d (synced_docs many_items) -> exists i, In i (seq 0 1005) /\ d = item_doc i.
Proof.
  intros d I. unfold many_items in I. revert I. generalize (seq 0 1005). induction l as [|i l IH]; intros I; [destruct I|].
  cbn in I. destruct I as [<-|I]; [exists i; split; [left|]; reflexivity|]. destruct (IH I) as (j & Ij & E). exists j. split; [right; exact Ij|exact E].
Qed.
Lemma many_items_current : forall i, In i (seq 0 1005) -> current many_items (a_class (item_uri i) "\Item").
Proof.
  intros i I. exists (item_uri i), (item_doc i). split.
  - unfold latest, many_items. assert (G : forall l o, (In i l \/ o = Some (item_doc i)) ->
      fold_left (fun o e => match e with EvSync d => if str_eqb (d_uri d) (item_uri i) then Some d else o | EvDelete u' => if str_eqb u' (item_uri i) then None else o | EvClear => None | _ => o end)
        (map (fun j => EvSync (item_doc j)) l) o = Some (item_doc i)).
    { induction l as [|j l IH]; intros o D; cbn [map fold_left]; [destruct D as [[]|D]; exact D|]. apply IH. cbn [d_uri item_doc].
      destruct (str_eqb (item_uri j) (item_uri i)) eqn:E; [right; apply str_eqb_eq in E; apply item_uri_inj in E; now subst|].
      destruct D as [[<-|D]|D]; [rewrite (proj2 (str_eqb_eq _ _) eq_refl) in E; discriminate|left; exact D|right; exact D]. }
    apply (G (seq 0 1005) None). left. exact I.
  - split; [cbn; exact Logic.I || auto|]. exists [], []. split; [reflexivity|intros s' []].
Qed.
Theorem C64_mark_refuted : exists h st cl,
  Forall event_ok h /\ clean_names h /\ clean_namespaces h /\ stable_names h /\ run root_uri h = Some st
  /\ complete InExpression st (B "item") = Some cl /\ cl_incomplete cl = false
  /\ ~ (forall s, current h s -> wanted_at InExpression (B "item") s -> exists x, In x (symbols cl) /\ shown s x).
Proof.
  destruct many_items_run as [st RUN]. exists many_items, st.
  assert (CL : clean_names many_items).
  { intros d s I J. destruct (many_items_docs d I) as (i & _ & ->). destruct J as [<-|[]]. not_in. }
  assert (CN : clean_namespaces many_items).
  { intros d ns I J. destruct (many_items_docs d I) as (i & _ & ->). destruct J. }
  assert (ST : stable_names many_items).
  { intros d d' s s' I I' _ J J' _. destruct (many_items_docs d I) as (i & _ & ->). destruct (many_items_docs d' I') as (i' & _ & ->). destruct J as [<-|[]], J' as [<-|[]]. reflexivity. }
  assert (NW : ~ In NUL (B "item")) by not_in.
  assert (WE : well_encoded (B "item")).
  { intros i r H. vm_compute in H. repeat (destruct H as [H|H]; [injection H as <- <-; discriminate|]). destruct H. }
  destruct (complete_spec ascii_text_ok root_uri many_items st InExpression (B "item") many_items_ok RUN CL CN NW WE) as (PL & cl & rs & n & E & E' & SY & IC).
  destruct (chain_spec ascii_text_ok root_uri many_items st many_items_ok RUN CL (searches InExpression (B "item")) 0%Z PL) as (rs' & n' & E'' & N & Bd & M & S & C & D).
  rewrite E' in E''. injection E'' as <- <-. exists cl.
  split; [exact many_items_ok|]. split; [exact CL|]. split; [exact CN|]. split; [exact ST|]. split; [exact RUN|]. split; [exact E|].
  assert (ONLY : forall s, current many_items s -> kind_of s = KClass).
  { intros s (u & d & L & _ & b & a & ED & _). apply latest_in in L as [Id _]. destruct (many_items_docs d Id) as (i & _ & ->).
    assert (J : In s (d_symbols (item_doc i))) by (rewrite ED; apply in_or_app; right; left; reflexivity). destruct J as [<-|[]]. reflexivity. }
  split.
  - rewrite IC. destruct rs as [|r1 [|r2 [|r3 [|r4 [|[[q5 l5] c5] [|r6 rs]]]]]]; try discriminate M. cbn [map fst] in M. injection M as _ _ _ _ Eq5.
    assert (I5 : In (q5, l5, c5) [r1; r2; r3; r4; (q5, l5, c5)]) by (cbn; tauto).
    destruct (D _ _ _ I5) as [D1 _]. unfold last_flag. cbn [map last snd]. rewrite D1; [reflexivity|].
    destruct l5 as [|x l5]; [reflexivity|]. exfalso. destruct (S _ _ _ I5 x (or_introl eq_refl)) as (s & Cu & K & _). rewrite Eq5, (ONLY s Cu) in K. discriminate K.
  - intros ALL. assert (LE : (length (symbols cl) <= 1004)%nat) by (rewrite SY; cbn [searches length] in *; lia).
    assert (ND : NoDup (map item_uri (seq 0 1005))).
    { apply FinFun.Injective_map_NoDup; [intros i j; apply item_uri_inj|apply seq_NoDup]. }
    assert (INC : incl (map item_uri (seq 0 1005)) (map symbol_uri (symbols cl))).
    { intros u I. apply in_map_iff in I as (i & <- & I). destruct (ALL _ (many_items_current i I)) as (x & Ix & SH).
      - exists (FindClasses (B "item")). split; [left; reflexivity|]. split; [reflexivity|]. exists [], (B "item"). split; [left; split; [not_in|split; [discriminate|split; reflexivity]]|].
        left. split; [reflexivity|]. exists (B "item"), (B "Item").
        split; [|split; [|reflexivity]]; (eexists; split; [vm_compute; reflexivity|]); cbn; tauto.
      - cbn in SH. subst x. apply in_map_iff. eexists. split; [|exact Ix]. reflexivity. }
    apply NoDup_incl_length in INC; [|exact ND]. rewrite !map_length, seq_length in INC. lia.
Qed.
Print Assumptions C64_mark_refuted.

Lemma small_namespaces : clean_namespaces [EvSync doc_a; EvSync doc_b].
Proof.
  intros d ns I J. assert (E : ns = B "\App") by (destruct I as [<-|[<-|[]]]; destruct J as [<-|[]]; reflexivity). subst ns.
  exists [B "App"]. split; [split; [|right; reflexivity]|].
  - intros p [<-|[]]. split; [discriminate|]. split; not_in.
  - intros i L. cbn in L. destruct i; [vm_compute; reflexivity|lia].
Qed.
Lemma small_ok : Forall event_ok [EvSync doc_a; EvSync doc_b].
Proof. constructor; [exact doc_a_ok|]. constructor; [exact doc_b_ok|constructor]. Qed.
Lemma small_clean : clean_names [EvSync doc_a; EvSync doc_b].
Proof.
  intros d s I J. destruct I as [<-|[<-|[]]]; cbn in J; repeat (destruct J as [<-|J]; [not_in|]); destruct J.
Qed.
Lemma sh_encoded : ~ In NUL (B "sh") /\ well_encoded (B "sh").
Proof.
  split; [not_in|]. intros i r H. vm_compute in H. repeat (destruct H as [H|H]; [injection H as <- <-; discriminate|]). destruct H.
Qed.
Example C64_hypotheses_met : Forall event_ok [EvSync doc_a; EvSync doc_b] /\ clean_names [EvSync doc_a; EvSync doc_b] /\ clean_namespaces [EvSync doc_a; EvSync doc_b]
  /\ exists st, run root_uri [EvSync doc_a; EvSync doc_b] = Some st
     /\ complete InExpression st (B "sh") = Some (CompletionList [PSymbol (a_class uri_a "\App\Shop")] false)
     /\ complete InNew st (B "sh") = Some (CompletionList [PSymbol (a_class uri_a "\App\Shop")] false).
Proof.
  split; [exact small_ok|]. split; [exact small_clean|]. split; [exact small_namespaces|]. eexists. split; [vm_compute; reflexivity|]. split; vm_compute; reflexivity.
Qed.

(** ** C65 workspace symbols *)
(** An empty query finds nothing.  Any other query answers, for all folders of
    the workspace, with entries of current declarations that match it; if there
    are fewer than 1000 entries none is missing.  (Class constants and
    properties need the exceptions of C08 and C09, see [folder].) *)
Theorem C65_workspace_symbols_partial : forall (T : Text) (X : XorFilter) (folders : list (gostr * list event * store)) word,
  text_ok T -> Forall folder folders -> ~ In NUL word -> well_encoded word ->
  exists infos, workspaceSymbol (map snd folders) word = Some infos
    /\ (word = [] -> infos = [])
    /\ (length infos <= 999 + 9 * length folders)%nat
    /\ (forall i, In i infos -> exists root h st q s, In (root, h, st) folders /\ In q (workspace_searches word)
          /\ current h s /\ kind_of s = search_kind q /\ entry_of s i /\ (stable_names h -> found_by q s))
    /\ (word <> [] -> (length infos < 1000)%nat ->
        forall root h st q s, In (root, h, st) folders -> In q (workspace_searches word) -> current h s -> found_by q s ->
          exists i, In i infos /\ entry_of s i).
Proof.
  intros T X folders word TOK FO NW WE. destruct word as [|b word].
  { exists []. split; [reflexivity|]. split; [reflexivity|]. split; [cbn; lia|]. split; [intros i []|congruence]. }
  destruct (workspace_fold TOK (b :: word) ltac:(discriminate) NW WE folders FO [] 0%Z) as (new & n & E & N & Bd & S & C).
  exists new. split; [unfold workspaceSymbol; change (map snd folders) with (map store_of folders); rewrite E; reflexivity|].
  split; [discriminate|]. split; [lia|]. split.
  - intros i I. destruct (S i I) as ([[root h] st] & q & s & R). exists root, h, st, q, s. exact R.
  - intros _ LT root h st q s If Iq Cu F. exact (C ltac:(lia) (root, h, st) q s If Iq Cu F).
Qed.
Print Assumptions C65_workspace_symbols_partial.

Example C65_hypotheses_met : exists st, folder (root_uri, [EvSync doc_a; EvSync doc_b], st)
  /\ workspaceSymbol [st] (B "se") = Some
       [SymbolInformation IMethod (B "sell") (at_line uri_b 3 5) (B "\App\Customer"); SymbolInformation IMethod (B "sell") (at_line uri_a 3 5) (B "\App\Shop")].
Proof.
  eexists. split; [split; [exact small_ok|split; [vm_compute; reflexivity|split; [exact small_clean|split]]]|].
  - intros d I. destruct I as [<-|[<-|[]]]; split; try discriminate; intros (p & b & E & D); 
      apply (f_equal (@rev byte)) in E; rewrite rev_app_distr in E; vm_compute in E; injection E as E _; subst b; discriminate D.
  - intros d1 d2 c1 c2 I1 I2 J1 J2 E1 E2. destruct I1 as [<-|[<-|[]]], I2 as [<-|[<-|[]]]; try reflexivity; exfalso; cbn in J1, J2;
      repeat (destruct J1 as [J1|J1]; [try discriminate J1|]); try contradiction; repeat (destruct J2 as [J2|J2]; [try discriminate J2|]); try contradiction;
      injection J1 as <-; injection J2 as <-; discriminate E1.
  - vm_compute; reflexivity.
Qed.

(** ** C66 completing namespaces *)
(** The typed word is [before ++ segment], the segment after the last
    backslash; accepting a proposal puts its text in the place of the segment.
    The result names the proposed namespace (with or without the leading
    backslash), if what was typed is the beginning of it. *)
Definition absolute (name : gostr) : gostr := BSL :: trim_prefix name [BSL].
Definition typed_as (word before segment : gostr) : Prop :=
  word = before ++ segment /\ ~ In BSL segment /\ (before = [] \/ exists p, before = p ++ [BSL]).
Theorem C66_namespace_completion_partial : forall (T : Text) (X : XorFilter) c st word before segment cl label ins,
  complete c st word = Some cl -> In (PNamespace label ins) (cl_items cl) ->
  typed_as word before segment -> word <> [] -> label <> [] ->
  has_prefix (absolute word) (absolute label) = true ->
  absolute (before ++ ins) = absolute label.
Proof.
  intros T X c st word before segment cl label ins E I (W & NS & BF) NE NL P. rewrite (complete_diffs c st word cl label ins E I).
  unfold namespaceDiff. rewrite (normalise_absolute word NE), (normalise_absolute label NL). fold (absolute word) (absolute label). cbv zeta. rewrite P.
  apply has_prefix_spec in P as [t P]. rewrite P. rewrite firstn_app, Nat.sub_diag, firstn_all. cbn [firstn]. rewrite app_nil_r.
  assert (AI : forall x, absolute (BSL :: x) = BSL :: x) by reflexivity.
  assert (L0 : forall x, ~ In BSL x -> last_index_byte (BSL :: x) BSL = Some 0%nat) by (intros x H; exact (last_index_byte_app [] BSL x H)).
  destruct BF as [->|[p ->]].
  - cbn [app] in *. subst segment. assert (EA : absolute word = BSL :: word).
    { unfold absolute, trim_prefix. destruct word as [|b w]; [congruence|]. cbn [has_prefix]. destruct (byte_eqb BSL b) eqn:B1; [|reflexivity]. apply byte_eqb_eq in B1. subst b. exfalso. apply NS. left. reflexivity. }
    rewrite EA. rewrite (L0 word NS). cbn [length Nat.add skipn app]. unfold absolute, trim_prefix.
    destruct word as [|b w]; [congruence|]. cbn [app has_prefix]. destruct (byte_eqb BSL b) eqn:B1; [|reflexivity]. apply byte_eqb_eq in B1. subst b. exfalso. apply NS. left. reflexivity.
  - subst word. destruct p as [|b p].
    + cbn [app] in *. rewrite (AI segment). rewrite (L0 segment NS). cbn [length Nat.add skipn app]. rewrite AI. reflexivity.
    + destruct (byte_eqb_spec b BSL) as [->|NB].
      * assert (EA : absolute (((BSL :: p) ++ [BSL]) ++ segment) = (BSL :: p) ++ BSL :: segment) by (rewrite <- app_assoc; cbn [app]; apply AI).
        rewrite EA, (last_index_byte_app _ BSL segment NS). replace (((BSL :: p) ++ BSL :: segment) ++ t) with (((BSL :: p) ++ [BSL]) ++ segment ++ t) by (rewrite <- !app_assoc; reflexivity).
        rewrite skipn_app, skipn_all2 by (rewrite app_length; cbn; lia). replace (length (BSL :: p) + 1 - length ((BSL :: p) ++ [BSL])) with 0 by (rewrite app_length; cbn; lia).
        cbn [skipn app]. rewrite AI. reflexivity.
      * assert (EB : forall x, absolute (b :: x) = BSL :: b :: x).
        { intros x. unfold absolute, trim_prefix. cbn [has_prefix]. rewrite byte_eqb_sym. apply byte_eqb_neq in NB. rewrite NB. reflexivity. }
        assert (EA : absolute (((b :: p) ++ [BSL]) ++ segment) = (BSL :: b :: p) ++ BSL :: segment) by (rewrite <- app_assoc; cbn [app]; apply EB).
        rewrite EA, (last_index_byte_app _ BSL segment NS). replace (((BSL :: b :: p) ++ BSL :: segment) ++ t) with (((BSL :: b :: p) ++ [BSL]) ++ segment ++ t) by (rewrite <- !app_assoc; reflexivity).
        rewrite skipn_app, skipn_all2 by (rewrite app_length; cbn; lia). replace (length (BSL :: b :: p) + 1 - length ((BSL :: b :: p) ++ [BSL])) with 0 by (rewrite app_length; cbn; lia).
        cbn [skipn app]. rewrite EB. reflexivity.
Qed.
Print Assumptions C66_namespace_completion_partial.

(** Matching ignores case but this does not: what was typed in another case
    stays in front of the whole name. *)
Theorem C66_other_case_refuted : exists h st cl label ins, Forall event_ok h /\ run root_uri h = Some st
  /\ complete InExpression st (B "\ap") = Some cl /\ In (PNamespace label ins) (cl_items cl)
  /\ typed_as (B "\ap") (B "\") (B "ap") /\ label = B "\App" /\ absolute (B "\" ++ ins) = B "\\App".
Proof.
  exists [EvSync doc_a; EvSync doc_b]. do 2 eexists. exists (B "\App"), (B "\App"). split; [exact small_ok|]. split; [vm_compute; reflexivity|]. split; [vm_compute; reflexivity|].
  split; [vm_compute; repeat first [left; reflexivity|right]|]. split; [split; [reflexivity|split; [not_in|right; exists []; reflexivity]]|]. split; reflexivity.
Qed.
Print Assumptions C66_other_case_refuted.

Example C66_hypotheses_met : exists st cl, run root_uri [EvSync doc_a; EvSync doc_b] = Some st /\ complete InType st (B "\Ap") = Some cl
  /\ In (PNamespace (B "\App") (B "App")) (cl_items cl) /\ has_prefix (absolute (B "\Ap")) (absolute (B "\App")) = true.
Proof. do 2 eexists. split; [vm_compute; reflexivity|]. split; [vm_compute; reflexivity|]. split; [vm_compute; repeat first [left; reflexivity|right]|reflexivity]. Qed.
