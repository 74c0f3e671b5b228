(** Claims about searching the index. *)
From Coq Require Import String.
From Coq Require Import List Bool NArith ZArith Lia.
From Coq.Strings Require Import Byte.
From Verif Require Import Base.Bytes Base.BytesProofs Base.Protocol Base.Decimal
  Codec.CodecModel Codec.CodecSpec Symbols.Symbols Symbols.KeysModel Words.TokeniserModel Words.TokeniserSpec Words.TokeniserProofs
  Storage.KvModel Storage.KvSpec Storage.KvProofs Store.FilterModel Store.StoreModel Store.StoreSpec Store.StoreProofs Store.LookupKinds
  Store.StoreTheorems Store.SearchModel Store.SearchSpec Store.SearchProofs Store.SearchTheorems Store.Examples.
Import ListNotations.
Open Scope list_scope.

(** ** C15 no stale completions *)
(** Every search result shows a declaration of the latest indexed content of a
    file.  Class constants need that no two files declare the same constant,
    properties that no URI ends in a digit (see C08, C09). *)
Theorem C15_search_results_current_partial : forall (T : Text) (X : XorFilter) root h st q o count l complete count',
  text_ok T -> Forall event_ok h -> run root h = Some st -> clean_names h -> covered_search h q ->
  (forall t, In t (search_texts q) -> ~ In NUL t /\ well_encoded t) ->
  do_search st q o count = Some (l, complete, count') ->
  NoDup l /\ forall x, In x l -> exists s, current h s /\ kind_of s = search_kind q /\ shown s x.
Proof.
  intros T X root h st q o count l complete count' TOK OK R CL CV TX E.
  destruct (search_answers TOK root h st q o count OK R CL CV TX) as (r & E' & A). rewrite E in E'. injection E' as <-.
  destruct A as (ND & S & _). split; [exact ND|]. intros x I. destruct (S x I) as (s & H1 & H2 & H3 & _). eauto.
Qed.
Print Assumptions C15_search_results_current_partial.

(** Namespaces of deleted files are still proposed. *)
Theorem C15_namespaces_refuted : exists h st l,
  Forall event_ok h /\ run root_uri h = Some st
  /\ (forall s, ~ current h s) /\ SearchNamespaces st (B "\Ap") = Some (l, true) /\ In (B "\App") l.
Proof.
  exists [EvSync doc_a; EvDelete uri_a]. eexists. eexists.
  split; [constructor; [exact doc_a_ok|constructor; [cbn [event_ok]; not_in|constructor]]|]. split; [vm_compute; reflexivity|].
  split; [|split; [vm_compute; reflexivity|left; reflexivity]].
  intros s (u & d & L & _). unfold latest in L. cbn [fold_left d_uri doc_a] in L. destruct (str_eqb uri_a u); discriminate.
Qed.
Print Assumptions C15_namespaces_refuted.

(** ** C18 limits and completeness flags *)
(** With a fresh limit of n >= 1 a search returns at most n results, and all
    results satisfy all predicates.  Left out: listing all constants or
    properties of a class by the empty keyword. *)
Theorem C18_limits_partial : forall (T : Text) (X : XorFilter) root h st q o n,
  text_ok T -> Forall event_ok h -> run root h = Some st -> clean_names h -> covered_search h q ->
  (forall t, In t (search_texts q) -> ~ In NUL t /\ well_encoded t) ->
  ~ lists_all q -> (1 <= n)%Z ->
  exists l complete count', do_search st q (WithLimit o n) 0 = Some (l, complete, count')
    /\ (Z.of_nat (length l) <= n)%Z
    /\ forall x p, In x l -> In p (so_predicates o) -> p x = true.
Proof.
  intros T X root h st q o n TOK OK R CL CV TX NL N.
  destruct (search_answers TOK root h st q (WithLimit o n) 0%Z OK R CL CV TX) as ([[l complete] count'] & E & _ & _ & P & _ & L).
  exists l, complete, count'. split; [exact E|]. specialize (L NL). cbn in L. split; [lia|].
  intros x p I Ip. exact (P NL x I p Ip).
Qed.
Print Assumptions C18_limits_partial.

(** A search that reports to be complete returned all matching symbols that
    satisfy the predicates; without a limit it is complete (except the empty
    method search, see below).  With a limit it is complete exactly when it
    found nothing or the limit is not reached.  Left out: qualified class
    searches that reach the limit. *)
Theorem C18_complete_partial : forall (T : Text) (X : XorFilter) root h st q o count,
  text_ok T -> Forall event_ok h -> run root h = Some st -> clean_names h -> covered_search h q ->
  (forall t, In t (search_texts q) -> ~ In NUL t /\ well_encoded t) ->
  exists l complete count', do_search st q o count = Some (l, complete, count')
    /\ (complete = true -> (qualified_class q -> forall n, so_limit o = Some n -> (count' < n)%Z) ->
          forall s, current h s -> found_by q s ->
          (forall x p, shown s x -> In p (so_predicates o) -> p x = true) -> exists x, In x l /\ shown s x)
    /\ (so_limit o = None -> ~ lists_all q -> (forall c, q <> FindMethods c []) -> complete = true)
    /\ (forall n, so_limit o = Some n -> ~ lists_all q -> (forall c, q <> FindMethods c []) -> ~ qualified_class q ->
          (complete = true <-> l = [] \/ (count + Z.of_nat (length l) < n)%Z)).
Proof.
  intros T X root h st q o count TOK OK R CL CV TX.
  destruct (search_answers TOK root h st q o count OK R CL CV TX) as ([[l complete] count'] & E & _ & _ & _ & C & L).
  exists l, complete, count'. split; [exact E|]. split; [|split].
  - intros CT QC s Cu F P. exists (keep s). split; [|apply keep_shown]. apply C; auto.
    + intros Q. destruct (so_limit o); [right; auto|exact I].
    + right. intros p J. apply P; [apply keep_shown|exact J].
  - intros NL NA NM. specialize (L NA). rewrite NL in L. apply L. exact NM.
  - intros n NL NA NM NQ. specialize (L NA). rewrite NL in L. destruct L as (_ & -> & L & _). exact (L NM NQ).
Qed.
Print Assumptions C18_complete_partial.

(** And every result matches the search, provided names were not indexed under
    another spelling before. *)
Theorem C18_results_match_partial : forall (T : Text) (X : XorFilter) root h st q o count l complete count',
  text_ok T -> Forall event_ok h -> run root h = Some st -> clean_names h -> covered_search h q ->
  (forall t, In t (search_texts q) -> ~ In NUL t /\ well_encoded t) -> stable_names h ->
  do_search st q o count = Some (l, complete, count') ->
  forall x, In x l -> exists s, current h s /\ shown s x /\ found_by q s.
Proof.
  intros T X root h st q o count l complete count' TOK OK R CL CV TX ST E.
  destruct (search_answers TOK root h st q o count OK R CL CV TX) as (r & E' & A). rewrite E in E'. injection E' as <-.
  destruct A as (_ & S & _). intros x I. destruct (S x I) as (s & H1 & _ & H3 & H4). exists s. auto.
Qed.
Print Assumptions C18_results_match_partial.

Definition two_classes : doc := Doc uri_a (B "1") [a_class uri_a "\App\Shop"; a_class uri_a "\App\Show"] [] [].
Lemma two_classes_ok : doc_ok two_classes. Proof. unfold two_classes. ok. Qed.
(** A qualified class search says it is complete although the limit cut it. *)
Theorem C18_qualified_classes_refuted : exists h st x y,
  Forall event_ok h /\ run root_uri h = Some st
  /\ do_search st (FindClasses (B "\App\Sho")) (WithLimit NewSearchOptions 1) 0 = Some ([x], true, 1%Z)
  /\ do_search st (FindClasses (B "\App\Sho")) (WithLimit NewSearchOptions 2) 0 = Some ([x; y], true, 2%Z).
Proof.
  exists [EvSync two_classes]. do 3 eexists. split; [constructor; [exact two_classes_ok|constructor]|].
  split; [vm_compute; reflexivity|]. split; vm_compute; reflexivity.
Qed.
Print Assumptions C18_qualified_classes_refuted.

(** The empty keyword lists the constants of a class without regard to the
    limit and the predicates. *)
Definition two_constants : doc := Doc uri_a (B "1") [a_constant uri_a "\A" "ONE" "1"; a_constant uri_a "\A" "TWO" "2"] [] [].
Lemma two_constants_ok : doc_ok two_constants. Proof. unfold two_constants. ok. Qed.
Theorem C18_listing_constants_refuted : exists h st o l count,
  Forall event_ok h /\ run root_uri h = Some st /\ so_limit o = Some 1%Z /\ (forall x, ~ satisfies o x)
  /\ do_search st (FindClassConsts (B "\A") []) o 0 = Some (l, true, count) /\ length l = 2%nat.
Proof.
  exists [EvSync two_constants]. eexists. exists (WithLimit (WithPredicate NewSearchOptions (fun _ => false)) 1). do 2 eexists.
  split; [constructor; [exact two_constants_ok|constructor]|].
  split; [vm_compute; reflexivity|]. split; [reflexivity|].
  split; [intros x S; specialize (S (fun _ => false) (or_introl eq_refl)); discriminate|].
  split; [vm_compute; reflexivity|reflexivity].
Qed.
Print Assumptions C18_listing_constants_refuted.

(** With limit 0 a search returns one result. *)
Theorem C18_limit_zero_refuted : exists h st x,
  Forall event_ok h /\ run root_uri h = Some st
  /\ do_search st (FindClasses (B "Sho")) (WithLimit NewSearchOptions 0) 0 = Some ([x], false, 1%Z).
Proof.
  exists [EvSync two_classes]. do 2 eexists. split; [constructor; [exact two_classes_ok|constructor]|].
  split; [vm_compute; reflexivity|]. vm_compute; reflexivity.
Qed.
Print Assumptions C18_limit_zero_refuted.

(** A symbol whose spelling changed is still found by words of the old one. *)
Definition camel : doc := Doc uri_a (B "1") [a_class uri_a "\myShop"] [] [].
Definition lower : doc := Doc uri_a (B "2") [a_class uri_a "\myshop"] [] [].
Theorem C18_old_spelling_refuted : exists h st x,
  Forall event_ok h /\ run root_uri h = Some st
  /\ do_search st (FindClasses (B "Shop")) NewSearchOptions 0 = Some ([x], true, 0%Z)
  /\ simple_name x = B "\myshop" /\ ~ matches (B "Shop") (B "\myshop").
Proof.
  exists [EvSync camel; EvSync lower]. do 2 eexists.
  split; [constructor; [unfold camel; cbn [event_ok]; ok|constructor; [unfold lower; cbn [event_ok]; ok|constructor]]|].
  split; [vm_compute; reflexivity|]. split; [vm_compute; reflexivity|]. split; [vm_compute; reflexivity|].
  intros (w & t & (ws & W & Iw) & (ts & Tt & It) & P). vm_compute in W, Tt. injection W as <-. injection Tt as <-.
  repeat (destruct Iw as [Iw|Iw]; [subst w; repeat (destruct It as [It|It]; [subst t; vm_compute in P; discriminate|]); destruct It|]). destruct Iw.
Qed.
Print Assumptions C18_old_spelling_refuted.

Lemma example_clean : clean_names example.
Proof.
  intros d s I J. cbn in I. destruct I as [<-|[<-|[<-|[]]]]; cbn in J;
    repeat (destruct J as [<-|J]; [not_in|]); destruct J.
Qed.
Lemma example_stable : stable_names example.
Proof.
  intros d d' s s' I I' U J J' E. cbn in I, I'.
  destruct I as [<-|[<-|[<-|[]]]], I' as [<-|[<-|[<-|[]]]]; try discriminate U; cbn in J, J';
    repeat (destruct J as [<-|J]; [repeat (destruct J' as [<-|J']; [first [reflexivity|contradiction E|
      exfalso; destruct E as [E E2]; first [vm_compute in E; discriminate E|vm_compute in E2; discriminate E2|destruct E2 as [E2 _]; vm_compute in E2; discriminate E2]|
      exfalso; vm_compute in E; destruct E as [E|(ns & a & b & _ & _ & _ & E1 & E2)]; discriminate E]|]); destruct J'|]); destruct J.
Qed.
Lemma shop_well_encoded : forall t, In t (search_texts (FindClasses (B "sho"))) -> ~ In NUL t /\ well_encoded t.
Proof.
  intros t [<-|[]]. split; [not_in|]. intros i r H. vm_compute in H. repeat (destruct H as [H|H]; [injection H as <- <-; discriminate|]). destruct H.
Qed.
Example C18_hypotheses_met :
  clean_names example /\ covered_search example (FindClasses (B "sho")) /\ stable_names example
  /\ (forall t, In t (search_texts (FindClasses (B "sho"))) -> ~ In NUL t /\ well_encoded t)
  /\ ~ qualified_class (FindClasses (B "sho")) /\ ~ lists_all (FindClasses (B "sho"))
  /\ exists st x, run root_uri example = Some st /\ do_search st (FindClasses (B "sho")) (WithLimit NewSearchOptions 5) 0 = Some ([x], true, 1%Z).
Proof.
  split; [exact example_clean|]. split; [exact I|]. split; [exact example_stable|]. split; [exact shop_well_encoded|].
  split; [intros [H|H]; [discriminate|revert H; not_in]|]. split; [intros []|].
  do 2 eexists. split; [vm_compute; reflexivity|]. vm_compute; reflexivity.
Qed.

Example C15_hypotheses_met :
  Forall event_ok example /\ clean_names example /\ covered_search example (FindClasses (B "sho"))
  /\ exists st x, run root_uri example = Some st /\ do_search st (FindClasses (B "sho")) NewSearchOptions 0 = Some ([x], true, 0%Z).
Proof.
  split; [exact example_ok|]. split; [exact example_clean|]. split; [exact I|]. do 2 eexists. split; [vm_compute; reflexivity|]. vm_compute; reflexivity.
Qed.

(** ** C21 found by a prefix of the name or of a word *)
Theorem C21_found_by_prefix_partial : forall (T : Text) (X : XorFilter) root h st q s t,
  text_ok T -> lowers_ascii T -> Forall event_ok h -> run root h = Some st -> clean_names h -> covered_search h q ->
  (forall t, In t (search_texts q) -> ~ In NUL t /\ well_encoded t) ->
  current h s -> kind_of s = search_kind q -> in_scope (searched_class q) s ->
  well_encoded (simple_name s) -> name_or_word (simple_name s) t ->
  keyword q <> [] -> ~ In BSL (keyword q) -> has_prefix (to_lower (keyword q)) (to_lower t) = true ->
  exists l count x, do_search st q NewSearchOptions 0 = Some (l, true, count) /\ In x l /\ shown s x.
Proof.
  intros T X root h st q s t TOK LA OK R CL CV TX Cu K SC WE NW NE NB P.
  destruct (search_answers TOK root h st q NewSearchOptions 0%Z OK R CL CV TX) as ([[l complete] count'] & E & _ & _ & _ & C & L).
  assert (NQ : ~ qualified_class q).
  { destruct q as [k|k|k|k|k|k|c k|c k|c k]; cbn [qualified_class keyword] in *; try (intros []; fail). intros [H|H]; contradiction. }
  assert (NA : ~ lists_all q).
  { destruct q as [k|k|k|k|k|k|c k|c k|c k]; cbn [lists_all keyword] in *; try (intros []; fail); destruct k; try (intros []; fail); congruence. }
  assert (CT : complete = true).
  { destruct (L NA) as [_ L']. apply L'. intros c ->. apply NE. reflexivity. }
  subst complete. exists l, count', (keep s). split; [exact E|]. split; [|apply keep_shown].
  assert (M : matches (keyword q) (simple_name s)).
  { assert (KT : token (keyword q) (keyword q)).
    { assert (WK : well_encoded (keyword q)) by (destruct q; apply TX; cbn; auto).
      destruct (Tokenise_ok is_upper is_digit _ WK) as (toks & Et & _). exists toks. split; [exact Et|].
      apply Tokenise_sound in Et as ((rest & ->) & _). left. reflexivity. }
    assert (NT : token (simple_name s) (simple_name s)).
    { destruct (Tokenise_ok is_upper is_digit _ WE) as (toks & Et & _). exists toks. split; [exact Et|].
      apply Tokenise_sound in Et as ((rest & ->) & _). left. reflexivity. }
    destruct NW as [->|(AS & a & b & W & LE & ->)].
    - exists (keyword q), (simple_name s). auto.
    - destruct (Nat.eq_dec a 0) as [->|NZ].
      + exists (keyword q), (simple_name s). split; [exact KT|]. split; [exact NT|].
        unfold slice in P. cbn [skipn] in P. rewrite Nat.sub_0_r in P.
        assert (SP : to_lower (simple_name s) = to_lower (firstn b (simple_name s)) ++ to_lower (skipn b (simple_name s))).
        { rewrite <- LA, firstn_skipn; [reflexivity|..]; intros x I; apply AS.
          - rewrite <- (firstn_skipn b). apply in_or_app. auto.
          - rewrite <- (firstn_skipn b). apply in_or_app. auto. }
        rewrite SP. apply has_prefix_spec in P as [u ->]. rewrite <- app_assoc. apply has_prefix_app.
      + destruct (words_are_tokens is_upper is_digit _ a b AS W LE) as (toks & t & Et & It & _ & EQ).
        rewrite (EQ ltac:(lia)) in It. exists (keyword q), (slice (simple_name s) a b). split; [exact KT|]. split; [exists toks; auto|exact P]. }
  apply C; auto.
  - intros _. exact I.
  - split; [exact K|]. destruct q as [k|k|k|k|k|k|c k|c k|c k]; cbn [keyword searched_class] in *;
      try (exists [], k; split; [left; auto|]; first [left; split; [reflexivity|exact M]|split; [exact M|left; reflexivity]]).
    + exact M.
    + exact M.
    + auto.
    + right. auto.
    + right. auto.
  - right. intros p [].
Qed.
Print Assumptions C21_found_by_prefix_partial.

Lemma ascii_lowers : lowers_ascii ascii_text.
Proof. intros a b _ _. cbn. apply map_app. Qed.
(** the class \App\SimpleXMLParser is found by "pars", a prefix of its third word *)
Definition parser_doc : doc := Doc uri_a (B "1") [a_class uri_a "\App\SimpleXMLParser"] [] [].
Example C21_hypotheses_met :
  Forall event_ok [EvSync parser_doc] /\ clean_names [EvSync parser_doc]
  /\ name_or_word (B "\App\SimpleXMLParser") (B "Parser")
  /\ has_prefix (to_lower (B "pars")) (to_lower (B "Parser")) = true
  /\ exists st x, run root_uri [EvSync parser_doc] = Some st
      /\ do_search st (FindClasses (B "pars")) NewSearchOptions 0 = Some ([x], true, 0%Z) /\ simple_name x = B "\App\SimpleXMLParser".
Proof.
  split; [constructor; [unfold parser_doc; cbn [event_ok]; ok|constructor]|].
  split; [intros d s [<-|[]] [<-|[]]; not_in|]. split; [|split; [reflexivity|do 2 eexists; split; [vm_compute; reflexivity|split; vm_compute; reflexivity]]].
  right. split; [intros b H; vm_compute in H; repeat (destruct H as [H|H]; [subst; reflexivity|]); destruct H|].
  exists 14%nat, 20%nat. split; [|split; [right; left; lia|reflexivity]].
  split; [split; [vm_compute; lia|]; split; [discriminate|right; right; right; repeat split]|].
  split; [vm_compute; lia|]. split; [|left; reflexivity].
  intros k H. assert (k = 15 \/ k = 16 \/ k = 17 \/ k = 18 \/ k = 19)%nat as D by lia.
  split.
  - intros (_ & _ & W). destruct D as [->|[->|[->|[->| ->]]]];
      (destruct W as [W|[W|[(W & W2)|(W & W2 & W3)]]]; vm_compute in *; try discriminate; try (apply W2; split; reflexivity); try (apply W; reflexivity)).
  - destruct D as [->|[->|[->|[->| ->]]]]; discriminate.
Qed.

(** ** C19 migration *)
(** An index of a version before v0.0.13 is emptied: afterwards every look-up
    finds nothing, and the version is the running one.  One that is new enough
    keeps every entry. *)
Theorem C19_migration_partial : forall (T : Text) (X : XorFilter) parse st v sv,
  parse (GetStoreVersion st) = Some sv ->
  (before_release sv (0, 0, 13)%N = true ->
     GetStoreVersion (Migrate parse st v) = v
     /\ (forall k, k <> versionKey -> ldb_Get (s_db (Migrate parse st v)) k = None)
     /\ forall q, ask (Migrate parse st v) q = Some [])
  /\ (before_release sv (0, 0, 13)%N = false -> Migrate parse st v = st).
Proof.
  intros T X parse st v sv E. unfold Migrate. rewrite E. split; intros ->; [|reflexivity].
  assert (CE : ldb (ldb_Clear (s_db st)) = []).
  { destruct (ldb (ldb_Clear (s_db st))) as [|[k x] m] eqn:EC; [reflexivity|]. exfalso. assert (G := ldb_Clear_get (s_db st) k).
    unfold ldb_Get in G. rewrite EC in G. cbn in G. rewrite str_eqb_refl in G. discriminate. }
  unfold GetStoreVersion, PutVersion, Clear, with_db. cbn [s_db]. split; [|split].
  - unfold ldb_Get, ldb_Put. cbn [ldb]. rewrite CE. reflexivity.
  - intros k N. unfold ldb_Get, ldb_Put. cbn [ldb]. rewrite CE, kv_get_put. destruct (str_eqb_spec versionKey k); [congruence|reflexivity].
  - assert (G : forall A (read : dec A) (c : gostr) r, In NUL c -> get_all read (ldb_Put (ldb_Clear (s_db st)) versionKey v) (c ++ r) = Some []).
    { intros A read c r I. unfold get_all. rewrite ldb_PrefixStream_eq. unfold ldb_Put. cbn [ldb]. rewrite CE. cbn [kv_put List.filter fst].
      assert (H : has_prefix (c ++ r) versionKey = false).
      { destruct (has_prefix (c ++ r) versionKey) eqn:P; [|reflexivity]. exfalso. apply has_prefix_spec in P as [t P].
        assert (J : In NUL versionKey) by (rewrite P; apply in_or_app; left; apply in_or_app; left; exact I). revert J. not_in. }
      rewrite H. reflexivity. }
    assert (G' : forall A (read : dec A) c r, get_all read (ldb_Put (ldb_Clear (s_db st)) versionKey v) (newEntry c r) = Some []).
    { intros A read c r. unfold newEntry. rewrite app_assoc. apply G. apply in_or_app. right. left. reflexivity. }
    intros q. destruct q; unfold ask, Query_GetClasses, GetClasses, GetInterfaces, GetTraits, GetFunctions, GetConsts, GetDefines, GetGlobalVariables, GetMethods, GetAllMethods, GetProperties, GetAllProperties, GetClassConsts, GetAllClassConsts; cbn [s_db]; rewrite G'; reflexivity.
Qed.
Print Assumptions C19_migration_partial.

(** The recorded version does not become the running one if the index is new
    enough, and namespaces of the forgotten index are still proposed. *)
Definition parse_some (s : gostr) : option version :=
  if str_eqb s (B "v0.0.14") then Some (0, 0, 14, false)%N else Some (0, 0, 0, false)%N.
Theorem C19_version_recorded_refuted : exists h st v,
  Forall event_ok h /\ run root_uri h = Some st /\ parse_some (GetStoreVersion st) <> None
  /\ GetStoreVersion (Migrate parse_some st v) <> v.
Proof.
  exists [EvVersion (B "v0.0.14"); EvSync doc_a]. eexists. exists (B "v0.0.15").
  split; [constructor; [exact I|constructor; [exact doc_a_ok|constructor]]|]. split; [vm_compute; reflexivity|].
  split; vm_compute; discriminate.
Qed.
Print Assumptions C19_version_recorded_refuted.
Theorem C19_namespaces_forgotten_refuted : exists h st v l,
  Forall event_ok h /\ run root_uri h = Some st
  /\ GetStoreVersion (Migrate parse_some st v) = v
  /\ (forall q, ask (Migrate parse_some st v) q = Some [])
  /\ SearchNamespaces (Migrate parse_some st v) (B "\Ap") = Some (l, true) /\ In (B "\App") l.
Proof.
  exists [EvSync doc_a]. eexists. exists (B "v0.0.15"). eexists.
  split; [constructor; [exact doc_a_ok|constructor]|]. split; [vm_compute; reflexivity|].
  split; [vm_compute; reflexivity|]. split; [intros q; eapply C19_migration_partial; vm_compute; reflexivity|].
  split; [vm_compute; reflexivity|left; reflexivity].
Qed.
Print Assumptions C19_namespaces_forgotten_refuted.
Example C19_hypotheses_met : exists st, run root_uri [EvSync doc_a] = Some st
  /\ parse_some (GetStoreVersion st) = Some (0, 0, 0, false)%N /\ before_release (0, 0, 0, false)%N (0, 0, 13)%N = true
  /\ before_release (0, 0, 14, false)%N (0, 0, 13)%N = false /\ before_release (0, 0, 13, true)%N (0, 0, 13)%N = true.
Proof. eexists. split; [vm_compute; reflexivity|]. compute_all. Qed.
