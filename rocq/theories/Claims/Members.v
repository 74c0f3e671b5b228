(** Claims about where an access to a member of an object or class leads. *)
From Coq Require Import String.
From Coq Require Import List Bool Arith NArith ZArith Lia.
From Coq.Strings Require Import Byte.
From Verif Require Import Base.Bytes Base.BytesProofs Base.Protocol Codec.CodecSpec Symbols.Symbols Symbols.KeysModel Words.TokeniserSpec
  Storage.KvModel Store.FilterModel Store.StoreModel Store.StoreSpec Store.LookupProofs Store.LookupKinds Store.Examples
  Query.QueryModel Query.QueryStoreModel Query.QuerySpec Query.QueryProofs Query.QueryMembers Query.QueryClaimProofs
  Query.QueryHistorySpec Query.QueryHistory Query.QuerySound Claims.Queries
  Whole.DefinitionModel Members.MemberModel Members.MemberSpec Members.MemberProofs Members.MemberHistory.
Import ListNotations.
Open Scope list_scope.

Local Open Scope string_scope.
Local Open Scope list_scope.

(** ** C84 *)
Lemma openable_iff : forall loc, IsURINavigatable (l_uri loc) = true <-> openable loc.
Proof. intros loc. unfold IsURINavigatable, openable. rewrite has_prefix_spec. reflexivity. Qed.
Lemma led_to_In : forall M (place : M -> location) q l locs, led_to place (Some (q, l)) = Some locs ->
  forall loc, In loc locs <-> (exists y, In y l /\ loc = place (ws_member y)) /\ openable loc.
Proof.
  intros M place q l locs E loc. unfold led_to in E. cbn [option_map snd] in E. injection E as <-. rewrite filter_In, in_map_iff. cbn beta. rewrite openable_iff. split.
  - intros ((y & <- & Y) & O). split; [exists y; auto|exact O].
  - intros ((y & Y & ->) & O). split; [exists y; auto|exact O].
Qed.
Lemma led_to_some : forall M (place : M -> location) found locs, led_to place found = Some locs -> exists q l, found = Some (q, l).
Proof. intros M place [(q, l)|] locs E; [eauto|discriminate E]. Qed.
Lemma leads_app : forall M (place : M -> location) q l1 rest (only : Prop) locs, (only -> rest = []) ->
  led_to place (Some (q, l1 ++ rest)) = Some locs -> leads place l1 only locs.
Proof.
  intros M place q l1 rest only locs R E. assert (H := led_to_In _ _ _ _ _ E). split.
  - intros y Y O. apply H. split; [|exact O]. exists y. split; [apply in_or_app; left; exact Y|reflexivity].
  - intros ON loc L. apply H in L as ((y & Y & ->) & O). rewrite (R ON), app_nil_r in Y. eauto.
Qed.
Section Worlds.
Context {T : Text} {X : XorFilter} (TOK : text_ok T).
Variables (root : gostr) (h : list event) (st : store).
Hypothesis OK : Forall event_ok h.
Hypothesis RUN : run root h = Some st.
Variable name : gostr.
Hypothesis NN : ~ In NUL name.
Lemma method_world : same_world no_nul name (method_db st) (workspace h (method_named h)).
Proof. apply (store_world TOK root h st OK RUN). intros scope m NS. apply (db_method TOK root h st OK RUN); assumption. Qed.
Lemma prop_world : plain_uris h -> same_world no_nul name (prop_db st) (workspace h (prop_named h)).
Proof. intros PU. apply (store_world TOK root h st OK RUN). intros scope m NS. apply (db_prop TOK root h st OK RUN); assumption. Qed.
Lemma const_world : no_shared_constants h -> (name <> [] -> forall scope, no_longer_constant h scope name) ->
  same_world no_nul name (const_db st) (workspace h (const_named h)).
Proof. intros NSC NLC. apply (store_world TOK root h st OK RUN). intros scope m NS. apply (db_const TOK root h st OK RUN); auto. Qed.
End Worlds.
Lemma arrow_may : forall M (MM : Member M) cur ac rel (m : M), good_rel false rel -> IsInherited cur ac rel m = true <-> arrow_access cur ac m.
Proof. intros M MM cur ac rel m G. rewrite (no_relations rel G). apply IsInherited_iff. Qed.
Lemma static_may : forall M (MM : Member M) cur ac rel (m : M), good_rel false rel -> IsInheritedStatic cur ac rel m = true <-> static_access cur ac m.
Proof. intros M MM cur ac rel m G. rewrite (no_relations rel G). apply IsInheritedStatic_iff. Qed.
Lemma static_may_or : forall M (MM : Member M) cur ac rel (m : M), IsInheritedStatic cur ac rel m = true -> static_access cur ac m \/ mb_visibility m = Protected.
Proof.
  intros M MM cur ac rel m E. destruct (Z.eqb (mb_visibility m) Protected) eqn:P; [right; apply Z.eqb_eq; exact P|left].
  apply IsInheritedStatic_iff. unfold IsInheritedStatic in *. destruct (IsNameParent _); [exact E|]. destruct (IsNameRelative _); [exact E|].
  destruct (negb _); [exact E|]. destruct (Z.eqb _ Public); [reflexivity|]. destruct (same_or_related _ rel _ _) as (sm, rl) eqn:S. rewrite P, andb_false_r, orb_false_r in E.
  subst sm. apply same_or_related_same in S as (t & It & Et). destruct (same_or_related (mb_scope m) [] _ _) as (sm, rl') eqn:S'.
  assert (sm = true); [|subst; reflexivity]. revert It S'. clear - Et. generalize (ac_scope_types ac). induction l as [|u us IH]; intros It S'; [destruct It|]. cbn in S'.
  destruct (str_eqb_spec (ts_fqn u) (mb_scope m)) as [EU|NU]; [injection S' as <- _; reflexivity|]. destruct It as [->|It]; [contradiction|]. eauto.
Qed.
Lemma static_must : forall M (MM : Member M) cur ac rel (m : M), static_access cur ac m -> mb_visibility m = Public -> IsInheritedStatic cur ac rel m = true.
Proof.
  intros M MM cur ac rel m S V. apply IsInheritedStatic_iff in S. unfold IsInheritedStatic in *. rewrite V in *. exact S.
Qed.

Lemma search_nothing : forall M (MM : Member M) (put : query M -> inherited M -> query M) found, found = Search (fun _ _ => 0%Z) [] put found.
Proof. intros M MM put [(q, r)|]; reflexivity. Qed.
Lemma offers_any : forall M (MM : Member M) (has : M -> scope_symbol -> Prop) over (may must : M -> Prop) l,
  offers_between has over (fun m => may m /\ fits (fun _ _ => 0%Z) [] m) (fun m => must m /\ fits (fun _ _ => 0%Z) [] m) l -> offers_between has over may must l.
Proof.
  intros M MM has over may must l (H1 & H2). assert (FT : forall m, fits (fun _ _ => 0%Z) [] m) by (intros m; left; reflexivity). split.
  - intros y Y. destruct (H1 y Y) as (A & (C & _) & D). split; [exact A|]. split; [exact C|]. intros m sc Hm EN OV MU. exact (D m sc Hm EN OV (conj MU (FT m))).
  - intros m sc Hm MU. exact (H2 m sc Hm (conj MU (FT m))).
Qed.

(** Whatever was asked before in the same request, whatever is declared twice,
    and however many types the receiver has: each location go to definition
    leads to from [$x->name(...)] is that of a method called [name] that one
    of the receiver's types has, that can be accessed there, and whose file can
    be opened.  [cur] is the class around, [ac] holds how the receiver is
    written and its types. *)
Theorem C84_method_leads_to_members : forall (T : Text) (X : XorFilter) root h st q cur ac name types fuel locs,
  text_ok T -> Forall event_ok h -> run root h = Some st -> ~ In NUL name -> asked false true true (method_db st) q ->
  MethodAccess_definition st fuel q cur ac name types = Some locs ->
  forall loc, In loc locs -> exists t m sc, In t types /\ has_member (workspace h (method_named h)) true true (ts_fqn t) name m sc
    /\ arrow_access cur ac m /\ loc = m_location m /\ openable loc.
Proof.
  intros T X root h st q cur ac name types fuel locs TOK OK RUN NN A E loc L. unfold MethodAccess_definition in E.
  destruct (led_to_some _ _ _ _ E) as (q' & l & EL). rewrite EL in E. apply (led_to_In _ _ _ _ _ E) in L as ((y & Y & ->) & O).
  destruct (types_sound TOK root h st OK RUN (Query_GetMethods st) (method_named h) name (method_world TOK root h st OK RUN name NN) false true true true true fuel
    (get_method st fuel name) (get_interface_method st fuel name) (get_trait_method st name) (fun _ _ => 0%Z) [] (fun _ _ _ => search_nothing _ _ _ _) (fun _ _ _ _ => search_nothing _ _ _ _) (fun _ => eq_refl) (fun _ _ _ _ => eq_refl)
    (IsInherited cur ac) (fun x => if mb_static (ws_member x) then WithScope (ws_member x) (ws_scope x) (ws_score x - staticInAccessCost) else x)) with (may := fun m : method => arrow_access cur ac m) (q := q) (types := types) (q' := q') (l := l) (y := y) as (t & It & Hm & Ma & _).
  - intros x. destruct (mb_static (ws_member x)); auto.
  - intros rel m G K. apply (arrow_may _ _ cur ac rel m G). exact K.
  - exact A.
  - exact EL.
  - exact Y.
  - eauto 9.
Qed.
Print Assumptions C84_method_leads_to_members.

(** The same for the other accesses: [X::name(...)], [$x->name], [X::$name] and
    [X::name].  Of a static access only classes are receivers, for constants
    also interfaces; a protected constant can be offered to relatives. *)
Theorem C84_scoped_method_leads_to_members : forall (T : Text) (X : XorFilter) root h st q cur ac name types fuel locs,
  text_ok T -> Forall event_ok h -> run root h = Some st -> ~ In NUL name -> asked false true true (method_db st) q ->
  ScopedMethodAccess_definition st fuel q cur ac name types = Some locs ->
  forall loc, In loc locs -> exists t m sc, In t types /\ has_member (workspace h (method_named h)) false false (ts_fqn t) name m sc
    /\ static_access cur ac m /\ loc = m_location m /\ openable loc.
Proof.
  intros T X root h st q cur ac name types fuel locs TOK OK RUN NN A E loc L. unfold ScopedMethodAccess_definition in E.
  destruct (led_to_some _ _ _ _ E) as (q' & l & EL). rewrite EL in E. apply (led_to_In _ _ _ _ _ E) in L as ((y & Y & ->) & O).
  destruct (types_sound TOK root h st OK RUN (Query_GetMethods st) (method_named h) name (method_world TOK root h st OK RUN name NN) false true true false false fuel
    (get_method st fuel name) no_interfaces no_traits (fun _ _ => 0%Z) [] (fun _ _ _ => search_nothing _ _ _ _) (fun F => False_ind _ (Bool.diff_false_true F)) (fun F => False_ind _ (Bool.diff_false_true F)) (fun F => False_ind _ (Bool.diff_false_true F))
    (IsInheritedStatic cur ac) (fun x => x)) with (may := fun m : method => static_access cur ac m) (q := q) (types := types) (q' := q') (l := l) (y := y) as (t & It & Hm & Ma & _).
  - intros x. auto.
  - intros rel m G K. apply (static_may _ _ cur ac rel m G). exact K.
  - exact A.
  - exact EL.
  - exact Y.
  - eauto 9.
Qed.
Print Assumptions C84_scoped_method_leads_to_members.
Theorem C84_property_leads_to_members : forall (T : Text) (X : XorFilter) root h st q cur ac name types fuel locs,
  text_ok T -> Forall event_ok h -> run root h = Some st -> ~ In NUL (B "$" ++ name) -> plain_uris h -> asked false false false (prop_db st) q ->
  PropertyAccess_definition st fuel q cur ac name types = Some locs ->
  forall loc, In loc locs -> exists t m sc, In t types /\ has_member (workspace h (prop_named h)) false false (ts_fqn t) (B "$" ++ name) m sc
    /\ arrow_access cur ac m /\ loc = pr_location m /\ openable loc.
Proof.
  intros T X root h st q cur ac name types fuel locs TOK OK RUN NN PU A E loc L. unfold PropertyAccess_definition in E.
  destruct (led_to_some _ _ _ _ E) as (q' & l & EL). rewrite EL in E. apply (led_to_In _ _ _ _ _ E) in L as ((y & Y & ->) & O).
  destruct (types_sound TOK root h st OK RUN (Query_GetProps st) (prop_named h) (B "$" ++ name) (prop_world TOK root h st OK RUN (B "$" ++ name) NN PU) false false false false false fuel
    (get_prop st fuel (B "$" ++ name)) no_interfaces no_traits (fun _ _ => 0%Z) [] (fun _ _ _ => search_nothing _ _ _ _) (fun F => False_ind _ (Bool.diff_false_true F)) (fun F => False_ind _ (Bool.diff_false_true F)) (fun F => False_ind _ (Bool.diff_false_true F))
    (IsInherited cur ac) (fun x => if mb_static (ws_member x) then WithScope (ws_member x) (ws_scope x) (ws_score x - staticInAccessCost) else x)) with (may := fun m : property => arrow_access cur ac m) (q := q) (types := types) (q' := q') (l := l) (y := y) as (t & It & Hm & Ma & _).
  - intros x. destruct (mb_static (ws_member x)); auto.
  - intros rel m G K. apply (arrow_may _ _ cur ac rel m G). exact K.
  - exact A.
  - exact EL.
  - exact Y.
  - eauto 9.
Qed.
Print Assumptions C84_property_leads_to_members.
Theorem C84_scoped_property_leads_to_members : forall (T : Text) (X : XorFilter) root h st q cur ac name types fuel locs,
  text_ok T -> Forall event_ok h -> run root h = Some st -> ~ In NUL name -> plain_uris h -> asked false false false (prop_db st) q ->
  ScopedPropertyAccess_definition st fuel q cur ac name types = Some locs ->
  forall loc, In loc locs -> exists t m sc, In t types /\ has_member (workspace h (prop_named h)) false false (ts_fqn t) name m sc
    /\ static_access cur ac m /\ loc = pr_location m /\ openable loc.
Proof.
  intros T X root h st q cur ac name types fuel locs TOK OK RUN NN PU A E loc L. unfold ScopedPropertyAccess_definition in E.
  destruct (led_to_some _ _ _ _ E) as (q' & l & EL). rewrite EL in E. apply (led_to_In _ _ _ _ _ E) in L as ((y & Y & ->) & O).
  destruct (types_sound TOK root h st OK RUN (Query_GetProps st) (prop_named h) name (prop_world TOK root h st OK RUN name NN PU) false false false false false fuel
    (get_prop st fuel name) no_interfaces no_traits (fun _ _ => 0%Z) [] (fun _ _ _ => search_nothing _ _ _ _) (fun F => False_ind _ (Bool.diff_false_true F)) (fun F => False_ind _ (Bool.diff_false_true F)) (fun F => False_ind _ (Bool.diff_false_true F))
    (IsInheritedStatic cur ac) (fun x => x)) with (may := fun m : property => static_access cur ac m) (q := q) (types := types) (q' := q') (l := l) (y := y) as (t & It & Hm & Ma & _).
  - intros x. auto.
  - intros rel m G K. apply (static_may _ _ cur ac rel m G). exact K.
  - exact A.
  - exact EL.
  - exact Y.
  - eauto 9.
Qed.
Print Assumptions C84_scoped_property_leads_to_members.
Theorem C84_constant_leads_to_members : forall (T : Text) (X : XorFilter) root h st q cur ac name types fuel locs,
  text_ok T -> Forall event_ok h -> run root h = Some st -> ~ In NUL name -> no_shared_constants h -> (name <> [] -> forall scope, no_longer_constant h scope name) -> asked true false false (const_db st) q ->
  ScopedConstantAccess_definition st fuel q cur ac name types = Some locs ->
  forall loc, In loc locs -> exists t m sc, In t types /\ has_member (workspace h (const_named h)) true false (ts_fqn t) name m sc
    /\ (static_access cur ac m \/ mb_visibility m = Protected) /\ loc = cc_location m /\ openable loc.
Proof.
  intros T X root h st q cur ac name types fuel locs TOK OK RUN NN NSC NLC A E loc L. unfold ScopedConstantAccess_definition in E.
  destruct (led_to_some _ _ _ _ E) as (q' & l & EL). rewrite EL in E. apply (led_to_In _ _ _ _ _ E) in L as ((y & Y & ->) & O).
  destruct (types_sound TOK root h st OK RUN (Query_GetClassConsts st) (const_named h) name (const_world TOK root h st OK RUN name NN NSC NLC) true false false true false fuel
    (get_const st fuel name) (get_interface_const st fuel name) no_traits (fun _ _ => 0%Z) [] (fun _ _ _ => search_nothing _ _ _ _) (fun _ _ _ _ => search_nothing _ _ _ _) (fun F => False_ind _ (Bool.diff_false_true F)) (fun F => False_ind _ (Bool.diff_false_true F))
    (IsInheritedStatic cur ac) (fun x => x)) with (may := fun m : class_const => (static_access cur ac m \/ mb_visibility m = Protected)) (q := q) (types := types) (q' := q') (l := l) (y := y) as (t & It & Hm & Ma & _).
  - intros x. auto.
  - intros rel m G K. exact (static_may_or _ _ cur ac rel m K).
  - exact A.
  - exact EL.
  - exact Y.
  - eauto 9.
Qed.
Print Assumptions C84_constant_leads_to_members.

(** Go to definition from a method access ends in every state of the query and
    for every store; for properties and constants if no class extends itself. *)
Theorem C84_ends_partial : forall (T : Text) (X : XorFilter) st cur ac name types,
  (forall q, exists n locs, forall fuel, (n <= fuel)%nat -> MethodAccess_definition st fuel q cur ac name types = Some locs)
  /\ (forall q, exists n locs, forall fuel, (n <= fuel)%nat -> ScopedMethodAccess_definition st fuel q cur ac name types = Some locs)
  /\ (acyclic (prop_db st) -> forall q, exists n locs, forall fuel, (n <= fuel)%nat -> PropertyAccess_definition st fuel q cur ac name types = Some locs)
  /\ (acyclic (prop_db st) -> forall q, exists n locs, forall fuel, (n <= fuel)%nat -> ScopedPropertyAccess_definition st fuel q cur ac name types = Some locs)
  /\ (acyclic (const_db st) -> forall q, exists n locs, forall fuel, (n <= fuel)%nat -> ScopedConstantAccess_definition st fuel q cur ac name types = Some locs).
Proof.
  intros T X st cur ac name types.
  assert (LED : forall M (place : M -> location) (f : nat -> option (query M * list (with_scope M))), (exists n r, forall fuel, (n <= fuel)%nat -> f fuel = Some r) ->
    exists n locs, forall fuel, (n <= fuel)%nat -> led_to place (f fuel) = Some locs).
  { intros M place f (n & r & H). exists n. eexists. intros fuel F. rewrite (H fuel F). reflexivity. }
  split; [|split; [|split; [|split]]].
  - intros q. apply LED. apply (of_types_ends (method_db st) (fun fuel => get_method st fuel name) (fun fuel => get_interface_method st fuel name) (fun _ => get_trait_method st name) true true).
    + exact (class_ends false true (method_db st) true name (store_db_finite _ st) (or_introl eq_refl)).
    + right. exact (interface_ends false (method_db st) name (store_db_finite _ st)).
    + right. exact (trait_ends (method_db st) name).
  - intros q. apply LED. apply (of_types_ends (method_db st) (fun fuel => get_method st fuel name) (fun _ => no_interfaces) (fun _ => no_traits) false false); [|left; reflexivity|left; reflexivity].
    exact (class_ends false true (method_db st) true name (store_db_finite _ st) (or_introl eq_refl)).
  - intros AC q. apply LED. apply (of_types_ends (prop_db st) (fun fuel => get_prop st fuel (B "$" ++ name)) (fun _ => no_interfaces) (fun _ => no_traits) false false); [|left; reflexivity|left; reflexivity].
    exact (class_ends false false (prop_db st) false (B "$" ++ name) (store_db_finite _ st) (or_intror AC)).
  - intros AC q. apply LED. apply (of_types_ends (prop_db st) (fun fuel => get_prop st fuel name) (fun _ => no_interfaces) (fun _ => no_traits) false false); [|left; reflexivity|left; reflexivity].
    exact (class_ends false false (prop_db st) false name (store_db_finite _ st) (or_intror AC)).
  - intros AC q. apply LED. apply (of_types_ends (const_db st) (fun fuel => get_const st fuel name) (fun fuel => get_interface_const st fuel name) (fun _ => no_traits) true false); [| |left; reflexivity].
    + exact (class_ends true false (const_db st) false name (store_db_finite _ st) (or_intror AC)).
    + right. exact (interface_ends true (const_db st) name (store_db_finite _ st)).
Qed.
Print Assumptions C84_ends_partial.

(** If no two class-likes share a name, no member of this name was asked for
    before in the request, and no member name contains a colon: from
    [$x->name(...)] where the first type of [$x] is a class, go to definition
    leads to what the class has: to methods that belong to it, can be accessed
    and are overridden by no other accessible one, and for every name at least
    to one; and to nothing else if there is no other type.
    What is missing: all but the first type, see C84_union_refuted. *)
Theorem C84_method_of_class_partial : forall (T : Text) (X : XorFilter) root h st q cur ac name t ts c,
  text_ok T -> Forall event_ok h -> run root h = Some st -> unique_names h -> ~ In NUL name -> 
  (forall scope m, method_named h scope name m -> ~ In COLON (mb_name m)) ->
  asked false true true (method_db st) q -> unasked q name -> class_named h (ts_fqn t) c ->
  (forall u, ~ trait_named h (ts_fqn t) u) ->
  exists n locs l, (forall fuel, (n <= fuel)%nat -> MethodAccess_definition st fuel q cur ac name (t :: ts) = Some locs)
    /\ leads m_location l (ts = []) locs
    /\ class_offers (workspace h (method_named h)) c name (arrow_access cur ac) l.
Proof.
  intros T X root h st q cur ac name t ts c TOK OK RUN UN NN NCL A U C NT .
  assert (SW := method_world TOK root h st OK RUN name NN).
  destruct (C84_ends_partial T X st cur ac name (t :: ts)) as (EN & _). destruct (EN q) as (fuel & locs & D). assert (D0 := D fuel (le_n fuel)).
  unfold MethodAccess_definition in D0. destruct (led_to_some _ _ _ _ D0) as (q' & l & EL). rewrite EL in D0.
  destruct (class_first TOK root h st OK RUN (Query_GetMethods st) (method_named h) name SW false true true true true fuel
    (get_method st fuel name) (get_interface_method st fuel name) (get_trait_method st name) (fun _ _ => 0%Z) [] (fun _ _ _ => search_nothing _ _ _ _) (fun _ _ _ _ => search_nothing _ _ _ _) (fun _ => eq_refl) (fun _ _ _ _ => eq_refl)
    (IsInherited cur ac) (fun x => if mb_static (ws_member x) then WithScope (ws_member x) (ws_scope x) (ws_score x - staticInAccessCost) else x)) with (may := fun m : method => arrow_access cur ac m) (must := fun m : method => arrow_access cur ac m) (q := q) (t := t) (ts := ts) (q' := q') (l := l) (c := c) as (l1 & rest & E1 & R & O); auto; try (intros F; discriminate F).
  - intros x. destruct (mb_static (ws_member x)); auto.
  - intros rel m G K. apply (arrow_may _ _ cur ac rel m G). exact K.
  - intros rel m G K. apply (arrow_may _ _ cur ac rel m G). exact K.
  - exists fuel, locs, l1. split; [exact D|]. split; [|exact (offers_any _ _ _ _ _ _ _ O)]. rewrite E1 in D0. exact (leads_app _ _ _ _ _ _ _ R D0).
Qed.
Print Assumptions C84_method_of_class_partial.
(** The same where the first type is an interface, *)
Theorem C84_method_of_interface_partial : forall (T : Text) (X : XorFilter) root h st q cur ac name t ts i,
  text_ok T -> Forall event_ok h -> run root h = Some st -> unique_names h -> ~ In NUL name -> 
  (forall scope m, method_named h scope name m -> ~ In COLON (mb_name m)) ->
  asked false true true (method_db st) q -> unasked q name -> interface_named h (ts_fqn t) i ->
  (forall u, ~ trait_named h (ts_fqn t) u) ->
  exists n locs l, (forall fuel, (n <= fuel)%nat -> MethodAccess_definition st fuel q cur ac name (t :: ts) = Some locs)
    /\ leads m_location l (ts = []) locs
    /\ interface_offers (workspace h (method_named h)) i name (arrow_access cur ac) l.
Proof.
  intros T X root h st q cur ac name t ts i TOK OK RUN UN NN NCL A U I NT .
  assert (SW := method_world TOK root h st OK RUN name NN).
  destruct (C84_ends_partial T X st cur ac name (t :: ts)) as (EN & _). destruct (EN q) as (fuel & locs & D). assert (D0 := D fuel (le_n fuel)).
  unfold MethodAccess_definition in D0. destruct (led_to_some _ _ _ _ D0) as (q' & l & EL). rewrite EL in D0.
  destruct (interface_first TOK root h st OK RUN (Query_GetMethods st) (method_named h) name SW false true true true true fuel
    (get_method st fuel name) (get_interface_method st fuel name) (get_trait_method st name) (fun _ _ => 0%Z) [] (fun _ _ _ => search_nothing _ _ _ _) (fun _ _ _ _ => search_nothing _ _ _ _) (fun _ => eq_refl) (fun _ _ _ _ => eq_refl)
    (IsInherited cur ac) (fun x => if mb_static (ws_member x) then WithScope (ws_member x) (ws_scope x) (ws_score x - staticInAccessCost) else x)) with (may := fun m : method => arrow_access cur ac m) (must := fun m : method => arrow_access cur ac m) (q := q) (t := t) (ts := ts) (q' := q') (l := l) (i := i) as (l1 & rest & E1 & R & O); auto; try (intros F; discriminate F).
  - intros x. destruct (mb_static (ws_member x)); auto.
  - intros rel m G K. apply (arrow_may _ _ cur ac rel m G). exact K.
  - intros rel m G K. apply (arrow_may _ _ cur ac rel m G). exact K.
  - exists fuel, locs, l1. split; [exact D|]. split; [|exact (offers_any _ _ _ _ _ _ _ O)]. rewrite E1 in D0. exact (leads_app _ _ _ _ _ _ _ R D0).
Qed.
Print Assumptions C84_method_of_interface_partial.
(** or a trait. *)
Theorem C84_method_of_trait_partial : forall (T : Text) (X : XorFilter) root h st q cur ac name t ts u,
  text_ok T -> Forall event_ok h -> run root h = Some st -> unique_names h -> ~ In NUL name -> 
  (forall scope m, method_named h scope name m -> ~ In COLON (mb_name m)) ->
  asked false true true (method_db st) q -> unasked q name -> trait_named h (ts_fqn t) u ->
  (forall c, ~ class_named h (ts_fqn t) c) -> (forall i, ~ interface_named h (ts_fqn t) i) ->
  exists n locs l, (forall fuel, (n <= fuel)%nat -> MethodAccess_definition st fuel q cur ac name (t :: ts) = Some locs)
    /\ leads m_location l (ts = []) locs
    /\ trait_offers (workspace h (method_named h)) u name (arrow_access cur ac) l.
Proof.
  intros T X root h st q cur ac name t ts u TOK OK RUN UN NN NCL A UA UT NC NI .
  assert (SW := method_world TOK root h st OK RUN name NN).
  destruct (C84_ends_partial T X st cur ac name (t :: ts)) as (EN & _). destruct (EN q) as (fuel & locs & D). assert (D0 := D fuel (le_n fuel)).
  unfold MethodAccess_definition in D0. destruct (led_to_some _ _ _ _ D0) as (q' & l & EL). rewrite EL in D0.
  destruct (trait_first TOK root h st OK RUN (Query_GetMethods st) (method_named h) name SW false true true true true fuel
    (get_method st fuel name) (get_interface_method st fuel name) (get_trait_method st name) (fun _ _ => 0%Z) [] (fun _ _ _ => search_nothing _ _ _ _) (fun _ _ _ _ => search_nothing _ _ _ _) (fun _ => eq_refl) (fun _ _ _ _ => eq_refl)
    (IsInherited cur ac) (fun x => if mb_static (ws_member x) then WithScope (ws_member x) (ws_scope x) (ws_score x - staticInAccessCost) else x)) with (may := fun m : method => arrow_access cur ac m) (must := fun m : method => arrow_access cur ac m) (q := q) (t := t) (ts := ts) (q' := q') (l := l) (u := u) as (l1 & rest & E1 & R & O); auto; try (intros F; discriminate F).
  - intros x. destruct (mb_static (ws_member x)); auto.
  - intros rel m G K. apply (arrow_may _ _ cur ac rel m G). exact K.
  - intros rel m G K. apply (arrow_may _ _ cur ac rel m G). exact K.
  - exists fuel, locs, l1. split; [exact D|]. split; [|exact (offers_any _ _ _ _ _ _ _ O)]. rewrite E1 in D0. exact (leads_app _ _ _ _ _ _ _ R D0).
Qed.
Print Assumptions C84_method_of_trait_partial.
(** The same for [X::name(...)], *)
Theorem C84_scoped_method_partial : forall (T : Text) (X : XorFilter) root h st q cur ac name t ts c,
  text_ok T -> Forall event_ok h -> run root h = Some st -> unique_names h -> ~ In NUL name -> 
  (forall scope m, method_named h scope name m -> ~ In COLON (mb_name m)) ->
  asked false true true (method_db st) q -> unasked q name -> class_named h (ts_fqn t) c ->
  exists n locs l, (forall fuel, (n <= fuel)%nat -> ScopedMethodAccess_definition st fuel q cur ac name (t :: ts) = Some locs)
    /\ leads m_location l (ts = []) locs
    /\ class_offers (workspace h (method_named h)) c name (static_access cur ac) l.
Proof.
  intros T X root h st q cur ac name t ts c TOK OK RUN UN NN NCL A U C .
  assert (SW := method_world TOK root h st OK RUN name NN).
  destruct (C84_ends_partial T X st cur ac name (t :: ts)) as (_ & EN & _). destruct (EN q) as (fuel & locs & D). assert (D0 := D fuel (le_n fuel)).
  unfold ScopedMethodAccess_definition in D0. destruct (led_to_some _ _ _ _ D0) as (q' & l & EL). rewrite EL in D0.
  destruct (class_first TOK root h st OK RUN (Query_GetMethods st) (method_named h) name SW false true true false false fuel
    (get_method st fuel name) no_interfaces no_traits (fun _ _ => 0%Z) [] (fun _ _ _ => search_nothing _ _ _ _) (fun F => False_ind _ (Bool.diff_false_true F)) (fun F => False_ind _ (Bool.diff_false_true F)) (fun F => False_ind _ (Bool.diff_false_true F))
    (IsInheritedStatic cur ac) (fun x => x)) with (may := fun m : method => static_access cur ac m) (must := fun m : method => static_access cur ac m) (q := q) (t := t) (ts := ts) (q' := q') (l := l) (c := c) as (l1 & rest & E1 & R & O); auto; try (intros F; discriminate F).
  - intros rel m G K. apply (static_may _ _ cur ac rel m G). exact K.
  - intros rel m G K. apply (static_may _ _ cur ac rel m G). exact K.
  - exists fuel, locs, l1. split; [exact D|]. split; [|exact (offers_any _ _ _ _ _ _ _ O)]. rewrite E1 in D0. exact (leads_app _ _ _ _ _ _ _ R D0).
Qed.
Print Assumptions C84_scoped_method_partial.
(** [$x->name] and [X::$name], if no class extends itself and the traits have
    no such property, *)
Theorem C84_property_partial : forall (T : Text) (X : XorFilter) root h st q cur ac name t ts c,
  text_ok T -> Forall event_ok h -> run root h = Some st -> unique_names h -> ~ In NUL (B "$" ++ name) -> plain_uris h -> 
  (forall scope m, prop_named h scope (B "$" ++ name) m -> ~ In COLON (mb_name m)) ->
  asked false false false (prop_db st) q -> unasked q (B "$" ++ name) -> class_named h (ts_fqn t) c ->
  (forall d u p, ancestor (workspace h (prop_named h)) c d -> uses (workspace h (prop_named h)) d u -> ~ prop_named h (ts_fqn (t_name u)) (B "$" ++ name) p) ->
  acyclic (workspace h (prop_named h)) ->
  exists n locs l, (forall fuel, (n <= fuel)%nat -> PropertyAccess_definition st fuel q cur ac name (t :: ts) = Some locs)
    /\ leads pr_location l (ts = []) locs
    /\ class_offers (workspace h (prop_named h)) c (B "$" ++ name) (arrow_access cur ac) l.
Proof.
  intros T X root h st q cur ac name t ts c TOK OK RUN UN NN PU NCL A U C NT AC .
  assert (SW := prop_world TOK root h st OK RUN (B "$" ++ name) NN PU).
  assert (AC' : acyclic (prop_db st)) by (destruct AC as [rank AC]; exists rank; intros d p P; apply AC; exact (same_parent_w no_nul (B "$" ++ name) _ _ SW d p P)).
  destruct (C84_ends_partial T X st cur ac name (t :: ts)) as (_ & _ & EN & _). destruct (EN AC' q) as (fuel & locs & D). assert (D0 := D fuel (le_n fuel)).
  unfold PropertyAccess_definition in D0. destruct (led_to_some _ _ _ _ D0) as (q' & l & EL). rewrite EL in D0.
  destruct (class_first TOK root h st OK RUN (Query_GetProps st) (prop_named h) (B "$" ++ name) SW false false false false false fuel
    (get_prop st fuel (B "$" ++ name)) no_interfaces no_traits (fun _ _ => 0%Z) [] (fun _ _ _ => search_nothing _ _ _ _) (fun F => False_ind _ (Bool.diff_false_true F)) (fun F => False_ind _ (Bool.diff_false_true F)) (fun F => False_ind _ (Bool.diff_false_true F))
    (IsInherited cur ac) (fun x => if mb_static (ws_member x) then WithScope (ws_member x) (ws_scope x) (ws_score x - staticInAccessCost) else x)) with (may := fun m : property => arrow_access cur ac m) (must := fun m : property => arrow_access cur ac m) (q := q) (t := t) (ts := ts) (q' := q') (l := l) (c := c) as (l1 & rest & E1 & R & O); auto; try (intros F; discriminate F).
  - intros x. destruct (mb_static (ws_member x)); auto.
  - intros rel m G K. apply (arrow_may _ _ cur ac rel m G). exact K.
  - intros rel m G K. apply (arrow_may _ _ cur ac rel m G). exact K.
  - exists fuel, locs, l1. split; [exact D|]. split; [|exact (offers_any _ _ _ _ _ _ _ O)]. rewrite E1 in D0. exact (leads_app _ _ _ _ _ _ _ R D0).
Qed.
Print Assumptions C84_property_partial.
Theorem C84_scoped_property_partial : forall (T : Text) (X : XorFilter) root h st q cur ac name t ts c,
  text_ok T -> Forall event_ok h -> run root h = Some st -> unique_names h -> ~ In NUL name -> plain_uris h -> 
  (forall scope m, prop_named h scope name m -> ~ In COLON (mb_name m)) ->
  asked false false false (prop_db st) q -> unasked q name -> class_named h (ts_fqn t) c ->
  (forall d u p, ancestor (workspace h (prop_named h)) c d -> uses (workspace h (prop_named h)) d u -> ~ prop_named h (ts_fqn (t_name u)) name p) ->
  acyclic (workspace h (prop_named h)) ->
  exists n locs l, (forall fuel, (n <= fuel)%nat -> ScopedPropertyAccess_definition st fuel q cur ac name (t :: ts) = Some locs)
    /\ leads pr_location l (ts = []) locs
    /\ class_offers (workspace h (prop_named h)) c name (static_access cur ac) l.
Proof.
  intros T X root h st q cur ac name t ts c TOK OK RUN UN NN PU NCL A U C NT AC .
  assert (SW := prop_world TOK root h st OK RUN name NN PU).
  assert (AC' : acyclic (prop_db st)) by (destruct AC as [rank AC]; exists rank; intros d p P; apply AC; exact (same_parent_w no_nul name _ _ SW d p P)).
  destruct (C84_ends_partial T X st cur ac name (t :: ts)) as (_ & _ & _ & EN & _). destruct (EN AC' q) as (fuel & locs & D). assert (D0 := D fuel (le_n fuel)).
  unfold ScopedPropertyAccess_definition in D0. destruct (led_to_some _ _ _ _ D0) as (q' & l & EL). rewrite EL in D0.
  destruct (class_first TOK root h st OK RUN (Query_GetProps st) (prop_named h) name SW false false false false false fuel
    (get_prop st fuel name) no_interfaces no_traits (fun _ _ => 0%Z) [] (fun _ _ _ => search_nothing _ _ _ _) (fun F => False_ind _ (Bool.diff_false_true F)) (fun F => False_ind _ (Bool.diff_false_true F)) (fun F => False_ind _ (Bool.diff_false_true F))
    (IsInheritedStatic cur ac) (fun x => x)) with (may := fun m : property => static_access cur ac m) (must := fun m : property => static_access cur ac m) (q := q) (t := t) (ts := ts) (q' := q') (l := l) (c := c) as (l1 & rest & E1 & R & O); auto; try (intros F; discriminate F).
  - intros rel m G K. apply (static_may _ _ cur ac rel m G). exact K.
  - intros rel m G K. apply (static_may _ _ cur ac rel m G). exact K.
  - exists fuel, locs, l1. split; [exact D|]. split; [|exact (offers_any _ _ _ _ _ _ _ O)]. rewrite E1 in D0. exact (leads_app _ _ _ _ _ _ _ R D0).
Qed.
Print Assumptions C84_scoped_property_partial.
(** and for [X::name], where the public constants are certain. *)
Theorem C84_constant_partial : forall (T : Text) (X : XorFilter) root h st q cur ac name t ts c,
  text_ok T -> Forall event_ok h -> run root h = Some st -> unique_names h -> ~ In NUL name -> no_shared_constants h -> (name <> [] -> forall scope, no_longer_constant h scope name) -> 
  (forall scope m, const_named h scope name m -> ~ In COLON (mb_name m)) ->
  asked true false false (const_db st) q -> unasked q name -> class_named h (ts_fqn t) c ->
  (forall d u p, ancestor (workspace h (const_named h)) c d -> uses (workspace h (const_named h)) d u -> ~ const_named h (ts_fqn (t_name u)) name p) ->
  acyclic (workspace h (const_named h)) ->
  exists n locs l, (forall fuel, (n <= fuel)%nat -> ScopedConstantAccess_definition st fuel q cur ac name (t :: ts) = Some locs)
    /\ leads cc_location l (ts = []) locs
    /\ offers_between (belongs (workspace h (const_named h)) c name) (overrides (workspace h (const_named h)) c)
         (fun m => static_access cur ac m \/ mb_visibility m = Protected) (fun m => static_access cur ac m /\ mb_visibility m = Public) l.
Proof.
  intros T X root h st q cur ac name t ts c TOK OK RUN UN NN NSC NLC NCL A U C NT AC .
  assert (SW := const_world TOK root h st OK RUN name NN NSC NLC).
  assert (AC' : acyclic (const_db st)) by (destruct AC as [rank AC]; exists rank; intros d p P; apply AC; exact (same_parent_w no_nul name _ _ SW d p P)).
  destruct (C84_ends_partial T X st cur ac name (t :: ts)) as (_ & _ & _ & _ & EN). destruct (EN AC' q) as (fuel & locs & D). assert (D0 := D fuel (le_n fuel)).
  unfold ScopedConstantAccess_definition in D0. destruct (led_to_some _ _ _ _ D0) as (q' & l & EL). rewrite EL in D0.
  destruct (class_first TOK root h st OK RUN (Query_GetClassConsts st) (const_named h) name SW true false false true false fuel
    (get_const st fuel name) (get_interface_const st fuel name) no_traits (fun _ _ => 0%Z) [] (fun _ _ _ => search_nothing _ _ _ _) (fun _ _ _ _ => search_nothing _ _ _ _) (fun F => False_ind _ (Bool.diff_false_true F)) (fun F => False_ind _ (Bool.diff_false_true F))
    (IsInheritedStatic cur ac) (fun x => x)) with (may := fun m : class_const => (static_access cur ac m \/ mb_visibility m = Protected)) (must := fun m : class_const => (static_access cur ac m /\ mb_visibility m = Public)) (q := q) (t := t) (ts := ts) (q' := q') (l := l) (c := c) as (l1 & rest & E1 & R & O); auto; try (intros F; discriminate F).
  - intros rel m G K. exact (static_may_or _ _ cur ac rel m K).
  - intros rel m G K. destruct K as (K & V). exact (static_must _ _ cur ac rel m K V).
  - exists fuel, locs, l1. split; [exact D|]. split; [|exact (offers_any _ _ _ _ _ _ _ O)]. rewrite E1 in D0. exact (leads_app _ _ _ _ _ _ _ R D0).
Qed.
Print Assumptions C84_constant_partial.
Theorem C84_constant_of_interface_partial : forall (T : Text) (X : XorFilter) root h st q cur ac name t ts i,
  text_ok T -> Forall event_ok h -> run root h = Some st -> unique_names h -> ~ In NUL name -> no_shared_constants h -> (name <> [] -> forall scope, no_longer_constant h scope name) -> 
  (forall scope m, const_named h scope name m -> ~ In COLON (mb_name m)) ->
  asked true false false (const_db st) q -> unasked q name -> interface_named h (ts_fqn t) i ->
  acyclic (workspace h (const_named h)) ->
  exists n locs l, (forall fuel, (n <= fuel)%nat -> ScopedConstantAccess_definition st fuel q cur ac name (t :: ts) = Some locs)
    /\ leads cc_location l (ts = []) locs
    /\ offers_between (interface_belongs (workspace h (const_named h)) i name) (fun _ _ => False)
         (fun m => static_access cur ac m \/ mb_visibility m = Protected) (fun m => static_access cur ac m /\ mb_visibility m = Public) l.
Proof.
  intros T X root h st q cur ac name t ts i TOK OK RUN UN NN NSC NLC NCL A U IN AC .
  assert (SW := const_world TOK root h st OK RUN name NN NSC NLC).
  assert (AC' : acyclic (const_db st)) by (destruct AC as [rank AC]; exists rank; intros d p P; apply AC; exact (same_parent_w no_nul name _ _ SW d p P)).
  destruct (C84_ends_partial T X st cur ac name (t :: ts)) as (_ & _ & _ & _ & EN). destruct (EN AC' q) as (fuel & locs & D). assert (D0 := D fuel (le_n fuel)).
  unfold ScopedConstantAccess_definition in D0. destruct (led_to_some _ _ _ _ D0) as (q' & l & EL). rewrite EL in D0.
  destruct (interface_first TOK root h st OK RUN (Query_GetClassConsts st) (const_named h) name SW true false false true false fuel
    (get_const st fuel name) (get_interface_const st fuel name) no_traits (fun _ _ => 0%Z) [] (fun _ _ _ => search_nothing _ _ _ _) (fun _ _ _ _ => search_nothing _ _ _ _) (fun F => False_ind _ (Bool.diff_false_true F)) (fun F => False_ind _ (Bool.diff_false_true F))
    (IsInheritedStatic cur ac) (fun x => x)) with (may := fun m : class_const => (static_access cur ac m \/ mb_visibility m = Protected)) (must := fun m : class_const => (static_access cur ac m /\ mb_visibility m = Public)) (q := q) (t := t) (ts := ts) (q' := q') (l := l) (i := i) as (l1 & rest & E1 & R & O); auto; try (intros F; discriminate F).
  - intros rel m G K. exact (static_may_or _ _ cur ac rel m K).
  - intros rel m G K. destruct K as (K & V). exact (static_must _ _ cur ac rel m K V).
  - exists fuel, locs, l1. split; [exact D|]. split; [|exact (offers_any _ _ _ _ _ _ _ O)]. rewrite E1 in D0. exact (leads_app _ _ _ _ _ _ _ R D0).
Qed.
Print Assumptions C84_constant_of_interface_partial.

(** With two types the second can miss methods it has: the receiver is an A or
    a B, both classes extend P, and both implement I.  B's method [run] is that of P, but I was searched
    for A before, and its answer comes with the map of all names searched then,
    P among them. *)
Definition union_access : access := Access (B "$x") [ty "\A"; ty "\B"].
Theorem C84_union_refuted : exists st m sc q l q' l',
  run root_uri family = Some st
  /\ has_member (workspace family (method_named family)) true true (B "\B") (B "run") m sc /\ m_visibility m = Public
  /\ MethodAccess_members st 9 NewQuery [] union_access (B "run") [ty "\B"] = Some (q, l) /\ In m (map ws_member l)
  /\ MethodAccess_members st 9 NewQuery [] union_access (B "run") [ty "\A"; ty "\B"] = Some (q', l') /\ ~ In m (map ws_member l').
Proof.
  destruct (run root_uri family) as [st|] eqn:R; [|vm_compute in R; discriminate R].
  destruct (MethodAccess_members st 9 NewQuery [] union_access (B "run") [ty "\B"]) as [(q, l)|] eqn:E1; [|vm_compute in R; injection R as <-; vm_compute in E1; discriminate E1].
  destruct (MethodAccess_members st 9 NewQuery [] union_access (B "run") [ty "\A"; ty "\B"]) as [(q', l')|] eqn:E2; [|vm_compute in R; injection R as <-; vm_compute in E2; discriminate E2].
  assert (L1 : exists y, l = [y] /\ m_visibility (ws_member y) = Public /\ m_scope (ws_member y) = ty "\P").
  { revert E1. clear - R. vm_compute in R. injection R as <-. intros E1. vm_compute in E1. injection E1 as _ <-. eexists. split; [reflexivity|]. split; reflexivity. }
  assert (L2 : exists y, l' = [y] /\ m_scope (ws_member y) = ty "\A").
  { revert E2. clear - R. vm_compute in R. injection R as <-. intros E2. vm_compute in E2. injection E2 as _ <-. eexists. split; reflexivity. }
  destruct L1 as (y & -> & V & S). destruct L2 as (y' & -> & S').
  exists st, (ws_member y), (ws_scope y), q, [y], q', [y']. split; [reflexivity|]. split; [|split; [exact V|split; [exact E1|split; [left; reflexivity|split; [exact E2|]]]]].
  - destruct (types_sound ascii_text_ok root_uri family st family_ok R (Query_GetMethods st) (method_named family) (B "run")) with (relate := false) (marks := true) (traits := true) (interfaces := true) (trts := true) (fuel := 9%nat)
      (score := fun _ _ : gostr => 0%Z) (keyword := @nil byte) (gc := get_method st 9 (B "run")) (gi := get_interface_method st 9 (B "run")) (gt := get_trait_method st (B "run")) (ok := fun rel (m : method) => IsInherited [] union_access rel m)
      (adjust := (fun x : with_scope method => if mb_static (ws_member x) then WithScope (ws_member x) (ws_scope x) (ws_score x - staticInAccessCost) else x))
      (may := fun m : method => arrow_access [] union_access m) (q := @NewQuery method) (types := [ty "\B"]) (q' := q) (l := [y]) (y := y) as (t & [<-|[]] & H & _ & _).
    + apply (method_world ascii_text_ok root_uri family st family_ok R). cbn. intuition discriminate.
    + intros. apply search_nothing.
    + intros. apply search_nothing.
    + reflexivity.
    + reflexivity.
    + intros x. destruct (mb_static (ws_member x)); auto.
    + intros rel m G K. apply (arrow_may _ _ [] union_access rel m G). exact K.
    + constructor.
    + exact E1.
    + left. reflexivity.
    + exact H.
  - intros [E|[]]. rewrite E in S'. rewrite S in S'. discriminate S'.
Qed.
Print Assumptions C84_union_refuted.

(** Go to definition from [$x->run()] where [$x] is an A, and from [A::MAX]. *)
Example C84_hypotheses_met : exists st, run root_uri family = Some st
  /\ unique_names family /\ class_named family (B "\A") class_A /\ (forall u, ~ trait_named family (B "\A") u)
  /\ (forall scope m, method_named family scope (B "run") m -> ~ In COLON (mb_name m))
  /\ asked false true true (method_db st) NewQuery /\ unasked (@NewQuery method) (B "run")
  /\ option_map (map l_uri) (MethodAccess_definition st 9 NewQuery [] (Access (B "$x") [ty "\A"]) (B "run") [ty "\A"]) = Some [uri_a]
  /\ option_map (map l_uri) (PropertyAccess_definition st 9 NewQuery [] (Access (B "$x") [ty "\A"]) (B "a") [ty "\A"]) = Some [uri_a]
  /\ option_map (map l_uri) (ScopedConstantAccess_definition st 9 NewQuery [] (Access (B "A") [ty "\A"]) (B "MAX") [ty "\A"]) = Some [uri_a]
  /\ option_map (map l_uri) (ScopedMethodAccess_definition st 9 NewQuery [] (Access (B "P") [ty "\P"]) (B "secret") [ty "\P"]) = Some [uri_a].
Proof.
  destruct C37_hypotheses_met as (_ & _ & UN & CA & _).
  destruct (run root_uri family) as [st|] eqn:R; [|vm_compute in R; discriminate R]. exists st. split; [reflexivity|]. split; [exact UN|]. split; [split; [exact CA|left; reflexivity]|].
  split; [intros u (C & N); family_cases C; vm_compute in N; discriminate N|].
  split. { intros scope m ((s & CS & K) & _ & [N|N]); [discriminate N|]. apply family_symbols in CS. cbn in CS.
    repeat (destruct CS as [H|CS]; [rewrite <- H in K; first [discriminate K|injection K as ->; first [vm_compute in N; discriminate N|vm_compute; intuition discriminate]]|]). destruct CS. }
  split; [constructor|]. split; [split; [|split]; intros f i []|]. vm_compute in R. injection R as <-.
  split; [vm_compute; reflexivity|]. split; [vm_compute; reflexivity|]. split; vm_compute; reflexivity.
Qed.
