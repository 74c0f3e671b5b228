(** Claims about what is shown of the member under the cursor. *)
From Coq Require Import String.
From Coq Require Import List Bool Arith NArith ZArith Lia.
From Coq.Strings Require Import Byte.
From Verif Require Import Base.Bytes Base.BytesProofs Base.Protocol Codec.CodecSpec Symbols.Symbols Symbols.KeysModel Words.TokeniserSpec
  Storage.KvModel Store.FilterModel Store.StoreModel Store.StoreSpec Store.LookupProofs Store.LookupKinds Store.Examples
  Types.TypesModel Types.ImportModel Types.ImportSpec Claims.Imports
  Query.QueryModel Query.QueryStoreModel Query.QuerySpec Query.QueryProofs Query.QueryMembers Query.QueryClaimProofs
  Query.QueryHistorySpec Query.QueryHistory Query.QuerySound Claims.Queries
  Whole.DefinitionModel Whole.DefinitionProofs Members.MemberModel Members.MemberSpec Members.MemberProofs Members.MemberHistory Claims.Members
  Hover.HoverModel Hover.HoverSpec Hover.HoverProofs.
Import ListNotations.
Open Scope list_scope.

Local Open Scope string_scope.
Local Open Scope list_scope.

(** ** C88 for members *)
Lemma member_text_some : forall M (format : M -> scope_symbol -> gostr) found text, member_text format found = Some text ->
  exists q l, found = Some (q, l) /\ text = concat (map (format_with format) l).
Proof. intros M format [(q, l)|] text E; [|discriminate E]. injection E as <-. eauto. Qed.
Lemma sections_app : forall M (format : M -> scope_symbol -> gostr) (shows : with_scope M -> gostr -> Prop) q l1 rest (only : Prop) text, (forall y, shows y (format_with format y)) -> (only -> rest = []) ->
  member_text format (Some (q, l1 ++ rest)) = Some text ->
  exists parts others, text = concat parts ++ others /\ Forall2 shows l1 parts /\ (only -> others = []).
Proof.
  intros M format shows q l1 rest only text S R E. injection E as <-. cbn [snd]. exists (map (format_with format) l1), (concat (map (format_with format) rest)). rewrite map_app, concat_app. split; [reflexivity|]. split.
  - induction l1 as [|y l1 IH]; cbn [map]; constructor; [apply S|exact IH].
  - intros O. rewrite (R O). reflexivity.
Qed.

(** Whatever was asked before in the same request, whatever is declared twice,
    and however many types the receiver has: each part of what is shown of
    [$x->name(...)] shows a method called [name] that one of the receiver's
    types has and that can be accessed there, with the class-like it is declared in. *)
Theorem C88_method_shows_members : forall (T : Text) (X : XorFilter) markdown root h st q cur ac name types fuel shown,
  text_ok T -> Forall event_ok h -> run root h = Some st -> ~ In NUL name -> asked false true true (method_db st) q ->
  MethodAccess_hover markdown st fuel q cur ac name types = Some shown ->
  exists parts, shown = concat parts /\ forall part, In part parts -> exists t m sc, In t types /\ has_member (workspace h (method_named h)) true true (ts_fqn t) name m sc
    /\ arrow_access cur ac m /\ shows_member markdown (method_head m) sc part.
Proof.
  intros T X markdown root h st q cur ac name types fuel shown TOK OK RUN NN A E. unfold MethodAccess_hover in E.
  destruct (member_text_some _ _ _ _ E) as (q' & l & EL & ->). exists (map (format_with (format_method markdown)) l). split; [reflexivity|]. intros part L. apply in_map_iff in L as (y & <- & Y).
  destruct (types_sound TOK root h st OK RUN (Query_GetMethods st) (method_named h) name (method_world TOK root h st OK RUN name NN) false true true true true fuel
    (get_method st fuel name) (get_interface_method st fuel name) (get_trait_method st name) (fun _ _ => 0%Z) [] (fun _ _ _ => search_nothing _ _ _ _) (fun _ _ _ _ => search_nothing _ _ _ _) (fun _ => eq_refl) (fun _ _ _ _ => eq_refl)
    (IsInherited cur ac) (fun x => if mb_static (ws_member x) then WithScope (ws_member x) (ws_scope x) (ws_score x - staticInAccessCost) else x)) with (may := fun m : method => arrow_access cur ac m) (q := q) (types := types) (q' := q') (l := l) (y := y) as (t & It & Hm & Ma & _).
  - intros x. destruct (mb_static (ws_member x)); auto.
  - intros rel m G K. apply (arrow_may _ _ cur ac rel m G). exact K.
  - exact A.
  - exact EL.
  - exact Y.
  - exists t, (ws_member y), (ws_scope y). split; [exact It|]. split; [exact Hm|]. split; [exact Ma|apply method_formatted].
Qed.
Print Assumptions C88_method_shows_members.

(** The same for the other accesses: [X::name(...)], [$x->name], [X::$name] and
    [X::name]. *)
Theorem C88_scoped_method_shows_members : forall (T : Text) (X : XorFilter) markdown root h st q cur ac name types fuel shown,
  text_ok T -> Forall event_ok h -> run root h = Some st -> ~ In NUL name -> asked false true true (method_db st) q ->
  ScopedMethodAccess_hover markdown st fuel q cur ac name types = Some shown ->
  exists parts, shown = concat parts /\ forall part, In part parts -> exists t m sc, In t types /\ has_member (workspace h (method_named h)) false false (ts_fqn t) name m sc
    /\ static_access cur ac m /\ shows_member markdown (method_head m) sc part.
Proof.
  intros T X markdown root h st q cur ac name types fuel shown TOK OK RUN NN A E. unfold ScopedMethodAccess_hover in E.
  destruct (member_text_some _ _ _ _ E) as (q' & l & EL & ->). exists (map (format_with (format_method markdown)) l). split; [reflexivity|]. intros part L. apply in_map_iff in L as (y & <- & Y).
  destruct (types_sound TOK root h st OK RUN (Query_GetMethods st) (method_named h) name (method_world TOK root h st OK RUN name NN) false true true false false fuel
    (get_method st fuel name) no_interfaces no_traits (fun _ _ => 0%Z) [] (fun _ _ _ => search_nothing _ _ _ _) (fun F => False_ind _ (Bool.diff_false_true F)) (fun F => False_ind _ (Bool.diff_false_true F)) (fun F => False_ind _ (Bool.diff_false_true F))
    (IsInheritedStatic cur ac) (fun x => x)) with (may := fun m : method => static_access cur ac m) (q := q) (types := types) (q' := q') (l := l) (y := y) as (t & It & Hm & Ma & _).
  - intros x. auto.
  - intros rel m G K. apply (static_may _ _ cur ac rel m G). exact K.
  - exact A.
  - exact EL.
  - exact Y.
  - exists t, (ws_member y), (ws_scope y). split; [exact It|]. split; [exact Hm|]. split; [exact Ma|apply method_formatted].
Qed.
Print Assumptions C88_scoped_method_shows_members.
Theorem C88_property_shows_members : forall (T : Text) (X : XorFilter) markdown root h st q cur ac name types fuel shown,
  text_ok T -> Forall event_ok h -> run root h = Some st -> ~ In NUL (B "$" ++ name) -> plain_uris h -> asked false false false (prop_db st) q ->
  PropertyAccess_hover markdown st fuel q cur ac name types = Some shown ->
  exists parts, shown = concat parts /\ forall part, In part parts -> exists t m sc, In t types /\ has_member (workspace h (prop_named h)) false false (ts_fqn t) (B "$" ++ name) m sc
    /\ arrow_access cur ac m /\ shows_member markdown (property_head m) sc part.
Proof.
  intros T X markdown root h st q cur ac name types fuel shown TOK OK RUN NN PU A E. unfold PropertyAccess_hover in E.
  destruct (member_text_some _ _ _ _ E) as (q' & l & EL & ->). exists (map (format_with (format_property markdown)) l). split; [reflexivity|]. intros part L. apply in_map_iff in L as (y & <- & Y).
  destruct (types_sound TOK root h st OK RUN (Query_GetProps st) (prop_named h) (B "$" ++ name) (prop_world TOK root h st OK RUN (B "$" ++ name) NN PU) false false false false false fuel
    (get_prop st fuel (B "$" ++ name)) no_interfaces no_traits (fun _ _ => 0%Z) [] (fun _ _ _ => search_nothing _ _ _ _) (fun F => False_ind _ (Bool.diff_false_true F)) (fun F => False_ind _ (Bool.diff_false_true F)) (fun F => False_ind _ (Bool.diff_false_true F))
    (IsInherited cur ac) (fun x => if mb_static (ws_member x) then WithScope (ws_member x) (ws_scope x) (ws_score x - staticInAccessCost) else x)) with (may := fun m : property => arrow_access cur ac m) (q := q) (types := types) (q' := q') (l := l) (y := y) as (t & It & Hm & Ma & _).
  - intros x. destruct (mb_static (ws_member x)); auto.
  - intros rel m G K. apply (arrow_may _ _ cur ac rel m G). exact K.
  - exact A.
  - exact EL.
  - exact Y.
  - exists t, (ws_member y), (ws_scope y). split; [exact It|]. split; [exact Hm|]. split; [exact Ma|apply property_formatted].
Qed.
Print Assumptions C88_property_shows_members.
Theorem C88_scoped_property_shows_members : forall (T : Text) (X : XorFilter) markdown root h st q cur ac name types fuel shown,
  text_ok T -> Forall event_ok h -> run root h = Some st -> ~ In NUL name -> plain_uris h -> asked false false false (prop_db st) q ->
  ScopedPropertyAccess_hover markdown st fuel q cur ac name types = Some shown ->
  exists parts, shown = concat parts /\ forall part, In part parts -> exists t m sc, In t types /\ has_member (workspace h (prop_named h)) false false (ts_fqn t) name m sc
    /\ static_access cur ac m /\ shows_member markdown (property_head m) sc part.
Proof.
  intros T X markdown root h st q cur ac name types fuel shown TOK OK RUN NN PU A E. unfold ScopedPropertyAccess_hover in E.
  destruct (member_text_some _ _ _ _ E) as (q' & l & EL & ->). exists (map (format_with (format_property markdown)) l). split; [reflexivity|]. intros part L. apply in_map_iff in L as (y & <- & Y).
  destruct (types_sound TOK root h st OK RUN (Query_GetProps st) (prop_named h) name (prop_world TOK root h st OK RUN name NN PU) false false false false false fuel
    (get_prop st fuel name) no_interfaces no_traits (fun _ _ => 0%Z) [] (fun _ _ _ => search_nothing _ _ _ _) (fun F => False_ind _ (Bool.diff_false_true F)) (fun F => False_ind _ (Bool.diff_false_true F)) (fun F => False_ind _ (Bool.diff_false_true F))
    (IsInheritedStatic cur ac) (fun x => x)) with (may := fun m : property => static_access cur ac m) (q := q) (types := types) (q' := q') (l := l) (y := y) as (t & It & Hm & Ma & _).
  - intros x. auto.
  - intros rel m G K. apply (static_may _ _ cur ac rel m G). exact K.
  - exact A.
  - exact EL.
  - exact Y.
  - exists t, (ws_member y), (ws_scope y). split; [exact It|]. split; [exact Hm|]. split; [exact Ma|apply property_formatted].
Qed.
Print Assumptions C88_scoped_property_shows_members.
Theorem C88_constant_shows_members : forall (T : Text) (X : XorFilter) markdown root h st q cur ac name types fuel shown,
  text_ok T -> Forall event_ok h -> run root h = Some st -> ~ In NUL name -> no_shared_constants h -> (name <> [] -> forall scope, no_longer_constant h scope name) -> asked true false false (const_db st) q ->
  ScopedConstantAccess_hover markdown st fuel q cur ac name types = Some shown ->
  exists parts, shown = concat parts /\ forall part, In part parts -> exists t m sc, In t types /\ has_member (workspace h (const_named h)) true false (ts_fqn t) name m sc
    /\ (static_access cur ac m \/ mb_visibility m = Protected) /\ shows_member markdown (constant_head m) sc part.
Proof.
  intros T X markdown root h st q cur ac name types fuel shown TOK OK RUN NN NSC NLC A E. unfold ScopedConstantAccess_hover in E.
  destruct (member_text_some _ _ _ _ E) as (q' & l & EL & ->). exists (map (format_with (format_class_const markdown)) l). split; [reflexivity|]. intros part L. apply in_map_iff in L as (y & <- & Y).
  destruct (types_sound TOK root h st OK RUN (Query_GetClassConsts st) (const_named h) name (const_world TOK root h st OK RUN name NN NSC NLC) true false false true false fuel
    (get_const st fuel name) (get_interface_const st fuel name) no_traits (fun _ _ => 0%Z) [] (fun _ _ _ => search_nothing _ _ _ _) (fun _ _ _ _ => search_nothing _ _ _ _) (fun F => False_ind _ (Bool.diff_false_true F)) (fun F => False_ind _ (Bool.diff_false_true F))
    (IsInheritedStatic cur ac) (fun x => x)) with (may := fun m : class_const => (static_access cur ac m \/ mb_visibility m = Protected)) (q := q) (types := types) (q' := q') (l := l) (y := y) as (t & It & Hm & Ma & _).
  - intros x. auto.
  - intros rel m G K. exact (static_may_or _ _ cur ac rel m K).
  - exact A.
  - exact EL.
  - exact Y.
  - exists t, (ws_member y), (ws_scope y). split; [exact It|]. split; [exact Hm|]. split; [exact Ma|apply constant_formatted].
Qed.
Print Assumptions C88_constant_shows_members.

(** What is shown of a method access is found in every state of the query and
    for every store; for properties and constants if no class extends itself. *)
Theorem C88_ends_partial : forall (T : Text) (X : XorFilter) markdown st cur ac name types,
  (forall q, exists n shown, forall fuel, (n <= fuel)%nat -> MethodAccess_hover markdown st fuel q cur ac name types = Some shown)
  /\ (forall q, exists n shown, forall fuel, (n <= fuel)%nat -> ScopedMethodAccess_hover markdown st fuel q cur ac name types = Some shown)
  /\ (acyclic (prop_db st) -> forall q, exists n shown, forall fuel, (n <= fuel)%nat -> PropertyAccess_hover markdown st fuel q cur ac name types = Some shown)
  /\ (acyclic (prop_db st) -> forall q, exists n shown, forall fuel, (n <= fuel)%nat -> ScopedPropertyAccess_hover markdown st fuel q cur ac name types = Some shown)
  /\ (acyclic (const_db st) -> forall q, exists n shown, forall fuel, (n <= fuel)%nat -> ScopedConstantAccess_hover markdown st fuel q cur ac name types = Some shown).
Proof.
  intros T X markdown st cur ac name types.
  assert (LED : forall M (format : M -> scope_symbol -> gostr) (f : nat -> option (query M * list (with_scope M))), (exists n r, forall fuel, (n <= fuel)%nat -> f fuel = Some r) ->
    exists n shown, forall fuel, (n <= fuel)%nat -> member_text format (f fuel) = Some shown).
  { intros M format f (n & r & H). exists n. eexists. intros fuel F. rewrite (H fuel F). reflexivity. }
  split; [|split; [|split; [|split]]].
  - intros q. apply LED. apply (of_types_ends (method_db st) (fun fuel => get_method st fuel name) (fun fuel => get_interface_method st fuel name) (fun _ => get_trait_method st name) true true).
    + exact (class_ends false true (method_db st) true name (store_db_finite _ st) (or_introl eq_refl)).
    + right. exact (interface_ends false (method_db st) name (store_db_finite _ st)).
    + right. exact (trait_ends (method_db st) name).
  - intros q. apply LED. apply (of_types_ends (method_db st) (fun fuel => get_method st fuel name) (fun _ => no_interfaces) (fun _ => no_traits) false false); [|left; reflexivity|left; reflexivity].
    exact (class_ends false true (method_db st) true name (store_db_finite _ st) (or_introl eq_refl)).
  - intros AC q. apply LED. apply (of_types_ends (prop_db st) (fun fuel => get_prop st fuel (B "$" ++ name)) (fun _ => no_interfaces) (fun _ => no_traits) false false); [|left; reflexivity|left; reflexivity].
    exact (class_ends false false (prop_db st) false (B "$" ++ name) (store_db_finite _ st) (or_intror AC)).
  - intros AC q. apply LED. apply (of_types_ends (prop_db st) (fun fuel => get_prop st fuel name) (fun _ => no_interfaces) (fun _ => no_traits) false false); [|left; reflexivity|left; reflexivity].
    exact (class_ends false false (prop_db st) false name (store_db_finite _ st) (or_intror AC)).
  - intros AC q. apply LED. apply (of_types_ends (const_db st) (fun fuel => get_const st fuel name) (fun fuel => get_interface_const st fuel name) (fun _ => no_traits) true false); [| |left; reflexivity].
    + exact (class_ends true false (const_db st) false name (store_db_finite _ st) (or_intror AC)).
    + right. exact (interface_ends true (const_db st) name (store_db_finite _ st)).
Qed.
Print Assumptions C88_ends_partial.

(** If no two class-likes share a name, no member of this name was asked for
    before in the request, and no member name contains a colon: of
    [$x->name(...)] where the first type of [$x] is a class, first what the
    class has is shown: methods that belong to it, can be accessed and are
    overridden by no other accessible one, and of every name one; and nothing
    else if there is no other type.
    What is missing: all but the first type, see C84_union_refuted. *)
Theorem C88_method_of_class_partial : forall (T : Text) (X : XorFilter) markdown root h st q cur ac name t ts c,
  text_ok T -> Forall event_ok h -> run root h = Some st -> unique_names h -> ~ In NUL name -> 
  (forall scope m, method_named h scope name m -> ~ In COLON (mb_name m)) ->
  asked false true true (method_db st) q -> unasked q name -> class_named h (ts_fqn t) c ->
  (forall u, ~ trait_named h (ts_fqn t) u) ->
  exists n l parts others, (forall fuel, (n <= fuel)%nat -> MethodAccess_hover markdown st fuel q cur ac name (t :: ts) = Some (concat parts ++ others))
    /\ Forall2 (fun y part => shows_member markdown (method_head (ws_member y)) (ws_scope y) part) l parts /\ (ts = [] -> others = [])
    /\ class_offers (workspace h (method_named h)) c name (arrow_access cur ac) l.
Proof.
  intros T X markdown root h st q cur ac name t ts c TOK OK RUN UN NN NCL A U C NT .
  assert (SW := method_world TOK root h st OK RUN name NN).
  destruct (C88_ends_partial T X markdown st cur ac name (t :: ts)) as (EN & _). destruct (EN q) as (fuel & shown & D). assert (D0 := D fuel (le_n fuel)).
  unfold MethodAccess_hover in D0. destruct (member_text_some _ _ _ _ D0) as (q' & l & EL & _). rewrite EL in D0.
  destruct (class_first TOK root h st OK RUN (Query_GetMethods st) (method_named h) name SW false true true true true fuel
    (get_method st fuel name) (get_interface_method st fuel name) (get_trait_method st name) (fun _ _ => 0%Z) [] (fun _ _ _ => search_nothing _ _ _ _) (fun _ _ _ _ => search_nothing _ _ _ _) (fun _ => eq_refl) (fun _ _ _ _ => eq_refl)
    (IsInherited cur ac) (fun x => if mb_static (ws_member x) then WithScope (ws_member x) (ws_scope x) (ws_score x - staticInAccessCost) else x)) with (may := fun m : method => arrow_access cur ac m) (must := fun m : method => arrow_access cur ac m) (q := q) (t := t) (ts := ts) (q' := q') (l := l) (c := c) as (l1 & rest & E1 & R & O); auto; try (intros F; discriminate F).
  - intros x. destruct (mb_static (ws_member x)); auto.
  - intros rel m G K. apply (arrow_may _ _ cur ac rel m G). exact K.
  - intros rel m G K. apply (arrow_may _ _ cur ac rel m G). exact K.
  - rewrite E1 in D0. destruct (sections_app _ (format_method markdown) (fun y part => shows_member markdown (method_head (ws_member y)) (ws_scope y) part) _ _ _ _ _ (fun y => method_formatted markdown (ws_member y) (ws_scope y)) R D0) as (parts & others & -> & F & N).
    exists fuel, l1, parts, others. split; [exact D|]. split; [exact F|]. split; [exact N|exact (offers_any _ _ _ _ _ _ _ O)].
Qed.
Print Assumptions C88_method_of_class_partial.
(** The same where the first type is an interface, *)
Theorem C88_method_of_interface_partial : forall (T : Text) (X : XorFilter) markdown root h st q cur ac name t ts i,
  text_ok T -> Forall event_ok h -> run root h = Some st -> unique_names h -> ~ In NUL name -> 
  (forall scope m, method_named h scope name m -> ~ In COLON (mb_name m)) ->
  asked false true true (method_db st) q -> unasked q name -> interface_named h (ts_fqn t) i ->
  (forall u, ~ trait_named h (ts_fqn t) u) ->
  exists n l parts others, (forall fuel, (n <= fuel)%nat -> MethodAccess_hover markdown st fuel q cur ac name (t :: ts) = Some (concat parts ++ others))
    /\ Forall2 (fun y part => shows_member markdown (method_head (ws_member y)) (ws_scope y) part) l parts /\ (ts = [] -> others = [])
    /\ interface_offers (workspace h (method_named h)) i name (arrow_access cur ac) l.
Proof.
  intros T X markdown root h st q cur ac name t ts i TOK OK RUN UN NN NCL A U I NT .
  assert (SW := method_world TOK root h st OK RUN name NN).
  destruct (C88_ends_partial T X markdown st cur ac name (t :: ts)) as (EN & _). destruct (EN q) as (fuel & shown & D). assert (D0 := D fuel (le_n fuel)).
  unfold MethodAccess_hover in D0. destruct (member_text_some _ _ _ _ D0) as (q' & l & EL & _). rewrite EL in D0.
  destruct (interface_first TOK root h st OK RUN (Query_GetMethods st) (method_named h) name SW false true true true true fuel
    (get_method st fuel name) (get_interface_method st fuel name) (get_trait_method st name) (fun _ _ => 0%Z) [] (fun _ _ _ => search_nothing _ _ _ _) (fun _ _ _ _ => search_nothing _ _ _ _) (fun _ => eq_refl) (fun _ _ _ _ => eq_refl)
    (IsInherited cur ac) (fun x => if mb_static (ws_member x) then WithScope (ws_member x) (ws_scope x) (ws_score x - staticInAccessCost) else x)) with (may := fun m : method => arrow_access cur ac m) (must := fun m : method => arrow_access cur ac m) (q := q) (t := t) (ts := ts) (q' := q') (l := l) (i := i) as (l1 & rest & E1 & R & O); auto; try (intros F; discriminate F).
  - intros x. destruct (mb_static (ws_member x)); auto.
  - intros rel m G K. apply (arrow_may _ _ cur ac rel m G). exact K.
  - intros rel m G K. apply (arrow_may _ _ cur ac rel m G). exact K.
  - rewrite E1 in D0. destruct (sections_app _ (format_method markdown) (fun y part => shows_member markdown (method_head (ws_member y)) (ws_scope y) part) _ _ _ _ _ (fun y => method_formatted markdown (ws_member y) (ws_scope y)) R D0) as (parts & others & -> & F & N).
    exists fuel, l1, parts, others. split; [exact D|]. split; [exact F|]. split; [exact N|exact (offers_any _ _ _ _ _ _ _ O)].
Qed.
Print Assumptions C88_method_of_interface_partial.
(** or a trait. *)
Theorem C88_method_of_trait_partial : forall (T : Text) (X : XorFilter) markdown root h st q cur ac name t ts u,
  text_ok T -> Forall event_ok h -> run root h = Some st -> unique_names h -> ~ In NUL name -> 
  (forall scope m, method_named h scope name m -> ~ In COLON (mb_name m)) ->
  asked false true true (method_db st) q -> unasked q name -> trait_named h (ts_fqn t) u ->
  (forall c, ~ class_named h (ts_fqn t) c) -> (forall i, ~ interface_named h (ts_fqn t) i) ->
  exists n l parts others, (forall fuel, (n <= fuel)%nat -> MethodAccess_hover markdown st fuel q cur ac name (t :: ts) = Some (concat parts ++ others))
    /\ Forall2 (fun y part => shows_member markdown (method_head (ws_member y)) (ws_scope y) part) l parts /\ (ts = [] -> others = [])
    /\ trait_offers (workspace h (method_named h)) u name (arrow_access cur ac) l.
Proof.
  intros T X markdown root h st q cur ac name t ts u TOK OK RUN UN NN NCL A UA UT NC NI .
  assert (SW := method_world TOK root h st OK RUN name NN).
  destruct (C88_ends_partial T X markdown st cur ac name (t :: ts)) as (EN & _). destruct (EN q) as (fuel & shown & D). assert (D0 := D fuel (le_n fuel)).
  unfold MethodAccess_hover in D0. destruct (member_text_some _ _ _ _ D0) as (q' & l & EL & _). rewrite EL in D0.
  destruct (trait_first TOK root h st OK RUN (Query_GetMethods st) (method_named h) name SW false true true true true fuel
    (get_method st fuel name) (get_interface_method st fuel name) (get_trait_method st name) (fun _ _ => 0%Z) [] (fun _ _ _ => search_nothing _ _ _ _) (fun _ _ _ _ => search_nothing _ _ _ _) (fun _ => eq_refl) (fun _ _ _ _ => eq_refl)
    (IsInherited cur ac) (fun x => if mb_static (ws_member x) then WithScope (ws_member x) (ws_scope x) (ws_score x - staticInAccessCost) else x)) with (may := fun m : method => arrow_access cur ac m) (must := fun m : method => arrow_access cur ac m) (q := q) (t := t) (ts := ts) (q' := q') (l := l) (u := u) as (l1 & rest & E1 & R & O); auto; try (intros F; discriminate F).
  - intros x. destruct (mb_static (ws_member x)); auto.
  - intros rel m G K. apply (arrow_may _ _ cur ac rel m G). exact K.
  - intros rel m G K. apply (arrow_may _ _ cur ac rel m G). exact K.
  - rewrite E1 in D0. destruct (sections_app _ (format_method markdown) (fun y part => shows_member markdown (method_head (ws_member y)) (ws_scope y) part) _ _ _ _ _ (fun y => method_formatted markdown (ws_member y) (ws_scope y)) R D0) as (parts & others & -> & F & N).
    exists fuel, l1, parts, others. split; [exact D|]. split; [exact F|]. split; [exact N|exact (offers_any _ _ _ _ _ _ _ O)].
Qed.
Print Assumptions C88_method_of_trait_partial.
(** The same for [X::name(...)], *)
Theorem C88_scoped_method_partial : forall (T : Text) (X : XorFilter) markdown root h st q cur ac name t ts c,
  text_ok T -> Forall event_ok h -> run root h = Some st -> unique_names h -> ~ In NUL name -> 
  (forall scope m, method_named h scope name m -> ~ In COLON (mb_name m)) ->
  asked false true true (method_db st) q -> unasked q name -> class_named h (ts_fqn t) c ->
  exists n l parts others, (forall fuel, (n <= fuel)%nat -> ScopedMethodAccess_hover markdown st fuel q cur ac name (t :: ts) = Some (concat parts ++ others))
    /\ Forall2 (fun y part => shows_member markdown (method_head (ws_member y)) (ws_scope y) part) l parts /\ (ts = [] -> others = [])
    /\ class_offers (workspace h (method_named h)) c name (static_access cur ac) l.
Proof.
  intros T X markdown root h st q cur ac name t ts c TOK OK RUN UN NN NCL A U C .
  assert (SW := method_world TOK root h st OK RUN name NN).
  destruct (C88_ends_partial T X markdown st cur ac name (t :: ts)) as (_ & EN & _). destruct (EN q) as (fuel & shown & D). assert (D0 := D fuel (le_n fuel)).
  unfold ScopedMethodAccess_hover in D0. destruct (member_text_some _ _ _ _ D0) as (q' & l & EL & _). rewrite EL in D0.
  destruct (class_first TOK root h st OK RUN (Query_GetMethods st) (method_named h) name SW false true true false false fuel
    (get_method st fuel name) no_interfaces no_traits (fun _ _ => 0%Z) [] (fun _ _ _ => search_nothing _ _ _ _) (fun F => False_ind _ (Bool.diff_false_true F)) (fun F => False_ind _ (Bool.diff_false_true F)) (fun F => False_ind _ (Bool.diff_false_true F))
    (IsInheritedStatic cur ac) (fun x => x)) with (may := fun m : method => static_access cur ac m) (must := fun m : method => static_access cur ac m) (q := q) (t := t) (ts := ts) (q' := q') (l := l) (c := c) as (l1 & rest & E1 & R & O); auto; try (intros F; discriminate F).
  - intros rel m G K. apply (static_may _ _ cur ac rel m G). exact K.
  - intros rel m G K. apply (static_may _ _ cur ac rel m G). exact K.
  - rewrite E1 in D0. destruct (sections_app _ (format_method markdown) (fun y part => shows_member markdown (method_head (ws_member y)) (ws_scope y) part) _ _ _ _ _ (fun y => method_formatted markdown (ws_member y) (ws_scope y)) R D0) as (parts & others & -> & F & N).
    exists fuel, l1, parts, others. split; [exact D|]. split; [exact F|]. split; [exact N|exact (offers_any _ _ _ _ _ _ _ O)].
Qed.
Print Assumptions C88_scoped_method_partial.
(** [$x->name] and [X::$name], if no class extends itself and the traits have
    no such property, *)
Theorem C88_property_partial : forall (T : Text) (X : XorFilter) markdown root h st q cur ac name t ts c,
  text_ok T -> Forall event_ok h -> run root h = Some st -> unique_names h -> ~ In NUL (B "$" ++ name) -> plain_uris h -> 
  (forall scope m, prop_named h scope (B "$" ++ name) m -> ~ In COLON (mb_name m)) ->
  asked false false false (prop_db st) q -> unasked q (B "$" ++ name) -> class_named h (ts_fqn t) c ->
  (forall d u p, ancestor (workspace h (prop_named h)) c d -> uses (workspace h (prop_named h)) d u -> ~ prop_named h (ts_fqn (t_name u)) (B "$" ++ name) p) ->
  acyclic (workspace h (prop_named h)) ->
  exists n l parts others, (forall fuel, (n <= fuel)%nat -> PropertyAccess_hover markdown st fuel q cur ac name (t :: ts) = Some (concat parts ++ others))
    /\ Forall2 (fun y part => shows_member markdown (property_head (ws_member y)) (ws_scope y) part) l parts /\ (ts = [] -> others = [])
    /\ class_offers (workspace h (prop_named h)) c (B "$" ++ name) (arrow_access cur ac) l.
Proof.
  intros T X markdown root h st q cur ac name t ts c TOK OK RUN UN NN PU NCL A U C NT AC .
  assert (SW := prop_world TOK root h st OK RUN (B "$" ++ name) NN PU).
  assert (AC' : acyclic (prop_db st)) by (destruct AC as [rank AC]; exists rank; intros d p P; apply AC; exact (same_parent_w no_nul (B "$" ++ name) _ _ SW d p P)).
  destruct (C88_ends_partial T X markdown st cur ac name (t :: ts)) as (_ & _ & EN & _). destruct (EN AC' q) as (fuel & shown & D). assert (D0 := D fuel (le_n fuel)).
  unfold PropertyAccess_hover in D0. destruct (member_text_some _ _ _ _ D0) as (q' & l & EL & _). rewrite EL in D0.
  destruct (class_first TOK root h st OK RUN (Query_GetProps st) (prop_named h) (B "$" ++ name) SW false false false false false fuel
    (get_prop st fuel (B "$" ++ name)) no_interfaces no_traits (fun _ _ => 0%Z) [] (fun _ _ _ => search_nothing _ _ _ _) (fun F => False_ind _ (Bool.diff_false_true F)) (fun F => False_ind _ (Bool.diff_false_true F)) (fun F => False_ind _ (Bool.diff_false_true F))
    (IsInherited cur ac) (fun x => if mb_static (ws_member x) then WithScope (ws_member x) (ws_scope x) (ws_score x - staticInAccessCost) else x)) with (may := fun m : property => arrow_access cur ac m) (must := fun m : property => arrow_access cur ac m) (q := q) (t := t) (ts := ts) (q' := q') (l := l) (c := c) as (l1 & rest & E1 & R & O); auto; try (intros F; discriminate F).
  - intros x. destruct (mb_static (ws_member x)); auto.
  - intros rel m G K. apply (arrow_may _ _ cur ac rel m G). exact K.
  - intros rel m G K. apply (arrow_may _ _ cur ac rel m G). exact K.
  - rewrite E1 in D0. destruct (sections_app _ (format_property markdown) (fun y part => shows_member markdown (property_head (ws_member y)) (ws_scope y) part) _ _ _ _ _ (fun y => property_formatted markdown (ws_member y) (ws_scope y)) R D0) as (parts & others & -> & F & N).
    exists fuel, l1, parts, others. split; [exact D|]. split; [exact F|]. split; [exact N|exact (offers_any _ _ _ _ _ _ _ O)].
Qed.
Print Assumptions C88_property_partial.
Theorem C88_scoped_property_partial : forall (T : Text) (X : XorFilter) markdown root h st q cur ac name t ts c,
  text_ok T -> Forall event_ok h -> run root h = Some st -> unique_names h -> ~ In NUL name -> plain_uris h -> 
  (forall scope m, prop_named h scope name m -> ~ In COLON (mb_name m)) ->
  asked false false false (prop_db st) q -> unasked q name -> class_named h (ts_fqn t) c ->
  (forall d u p, ancestor (workspace h (prop_named h)) c d -> uses (workspace h (prop_named h)) d u -> ~ prop_named h (ts_fqn (t_name u)) name p) ->
  acyclic (workspace h (prop_named h)) ->
  exists n l parts others, (forall fuel, (n <= fuel)%nat -> ScopedPropertyAccess_hover markdown st fuel q cur ac name (t :: ts) = Some (concat parts ++ others))
    /\ Forall2 (fun y part => shows_member markdown (property_head (ws_member y)) (ws_scope y) part) l parts /\ (ts = [] -> others = [])
    /\ class_offers (workspace h (prop_named h)) c name (static_access cur ac) l.
Proof.
  intros T X markdown root h st q cur ac name t ts c TOK OK RUN UN NN PU NCL A U C NT AC .
  assert (SW := prop_world TOK root h st OK RUN name NN PU).
  assert (AC' : acyclic (prop_db st)) by (destruct AC as [rank AC]; exists rank; intros d p P; apply AC; exact (same_parent_w no_nul name _ _ SW d p P)).
  destruct (C88_ends_partial T X markdown st cur ac name (t :: ts)) as (_ & _ & _ & EN & _). destruct (EN AC' q) as (fuel & shown & D). assert (D0 := D fuel (le_n fuel)).
  unfold ScopedPropertyAccess_hover in D0. destruct (member_text_some _ _ _ _ D0) as (q' & l & EL & _). rewrite EL in D0.
  destruct (class_first TOK root h st OK RUN (Query_GetProps st) (prop_named h) name SW false false false false false fuel
    (get_prop st fuel name) no_interfaces no_traits (fun _ _ => 0%Z) [] (fun _ _ _ => search_nothing _ _ _ _) (fun F => False_ind _ (Bool.diff_false_true F)) (fun F => False_ind _ (Bool.diff_false_true F)) (fun F => False_ind _ (Bool.diff_false_true F))
    (IsInheritedStatic cur ac) (fun x => x)) with (may := fun m : property => static_access cur ac m) (must := fun m : property => static_access cur ac m) (q := q) (t := t) (ts := ts) (q' := q') (l := l) (c := c) as (l1 & rest & E1 & R & O); auto; try (intros F; discriminate F).
  - intros rel m G K. apply (static_may _ _ cur ac rel m G). exact K.
  - intros rel m G K. apply (static_may _ _ cur ac rel m G). exact K.
  - rewrite E1 in D0. destruct (sections_app _ (format_property markdown) (fun y part => shows_member markdown (property_head (ws_member y)) (ws_scope y) part) _ _ _ _ _ (fun y => property_formatted markdown (ws_member y) (ws_scope y)) R D0) as (parts & others & -> & F & N).
    exists fuel, l1, parts, others. split; [exact D|]. split; [exact F|]. split; [exact N|exact (offers_any _ _ _ _ _ _ _ O)].
Qed.
Print Assumptions C88_scoped_property_partial.
(** and for [X::name], where the public constants are certain. *)
Theorem C88_constant_partial : forall (T : Text) (X : XorFilter) markdown root h st q cur ac name t ts c,
  text_ok T -> Forall event_ok h -> run root h = Some st -> unique_names h -> ~ In NUL name -> no_shared_constants h -> (name <> [] -> forall scope, no_longer_constant h scope name) -> 
  (forall scope m, const_named h scope name m -> ~ In COLON (mb_name m)) ->
  asked true false false (const_db st) q -> unasked q name -> class_named h (ts_fqn t) c ->
  (forall d u p, ancestor (workspace h (const_named h)) c d -> uses (workspace h (const_named h)) d u -> ~ const_named h (ts_fqn (t_name u)) name p) ->
  acyclic (workspace h (const_named h)) ->
  exists n l parts others, (forall fuel, (n <= fuel)%nat -> ScopedConstantAccess_hover markdown st fuel q cur ac name (t :: ts) = Some (concat parts ++ others))
    /\ Forall2 (fun y part => shows_member markdown (constant_head (ws_member y)) (ws_scope y) part) l parts /\ (ts = [] -> others = [])
    /\ offers_between (belongs (workspace h (const_named h)) c name) (overrides (workspace h (const_named h)) c)
         (fun m => static_access cur ac m \/ mb_visibility m = Protected) (fun m => static_access cur ac m /\ mb_visibility m = Public) l.
Proof.
  intros T X markdown root h st q cur ac name t ts c TOK OK RUN UN NN NSC NLC NCL A U C NT AC .
  assert (SW := const_world TOK root h st OK RUN name NN NSC NLC).
  assert (AC' : acyclic (const_db st)) by (destruct AC as [rank AC]; exists rank; intros d p P; apply AC; exact (same_parent_w no_nul name _ _ SW d p P)).
  destruct (C88_ends_partial T X markdown st cur ac name (t :: ts)) as (_ & _ & _ & _ & EN). destruct (EN AC' q) as (fuel & shown & D). assert (D0 := D fuel (le_n fuel)).
  unfold ScopedConstantAccess_hover in D0. destruct (member_text_some _ _ _ _ D0) as (q' & l & EL & _). rewrite EL in D0.
  destruct (class_first TOK root h st OK RUN (Query_GetClassConsts st) (const_named h) name SW true false false true false fuel
    (get_const st fuel name) (get_interface_const st fuel name) no_traits (fun _ _ => 0%Z) [] (fun _ _ _ => search_nothing _ _ _ _) (fun _ _ _ _ => search_nothing _ _ _ _) (fun F => False_ind _ (Bool.diff_false_true F)) (fun F => False_ind _ (Bool.diff_false_true F))
    (IsInheritedStatic cur ac) (fun x => x)) with (may := fun m : class_const => (static_access cur ac m \/ mb_visibility m = Protected)) (must := fun m : class_const => (static_access cur ac m /\ mb_visibility m = Public)) (q := q) (t := t) (ts := ts) (q' := q') (l := l) (c := c) as (l1 & rest & E1 & R & O); auto; try (intros F; discriminate F).
  - intros rel m G K. exact (static_may_or _ _ cur ac rel m K).
  - intros rel m G K. destruct K as (K & V). exact (static_must _ _ cur ac rel m K V).
  - rewrite E1 in D0. destruct (sections_app _ (format_class_const markdown) (fun y part => shows_member markdown (constant_head (ws_member y)) (ws_scope y) part) _ _ _ _ _ (fun y => constant_formatted markdown (ws_member y) (ws_scope y)) R D0) as (parts & others & -> & F & N).
    exists fuel, l1, parts, others. split; [exact D|]. split; [exact F|]. split; [exact N|exact (offers_any _ _ _ _ _ _ _ O)].
Qed.
Print Assumptions C88_constant_partial.
Theorem C88_constant_of_interface_partial : forall (T : Text) (X : XorFilter) markdown root h st q cur ac name t ts i,
  text_ok T -> Forall event_ok h -> run root h = Some st -> unique_names h -> ~ In NUL name -> no_shared_constants h -> (name <> [] -> forall scope, no_longer_constant h scope name) -> 
  (forall scope m, const_named h scope name m -> ~ In COLON (mb_name m)) ->
  asked true false false (const_db st) q -> unasked q name -> interface_named h (ts_fqn t) i ->
  acyclic (workspace h (const_named h)) ->
  exists n l parts others, (forall fuel, (n <= fuel)%nat -> ScopedConstantAccess_hover markdown st fuel q cur ac name (t :: ts) = Some (concat parts ++ others))
    /\ Forall2 (fun y part => shows_member markdown (constant_head (ws_member y)) (ws_scope y) part) l parts /\ (ts = [] -> others = [])
    /\ offers_between (interface_belongs (workspace h (const_named h)) i name) (fun _ _ => False)
         (fun m => static_access cur ac m \/ mb_visibility m = Protected) (fun m => static_access cur ac m /\ mb_visibility m = Public) l.
Proof.
  intros T X markdown root h st q cur ac name t ts i TOK OK RUN UN NN NSC NLC NCL A U IN AC .
  assert (SW := const_world TOK root h st OK RUN name NN NSC NLC).
  assert (AC' : acyclic (const_db st)) by (destruct AC as [rank AC]; exists rank; intros d p P; apply AC; exact (same_parent_w no_nul name _ _ SW d p P)).
  destruct (C88_ends_partial T X markdown st cur ac name (t :: ts)) as (_ & _ & _ & _ & EN). destruct (EN AC' q) as (fuel & shown & D). assert (D0 := D fuel (le_n fuel)).
  unfold ScopedConstantAccess_hover in D0. destruct (member_text_some _ _ _ _ D0) as (q' & l & EL & _). rewrite EL in D0.
  destruct (interface_first TOK root h st OK RUN (Query_GetClassConsts st) (const_named h) name SW true false false true false fuel
    (get_const st fuel name) (get_interface_const st fuel name) no_traits (fun _ _ => 0%Z) [] (fun _ _ _ => search_nothing _ _ _ _) (fun _ _ _ _ => search_nothing _ _ _ _) (fun F => False_ind _ (Bool.diff_false_true F)) (fun F => False_ind _ (Bool.diff_false_true F))
    (IsInheritedStatic cur ac) (fun x => x)) with (may := fun m : class_const => (static_access cur ac m \/ mb_visibility m = Protected)) (must := fun m : class_const => (static_access cur ac m /\ mb_visibility m = Public)) (q := q) (t := t) (ts := ts) (q' := q') (l := l) (i := i) as (l1 & rest & E1 & R & O); auto; try (intros F; discriminate F).
  - intros rel m G K. exact (static_may_or _ _ cur ac rel m K).
  - intros rel m G K. destruct K as (K & V). exact (static_must _ _ cur ac rel m K V).
  - rewrite E1 in D0. destruct (sections_app _ (format_class_const markdown) (fun y part => shows_member markdown (constant_head (ws_member y)) (ws_scope y) part) _ _ _ _ _ (fun y => constant_formatted markdown (ws_member y) (ws_scope y)) R D0) as (parts & others & -> & F & N).
    exists fuel, l1, parts, others. split; [exact D|]. split; [exact F|]. split; [exact N|exact (offers_any _ _ _ _ _ _ _ O)].
Qed.
Print Assumptions C88_constant_of_interface_partial.

(** [$x->run()] where [$x] is an A, and [A::MAX]. *)
Example C88_members_hypotheses_met : exists st, run root_uri family = Some st
  /\ unique_names family /\ class_named family (B "\A") class_A /\ (forall u, ~ trait_named family (B "\A") u)
  /\ (forall scope m, method_named family scope (B "run") m -> ~ In COLON (mb_name m))
  /\ asked false true true (method_db st) NewQuery /\ unasked (@NewQuery method) (B "run")
  /\ MethodAccess_hover (fun s => s) st 9 NewQuery [] (Access (B "$x") [ty "\A"]) (B "run") [ty "\A"] = Some (B "```php
<?php
public function run(): \int
```

____

`class \A`
____
")
  /\ ScopedConstantAccess_hover (fun s => s) st 9 NewQuery [] (Access (B "A") [ty "\A"]) (B "MAX") [ty "\A"] = Some (B "```php
<?php
const MAX = 2
```

____

`class \A`
____
").
Proof.
  destruct C84_hypotheses_met as (st & R & UN & C & NT & NC & A & U & _). exists st. repeat (split; [assumption|]). clear - R. vm_compute in R. injection R as <-. split; vm_compute; reflexivity.
Qed.
