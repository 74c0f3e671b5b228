(** Claims about the members proposed behind [->] and [::]. *)
From Coq Require Import String.
From Coq Require Import List Bool Arith NArith ZArith Lia Permutation.
From Coq.Strings Require Import Byte.
From Verif Require Import Base.Bytes Base.BytesProofs Base.Protocol Codec.CodecSpec Symbols.Symbols Symbols.KeysModel Words.TokeniserSpec
  Storage.KvModel Store.FilterModel Store.StoreModel Store.StoreSpec Store.LookupProofs Store.LookupKinds Store.Examples
  Query.QueryModel Query.QueryStoreModel Query.QuerySpec Query.QueryProofs Query.QueryMembers Query.QueryClaimProofs
  Query.QueryHistorySpec Query.QueryHistory Query.QuerySound Claims.Queries Completion.SortModel Completion.SortProofs
  Members.MemberModel Members.MemberSpec Members.MemberProofs Members.MemberHistory Members.MemberCompletionModel Claims.Members.
Import ListNotations.
Open Scope list_scope.

Local Open Scope string_scope.
Local Open Scope list_scope.

(** ** C85 *)
(** [i] proposes a member that the type [t] has and that may be accessed *)
Definition proposed {T : Text} (h : list event) (score : gostr -> gostr -> Z) (word : gostr) (t : type_string)
  (may_m : method -> Prop) (may_p : property -> Prop) (may_c : class_const -> Prop)
  (show_p : property -> gostr -> gostr -> Prop) (i : item) : Prop :=
  match it_kind i with
  | MethodCompletion => exists m sc, has_member (workspace h (method_named h)) true false (ts_fqn t) [] m sc
      /\ may_m m /\ fits score word m /\ shows_method m (it_label i) (it_insert i)
  | PropertyCompletion => exists p sc, has_member (workspace h (prop_named h)) true false (ts_fqn t) [] p sc
      /\ may_p p /\ fits score word p /\ show_p p (it_label i) (it_insert i)
  | ConstantCompletion => exists c sc, has_member (workspace h (const_named h)) true false (ts_fqn t) [] c sc
      /\ may_c c /\ fits score word c /\ shows_constant c (it_label i) (it_insert i)
  end.
Lemma item_method : forall m, shows_method m (it_label (methodToCompletionItem m)) (it_insert (methodToCompletionItem m)).
Proof. intros m. split; [reflexivity|]. cbn. destruct (m_params m); [left|right]; (split; [congruence|reflexivity]). Qed.
Lemma item_property : forall p i, without_dollar (propToCompletionItem p) = Some i -> it_kind i = PropertyCompletion /\ shows_property p (it_label i) (it_insert i).
Proof.
  intros p i E. unfold without_dollar in E. cbn in E. destruct (pr_name p) as [|d n] eqn:EN; [discriminate E|]. injection E as <-. split; [reflexivity|]. exists d. cbn. auto.
Qed.
Lemma item_static_property : forall p, shows_static_property p (it_label (propToCompletionItem p)) (it_insert (propToCompletionItem p)).
Proof. intros p. split; [reflexivity|]. cbn. destruct (pr_name p) as [|d n]; [left; auto|right; exists d; reflexivity]. Qed.
Lemma without_dollars_In : forall l l', without_dollars l = Some l' -> forall i, In i l' -> exists j, In j l /\ without_dollar j = Some i.
Proof.
  induction l as [|j l IH]; intros l' E i I; cbn [without_dollars] in E; [injection E as <-; destruct I|].
  destruct (without_dollar j) as [j'|] eqn:EJ; [|discriminate E]. destruct (without_dollars l) as [k|]; [|discriminate E]. injection E as <-.
  destruct I as [->|I]; [exists j; split; [left; reflexivity|exact EJ]|]. destruct (IH k eq_refl i I) as (j0 & J0 & E0). exists j0. split; [right; exact J0|exact E0].
Qed.
Lemma order_perm : forall (items : list item) scores, Permutation (orderItems items scores) items.
Proof. intros items scores. apply SliceStable_perm. Qed.

Ltac adj := first [intros x; destruct (mb_static (ws_member x)); auto; fail|intros x; auto].
Section Parts.
Context {T : Text} {X : XorFilter} (TOK : text_ok T).
Variables (root : gostr) (h : list event) (st : store).
Hypothesis OK : Forall event_ok h.
Hypothesis RUN : run root h = Some st.
Variables (score : gostr -> gostr -> Z) (word : gostr) (cur : gostr) (ac : access).
Lemma no_nul_nil : ~ In NUL []. Proof. intros []. Qed.
Let WM := method_world TOK root h st OK RUN [] no_nul_nil.
Lemma arrow_methods_sound : forall fuel q types q' l, asked false true true (method_db st) q -> arrow_methods st score fuel word q cur ac types = Some (q', l) ->
  forall y, In y l -> exists t, In t types /\ has_member (workspace h (method_named h)) true false (ts_fqn t) [] (ws_member y) (ws_scope y)
    /\ arrow_access cur ac (ws_member y) /\ fits score word (ws_member y).
Proof.
  intros fuel q types q' l A E y Y.
  apply (types_sound TOK root h st OK RUN (Query_GetMethods st) (method_named h) [] WM false true true true false fuel
    (SearchClassMethods st score fuel word) (SearchInterfaceMethods st score fuel word) no_traits score word (fun _ _ _ => eq_refl) (fun _ _ _ _ => eq_refl)
    (fun F => False_ind _ (Bool.diff_false_true F)) (fun F => False_ind _ (Bool.diff_false_true F))
    (fun rel m => IsInherited cur ac rel m) (fun x => if mb_static (ws_member x) then WithScope (ws_member x) (ws_scope x) (ws_score x - staticInAccessCost) else x)) with (q := q) (q' := q') (l := l); [adj| |exact A|exact E|exact Y].
  intros rel m G K. apply (arrow_may _ _ cur ac rel m G). exact K.
Qed.
Lemma scoped_methods_sound : forall variable fuel q types q' l, asked false true true (method_db st) q -> scoped_methods st score fuel word variable q cur ac types = Some (q', l) ->
  forall y, In y l -> variable = false /\ exists t, In t types /\ has_member (workspace h (method_named h)) true false (ts_fqn t) [] (ws_member y) (ws_scope y)
    /\ static_access cur ac (ws_member y) /\ fits score word (ws_member y).
Proof.
  intros variable fuel q types q' l A E y Y. unfold scoped_methods in E. destruct variable; [injection E as _ <-; destruct Y|]. split; [reflexivity|].
  apply (types_sound TOK root h st OK RUN (Query_GetMethods st) (method_named h) [] WM false true true true false fuel
    (SearchClassMethods st score fuel word) (SearchInterfaceMethods st score fuel word) no_traits score word (fun _ _ _ => eq_refl) (fun _ _ _ _ => eq_refl)
    (fun F => False_ind _ (Bool.diff_false_true F)) (fun F => False_ind _ (Bool.diff_false_true F))
    (fun rel m => IsInheritedStatic cur ac rel m) (fun x => x)) with (q := q) (q' := q') (l := l); [adj| |exact A|exact E|exact Y].
  intros rel m G K. apply (static_may _ _ cur ac rel m G). exact K.
Qed.
Section Props.
Hypothesis PU : plain_uris h.
Let WP := prop_world TOK root h st OK RUN [] no_nul_nil PU.
Lemma arrow_props_sound : forall fuel q types q' l, asked false false false (prop_db st) q -> arrow_props st score fuel word q cur ac types = Some (q', l) ->
  forall y, In y l -> exists t, In t types /\ has_member (workspace h (prop_named h)) true false (ts_fqn t) [] (ws_member y) (ws_scope y)
    /\ arrow_access cur ac (ws_member y) /\ fits score word (ws_member y).
Proof.
  intros fuel q types q' l A E y Y.
  apply (types_sound TOK root h st OK RUN (Query_GetProps st) (prop_named h) [] WP false false false true false fuel
    (SearchClassProps st score fuel word) (SearchInterfaceProps st score fuel word) no_traits score word (fun _ _ _ => eq_refl) (fun _ _ _ _ => eq_refl)
    (fun F => False_ind _ (Bool.diff_false_true F)) (fun F => False_ind _ (Bool.diff_false_true F))
    (fun rel m => IsInherited cur ac rel m) (fun x => if mb_static (ws_member x) then WithScope (ws_member x) (ws_scope x) (ws_score x - staticInAccessCost) else x)) with (q := q) (q' := q') (l := l); [adj| |exact A|exact E|exact Y].
  intros rel m G K. apply (arrow_may _ _ cur ac rel m G). exact K.
Qed.
Lemma scoped_props_sound : forall fuel q types q' l, asked false false false (prop_db st) q -> scoped_props st score fuel word q cur ac types = Some (q', l) ->
  forall y, In y l -> exists t, In t types /\ has_member (workspace h (prop_named h)) true false (ts_fqn t) [] (ws_member y) (ws_scope y)
    /\ static_access cur ac (ws_member y) /\ fits score word (ws_member y).
Proof.
  intros fuel q types q' l A E y Y.
  apply (types_sound TOK root h st OK RUN (Query_GetProps st) (prop_named h) [] WP false false false true false fuel
    (SearchClassProps st score fuel word) (SearchInterfaceProps st score fuel word) no_traits score word (fun _ _ _ => eq_refl) (fun _ _ _ _ => eq_refl)
    (fun F => False_ind _ (Bool.diff_false_true F)) (fun F => False_ind _ (Bool.diff_false_true F))
    (fun rel m => IsInheritedStatic cur ac rel m) (fun x => x)) with (q := q) (q' := q') (l := l); [adj| |exact A|exact E|exact Y].
  intros rel m G K. apply (static_may _ _ cur ac rel m G). exact K.
Qed.
End Props.
Hypothesis NSC : no_shared_constants h.
Lemma const_world_all : same_world no_nul [] (const_db st) (workspace h (const_named h)).
Proof. apply (const_world TOK root h st OK RUN [] no_nul_nil NSC). intros N. destruct N. reflexivity. Qed.
Lemma scoped_consts_sound : forall variable fuel q types q' l, asked true false false (const_db st) q -> scoped_consts st score fuel word variable q cur ac types = Some (q', l) ->
  forall y, In y l -> variable = false /\ exists t, In t types /\ has_member (workspace h (const_named h)) true false (ts_fqn t) [] (ws_member y) (ws_scope y)
    /\ (static_access cur ac (ws_member y) \/ mb_visibility (ws_member y) = Protected) /\ fits score word (ws_member y).
Proof.
  intros variable fuel q types q' l A E y Y. unfold scoped_consts in E. destruct variable; [injection E as _ <-; destruct Y|]. split; [reflexivity|].
  apply (types_sound TOK root h st OK RUN (Query_GetClassConsts st) (const_named h) [] const_world_all true false false true false fuel
    (SearchClassClassConsts st score fuel word) (SearchInterfaceClassConsts st score fuel word) no_traits score word (fun _ _ _ => eq_refl) (fun _ _ _ _ => eq_refl)
    (fun F => False_ind _ (Bool.diff_false_true F)) (fun F => False_ind _ (Bool.diff_false_true F))
    (fun rel m => IsInheritedStatic cur ac rel m) (fun x => x)) with (may := fun m : class_const => static_access cur ac m \/ mb_visibility m = Protected) (q := q) (q' := q') (l := l); [adj| |exact A|exact E|exact Y].
  intros rel m G K. exact (static_may_or _ _ cur ac rel m K).
Qed.
End Parts.

(** Whatever was asked before in the request, whatever is declared twice,
    however many types the receiver has and whatever the fuzzy search takes for
    a match: every item proposed behind [->] is a method or property that a
    type of the receiver has, that may be accessed there and that matches the
    word typed so far; its label is the name of the member. *)
Theorem C85_arrow_proposals : forall (T : Text) (X : XorFilter) root h st score qm qp cur ac word types fuel items,
  text_ok T -> Forall event_ok h -> run root h = Some st -> plain_uris h ->
  asked false true true (method_db st) qm -> asked false false false (prop_db st) qp ->
  memberAccessCompletion st score fuel word qm qp cur ac types = Some (Items items) ->
  forall i, In i items -> exists t, In t types /\ proposed h score word t (arrow_access cur ac) (arrow_access cur ac) (fun _ => False) shows_property i.
Proof.
  intros T X root h st score qm qp cur ac word types fuel items TOK OK RUN PU AM AP E i I. unfold memberAccessCompletion in E.
  destruct (arrow_methods _ _ _ _ _ _ _ _) as [(qm', ms)|] eqn:EM; [|discriminate E]. destruct (arrow_props _ _ _ _ _ _ _ _) as [(qp', ps)|] eqn:EP; [|discriminate E].
  destruct (without_dollars _) as [props|] eqn:W; [|discriminate E]. injection E as <-. apply (Permutation_in _ (order_perm _ _)) in I. apply in_app_or in I as [I|I].
  - apply in_map_iff in I as (y & <- & Y). destruct (arrow_methods_sound TOK root h st OK RUN score word cur ac _ _ _ _ _ AM EM y Y) as (t & It & Hm & Ma & F).
    exists t. split; [exact It|]. cbn [proposed it_kind methodToCompletionItem]. exists (ws_member y), (ws_scope y). split; [exact Hm|]. split; [exact Ma|]. split; [exact F|]. apply item_method.
  - destruct (without_dollars_In _ _ W i I) as (j & J & EJ). apply in_map_iff in J as (y & <- & Y). destruct (item_property _ _ EJ) as (K & S).
    destruct (arrow_props_sound TOK root h st OK RUN score word cur ac PU _ _ _ _ _ AP EP y Y) as (t & It & Hm & Ma & F).
    exists t. split; [exact It|]. unfold proposed. rewrite K. exists (ws_member y), (ws_scope y). auto.
Qed.
Print Assumptions C85_arrow_proposals.

(** The same behind [::]; behind [::$] only properties are proposed, and the
    request never panics. *)
Theorem C85_static_proposals : forall (T : Text) (X : XorFilter) root h st score variable qm qp qc cur ac word types fuel r,
  text_ok T -> Forall event_ok h -> run root h = Some st -> plain_uris h -> no_shared_constants h ->
  asked false true true (method_db st) qm -> asked false false false (prop_db st) qp -> asked true false false (const_db st) qc ->
  scopedAccessCompletion st score fuel word variable qm qp qc cur ac types = Some r ->
  exists items, r = Items items /\ forall i, In i items -> exists t, In t types
    /\ proposed h score word t (static_access cur ac) (static_access cur ac) (fun c => static_access cur ac c \/ mb_visibility c = Protected) shows_static_property i
    /\ (variable = true -> it_kind i = PropertyCompletion).
Proof.
  intros T X root h st score variable qm qp qc cur ac word types fuel r TOK OK RUN PU NSC AM AP AC E. unfold scopedAccessCompletion in E.
  destruct (scoped_methods _ _ _ _ _ _ _ _ _) as [(qm', ms)|] eqn:EM; [|discriminate E]. destruct (scoped_props _ _ _ _ _ _ _ _) as [(qp', ps)|] eqn:EP; [|discriminate E].
  destruct (scoped_consts _ _ _ _ _ _ _ _ _) as [(qc', cs)|] eqn:EC; [|discriminate E]. injection E as <-. eexists. split; [reflexivity|]. intros i I.
  apply (Permutation_in _ (order_perm _ _)) in I. apply in_app_or in I as [I|I]; [|apply in_app_or in I as [I|I]]; apply in_map_iff in I as (y & <- & Y).
  - destruct (scoped_methods_sound TOK root h st OK RUN score word cur ac _ _ _ _ _ _ AM EM y Y) as (V & t & It & Hm & Ma & F).
    exists t. split; [exact It|]. split; [|intros V'; rewrite V in V'; discriminate V']. cbn [proposed it_kind methodToCompletionItem]. exists (ws_member y), (ws_scope y).
    split; [exact Hm|]. split; [exact Ma|]. split; [exact F|]. apply item_method.
  - destruct (scoped_props_sound TOK root h st OK RUN score word cur ac PU _ _ _ _ _ AP EP y Y) as (t & It & Hm & Ma & F).
    exists t. split; [exact It|]. split; [|reflexivity]. cbn [proposed it_kind propToCompletionItem]. exists (ws_member y), (ws_scope y).
    split; [exact Hm|]. split; [exact Ma|]. split; [exact F|]. apply item_static_property.
  - destruct (scoped_consts_sound TOK root h st OK RUN score word cur ac NSC _ _ _ _ _ _ AC EC y Y) as (V & t & It & Hm & Ma & F).
    exists t. split; [exact It|]. split; [|intros V'; rewrite V in V'; discriminate V']. cbn [proposed it_kind classConstToCompletionItem]. exists (ws_member y), (ws_scope y).
    split; [exact Hm|]. split; [exact Ma|]. split; [exact F|]. split; reflexivity.
Qed.
Print Assumptions C85_static_proposals.

(** *** what is proposed for the first type *)
Definition content (i : item) : item_kind * gostr * gostr := (it_kind i, it_label i, it_insert i).
Section Ends.
Context {T : Text} {X : XorFilter}.
Variables (st : store) (score : gostr -> gostr -> Z) (word : gostr) (cur : gostr) (ac : access) (types : list type_string).
Lemma arrow_methods_end : forall q, exists n r, forall fuel, (n <= fuel)%nat -> arrow_methods st score fuel word q cur ac types = Some r.
Proof.
  intros q. apply (of_types_ends (method_db st) (fun fuel => SearchClassMethods st score fuel word) (fun fuel => SearchInterfaceMethods st score fuel word) (fun _ => no_traits) true false).
  - apply (search_ends score word (fun c => put_class [] c) (fun fuel q c s => GetClassMethods (method_db st) fuel q c [] s)); [reflexivity|].
    exact (class_ends false true (method_db st) true [] (store_db_finite _ st) (or_introl eq_refl)).
  - right. apply (search_ends score word (fun c => put_interface [] c) (fun fuel q c s => GetInterfaceMethods (method_db st) fuel q c [] s)); [reflexivity|].
    exact (interface_ends false (method_db st) [] (store_db_finite _ st)).
  - left. reflexivity.
Qed.
Lemma scoped_methods_end : forall variable q, exists n r, forall fuel, (n <= fuel)%nat -> scoped_methods st score fuel word variable q cur ac types = Some r.
Proof.
  intros [|] q; unfold scoped_methods; [exists 0%nat; eexists; reflexivity|].
  apply (of_types_ends (method_db st) (fun fuel => SearchClassMethods st score fuel word) (fun fuel => SearchInterfaceMethods st score fuel word) (fun _ => no_traits) true false).
  - apply (search_ends score word (fun c => put_class [] c) (fun fuel q c s => GetClassMethods (method_db st) fuel q c [] s)); [reflexivity|].
    exact (class_ends false true (method_db st) true [] (store_db_finite _ st) (or_introl eq_refl)).
  - right. apply (search_ends score word (fun c => put_interface [] c) (fun fuel q c s => GetInterfaceMethods (method_db st) fuel q c [] s)); [reflexivity|].
    exact (interface_ends false (method_db st) [] (store_db_finite _ st)).
  - left. reflexivity.
Qed.
Section Props.
Hypothesis AC : acyclic (prop_db st).
Lemma props_end : forall choose q, exists n r, forall fuel, (n <= fuel)%nat ->
  of_types (SearchClassProps st score fuel word) (SearchInterfaceProps st score fuel word) no_traits (prop_db st) true false choose q [] types = Some r.
Proof.
  intros choose q. apply (of_types_ends (prop_db st) (fun fuel => SearchClassProps st score fuel word) (fun fuel => SearchInterfaceProps st score fuel word) (fun _ => no_traits) true false).
  - apply (search_ends score word (fun c => put_class [] c) (fun fuel q c s => GetClassProps (prop_db st) fuel q c [] s)); [reflexivity|].
    exact (class_ends false false (prop_db st) false [] (store_db_finite _ st) (or_intror AC)).
  - right. apply (search_ends score word (fun c => put_interface [] c) (fun fuel q c s => GetInterfaceProps (prop_db st) fuel q c [] s)); [reflexivity|].
    exact (interface_ends false (prop_db st) [] (store_db_finite _ st)).
  - left. reflexivity.
Qed.
End Props.
Hypothesis AC : acyclic (const_db st).
Lemma scoped_consts_end : forall variable q, exists n r, forall fuel, (n <= fuel)%nat -> scoped_consts st score fuel word variable q cur ac types = Some r.
Proof.
  intros [|] q; unfold scoped_consts; [exists 0%nat; eexists; reflexivity|].
  apply (of_types_ends (const_db st) (fun fuel => SearchClassClassConsts st score fuel word) (fun fuel => SearchInterfaceClassConsts st score fuel word) (fun _ => no_traits) true false).
  - apply (search_ends score word (fun c => put_class [] c) (fun fuel q c s => GetClassClassConsts (const_db st) fuel q c [] s)); [reflexivity|].
    exact (class_ends true false (const_db st) false [] (store_db_finite _ st) (or_intror AC)).
  - right. apply (search_ends score word (fun c => put_interface [] c) (fun fuel q c s => GetInterfaceClassConsts (const_db st) fuel q c [] s)); [reflexivity|].
    exact (interface_ends true (const_db st) [] (store_db_finite _ st)).
  - left. reflexivity.
Qed.
End Ends.

(** If no class inherits from itself both requests end. *)
Theorem C85_ends_partial : forall (T : Text) (X : XorFilter) st score word cur ac types,
  (acyclic (prop_db st) -> forall qm qp, exists n r, forall fuel, (n <= fuel)%nat -> memberAccessCompletion st score fuel word qm qp cur ac types = Some r)
  /\ (acyclic (prop_db st) -> acyclic (const_db st) -> forall variable qm qp qc, exists n r, forall fuel, (n <= fuel)%nat ->
       scopedAccessCompletion st score fuel word variable qm qp qc cur ac types = Some r).
Proof.
  intros T X st score word cur ac types. split.
  - intros AC qm qp. destruct (arrow_methods_end st score word cur ac types qm) as (n1 & (q1, r1) & H1). destruct (props_end st score word types AC (fun ps => ReduceAccess ps cur ac) qp) as (n2 & (q2, r2) & H2).
    exists (Nat.max n1 n2). eexists. intros fuel F. unfold memberAccessCompletion, arrow_props. rewrite H1, H2 by lia. reflexivity.
  - intros AC ACC variable qm qp qc. destruct (scoped_methods_end st score word cur ac types variable qm) as (n1 & (q1, r1) & H1).
    destruct (props_end st score word types AC (fun ps => ReduceStatic ps cur ac) qp) as (n2 & (q2, r2) & H2).
    destruct (scoped_consts_end st score word cur ac types ACC variable qc) as (n3 & (q3, r3) & H3).
    exists (Nat.max n1 (Nat.max n2 n3)). eexists. intros fuel F. unfold scopedAccessCompletion, scoped_props. rewrite H1, H2, H3 by lia. reflexivity.
Qed.
Print Assumptions C85_ends_partial.

Lemma has_member_named : forall {M} {MM : Member M} (w : world M) interfaces trts n name m sc, has_member w interfaces trts n name m sc -> exists scope, w_member w scope name m.
Proof.
  intros M MM w interfaces trts n name m sc [c C H|i _ C H|u _ C H _]; [destruct H|destruct H|]; eexists; eassumption.
Qed.
Lemma without_dollars_some : forall {A} (name : A -> item) l, (forall y, In y l -> it_label (name y) <> []) -> exists l', without_dollars (map name l) = Some l'.
Proof.
  intros A name. induction l as [|y l IH]; intros N; [eexists; reflexivity|]. cbn [map without_dollars]. unfold without_dollar.
  destruct (it_label (name y)) as [|d n] eqn:EN; [destruct (N y (or_introl eq_refl) EN)|]. destruct (IH (fun z Z => N z (or_intror Z))) as (l' & ->). eexists. reflexivity.
Qed.

(** Completion behind [->] does not panic if every property has a name (behind
    [::] it never does, see C85_static_proposals). *)
Theorem C85_arrow_no_crash_partial : forall (T : Text) (X : XorFilter) root h st score qm qp cur ac word types fuel r,
  text_ok T -> Forall event_ok h -> run root h = Some st -> plain_uris h -> asked false false false (prop_db st) qp ->
  (forall scope p, prop_named h scope [] p -> pr_name p <> []) ->
  memberAccessCompletion st score fuel word qm qp cur ac types = Some r -> r <> Crash.
Proof.
  intros T X root h st score qm qp cur ac word types fuel r TOK OK RUN PU AP NE E ->. unfold memberAccessCompletion in E.
  destruct (arrow_methods _ _ _ _ _ _ _ _) as [(qm', ms)|] eqn:EM; [|discriminate E]. destruct (arrow_props _ _ _ _ _ _ _ _) as [(qp', ps)|] eqn:EP; [|discriminate E].
  destruct (without_dollars _) as [props|] eqn:W; [discriminate E|]. clear E.
  assert (N : forall y, In y ps -> pr_name (ws_member y) <> []).
  { intros y Y. destruct (arrow_props_sound TOK root h st OK RUN score word cur ac PU _ _ _ _ _ AP EP y Y) as (t & _ & H & _).
    apply has_member_named in H as (scope & H). exact (NE scope _ H). }
  destruct (without_dollars_some (fun p : with_scope property => propToCompletionItem (ws_member p)) ps N) as (l' & W'). rewrite W' in W. discriminate W.
Qed.
Print Assumptions C85_arrow_no_crash_partial.

Section First.
Context {T : Text} {X : XorFilter} (TOK : text_ok T).
Variables (root : gostr) (h : list event) (st : store).
Hypothesis OK : Forall event_ok h.
Hypothesis RUN : run root h = Some st.
Hypothesis UN : unique_names h.
Variables (score : gostr -> gostr -> Z) (word : gostr) (cur : gostr) (ac : access) (t : type_string) (ts : list type_string) (fuel : nat).
Let WM := method_world TOK root h st OK RUN [] no_nul_nil.

Section Methods.
Hypothesis NCL : forall scope m, method_named h scope [] m -> ~ In COLON (mb_name m).
Variables (q : query method) (q' : query method) (l : list (with_scope method)).
Hypothesis A : asked false true true (method_db st) q.
Hypothesis U : unasked q [].
Lemma arrow_methods_class : forall c, class_named h (ts_fqn t) c -> arrow_methods st score fuel word q cur ac (t :: ts) = Some (q', l) ->
  exists l1 rest, l = l1 ++ rest /\ (ts = [] -> rest = []) /\ class_offers (workspace h (method_named h)) c [] (fun m => arrow_access cur ac m /\ fits score word m) l1.
Proof.
  intros c C E. apply (class_first TOK root h st OK RUN (Query_GetMethods st) (method_named h) [] WM false true true true false fuel
    (SearchClassMethods st score fuel word) (SearchInterfaceMethods st score fuel word) no_traits score word (fun _ _ _ => eq_refl) (fun _ _ _ _ => eq_refl)
    (fun F => False_ind _ (Bool.diff_false_true F)) (fun F => False_ind _ (Bool.diff_false_true F))
    (fun rel m => IsInherited cur ac rel m) (fun x => if mb_static (ws_member x) then WithScope (ws_member x) (ws_scope x) (ws_score x - staticInAccessCost) else x)) with (may := fun m : method => arrow_access cur ac m) (must := fun m : method => arrow_access cur ac m) (q := q) (t := t) (ts := ts) (q' := q') (l := l) (c := c); auto; try (intros F; discriminate F).
  - intros x. destruct (mb_static (ws_member x)); auto.
  - intros rel m G K. apply (arrow_may _ _ cur ac rel m G). exact K.
  - intros rel m G K. apply (arrow_may _ _ cur ac rel m G). exact K.
Qed.
Lemma arrow_methods_interface : forall i, interface_named h (ts_fqn t) i -> arrow_methods st score fuel word q cur ac (t :: ts) = Some (q', l) ->
  exists l1 rest, l = l1 ++ rest /\ (ts = [] -> rest = []) /\ interface_offers (workspace h (method_named h)) i [] (fun m => arrow_access cur ac m /\ fits score word m) l1.
Proof.
  intros i C E. apply (interface_first TOK root h st OK RUN (Query_GetMethods st) (method_named h) [] WM false true true true false fuel
    (SearchClassMethods st score fuel word) (SearchInterfaceMethods st score fuel word) no_traits score word (fun _ _ _ => eq_refl) (fun _ _ _ _ => eq_refl)
    (fun F => False_ind _ (Bool.diff_false_true F)) (fun F => False_ind _ (Bool.diff_false_true F))
    (fun rel m => IsInherited cur ac rel m) (fun x => if mb_static (ws_member x) then WithScope (ws_member x) (ws_scope x) (ws_score x - staticInAccessCost) else x)) with (may := fun m : method => arrow_access cur ac m) (must := fun m : method => arrow_access cur ac m) (q := q) (t := t) (ts := ts) (q' := q') (l := l) (i := i); auto; try (intros F; discriminate F).
  - intros x. destruct (mb_static (ws_member x)); auto.
  - intros rel m G K. apply (arrow_may _ _ cur ac rel m G). exact K.
  - intros rel m G K. apply (arrow_may _ _ cur ac rel m G). exact K.
Qed.
Lemma scoped_methods_class : forall c, class_named h (ts_fqn t) c -> scoped_methods st score fuel word false q cur ac (t :: ts) = Some (q', l) ->
  exists l1 rest, l = l1 ++ rest /\ (ts = [] -> rest = []) /\ class_offers (workspace h (method_named h)) c [] (fun m => static_access cur ac m /\ fits score word m) l1.
Proof.
  intros c C E. apply (class_first TOK root h st OK RUN (Query_GetMethods st) (method_named h) [] WM false true true true false fuel
    (SearchClassMethods st score fuel word) (SearchInterfaceMethods st score fuel word) no_traits score word (fun _ _ _ => eq_refl) (fun _ _ _ _ => eq_refl)
    (fun F => False_ind _ (Bool.diff_false_true F)) (fun F => False_ind _ (Bool.diff_false_true F))
    (fun rel m => IsInheritedStatic cur ac rel m) (fun x => x)) with (may := fun m : method => static_access cur ac m) (must := fun m : method => static_access cur ac m) (q := q) (t := t) (ts := ts) (q' := q') (l := l) (c := c); auto; try (intros F; discriminate F).
  - intros rel m G K. apply (static_may _ _ cur ac rel m G). exact K.
  - intros rel m G K. apply (static_may _ _ cur ac rel m G). exact K.
Qed.
End Methods.

Section Props.
Hypothesis PU : plain_uris h.
Hypothesis NCL : forall scope m, prop_named h scope [] m -> ~ In COLON (mb_name m).
Let WP := prop_world TOK root h st OK RUN [] no_nul_nil PU.
Variables (q : query property) (q' : query property) (l : list (with_scope property)).
Hypothesis A : asked false false false (prop_db st) q.
Hypothesis U : unasked q [].
Variable c : class.
Hypothesis C : class_named h (ts_fqn t) c.
Hypothesis NT : forall d u p, ancestor (workspace h (prop_named h)) c d -> uses (workspace h (prop_named h)) d u -> ~ prop_named h (ts_fqn (t_name u)) [] p.
Hypothesis AC : acyclic (workspace h (prop_named h)).
Lemma arrow_props_class : arrow_props st score fuel word q cur ac (t :: ts) = Some (q', l) ->
  exists l1 rest, l = l1 ++ rest /\ (ts = [] -> rest = []) /\ class_offers (workspace h (prop_named h)) c [] (fun m => arrow_access cur ac m /\ fits score word m) l1.
Proof.
  intros E. apply (class_first TOK root h st OK RUN (Query_GetProps st) (prop_named h) [] WP false false false true false fuel
    (SearchClassProps st score fuel word) (SearchInterfaceProps st score fuel word) no_traits score word (fun _ _ _ => eq_refl) (fun _ _ _ _ => eq_refl)
    (fun F => False_ind _ (Bool.diff_false_true F)) (fun F => False_ind _ (Bool.diff_false_true F))
    (fun rel m => IsInherited cur ac rel m) (fun x => if mb_static (ws_member x) then WithScope (ws_member x) (ws_scope x) (ws_score x - staticInAccessCost) else x)) with (may := fun m : property => arrow_access cur ac m) (must := fun m : property => arrow_access cur ac m) (q := q) (t := t) (ts := ts) (q' := q') (l := l) (c := c); auto; try (intros F; discriminate F).
  - intros x. destruct (mb_static (ws_member x)); auto.
  - intros rel m G K. apply (arrow_may _ _ cur ac rel m G). exact K.
  - intros rel m G K. apply (arrow_may _ _ cur ac rel m G). exact K.
Qed.
Lemma scoped_props_class : scoped_props st score fuel word q cur ac (t :: ts) = Some (q', l) ->
  exists l1 rest, l = l1 ++ rest /\ (ts = [] -> rest = []) /\ class_offers (workspace h (prop_named h)) c [] (fun m => static_access cur ac m /\ fits score word m) l1.
Proof.
  intros E. apply (class_first TOK root h st OK RUN (Query_GetProps st) (prop_named h) [] WP false false false true false fuel
    (SearchClassProps st score fuel word) (SearchInterfaceProps st score fuel word) no_traits score word (fun _ _ _ => eq_refl) (fun _ _ _ _ => eq_refl)
    (fun F => False_ind _ (Bool.diff_false_true F)) (fun F => False_ind _ (Bool.diff_false_true F))
    (fun rel m => IsInheritedStatic cur ac rel m) (fun x => x)) with (may := fun m : property => static_access cur ac m) (must := fun m : property => static_access cur ac m) (q := q) (t := t) (ts := ts) (q' := q') (l := l) (c := c); auto; try (intros F; discriminate F).
  - intros rel m G K. apply (static_may _ _ cur ac rel m G). exact K.
  - intros rel m G K. apply (static_may _ _ cur ac rel m G). exact K.
Qed.
Lemma acyclic_props : acyclic (prop_db st).
Proof. destruct AC as [rank R]; exists rank; intros d p P; apply R; exact (same_parent_w no_nul [] _ _ WP d p P). Qed.
End Props.

Section Consts.
Hypothesis NSC : no_shared_constants h.
Hypothesis NCL : forall scope m, const_named h scope [] m -> ~ In COLON (mb_name m).
Let WC := const_world_all TOK root h st OK RUN NSC.
Variables (q : query class_const) (q' : query class_const) (l : list (with_scope class_const)).
Hypothesis A : asked true false false (const_db st) q.
Hypothesis U : unasked q [].
Variable c : class.
Hypothesis C : class_named h (ts_fqn t) c.
Hypothesis NT : forall d u p, ancestor (workspace h (const_named h)) c d -> uses (workspace h (const_named h)) d u -> ~ const_named h (ts_fqn (t_name u)) [] p.
Hypothesis AC : acyclic (workspace h (const_named h)).
Lemma scoped_consts_class : scoped_consts st score fuel word false q cur ac (t :: ts) = Some (q', l) ->
  exists l1 rest, l = l1 ++ rest /\ (ts = [] -> rest = []) /\ offers_between (belongs (workspace h (const_named h)) c []) (overrides (workspace h (const_named h)) c)
    (fun m => (static_access cur ac m \/ mb_visibility m = Protected) /\ fits score word m) (fun m => (static_access cur ac m /\ mb_visibility m = Public) /\ fits score word m) l1.
Proof.
  intros E. apply (class_first TOK root h st OK RUN (Query_GetClassConsts st) (const_named h) [] WC true false false true false fuel
    (SearchClassClassConsts st score fuel word) (SearchInterfaceClassConsts st score fuel word) no_traits score word (fun _ _ _ => eq_refl) (fun _ _ _ _ => eq_refl)
    (fun F => False_ind _ (Bool.diff_false_true F)) (fun F => False_ind _ (Bool.diff_false_true F))
    (fun rel m => IsInheritedStatic cur ac rel m) (fun x => x)) with (may := fun m : class_const => (static_access cur ac m \/ mb_visibility m = Protected)) (must := fun m : class_const => (static_access cur ac m /\ mb_visibility m = Public)) (q := q) (t := t) (ts := ts) (q' := q') (l := l) (c := c); auto; try (intros F; discriminate F).
  - intros rel m G K. exact (static_may_or _ _ cur ac rel m K).
  - intros rel m G K. destruct K as (K & V). exact (static_must _ _ cur ac rel m K V).
Qed.
Lemma acyclic_consts : acyclic (const_db st).
Proof. destruct AC as [rank R]; exists rank; intros d p P; apply R; exact (same_parent_w no_nul [] _ _ WC d p P). Qed.
End Consts.
End First.

Lemma listed_map : forall {M} (k : item_kind) (shows : M -> gostr -> gostr -> Prop) (l : list (with_scope M)) (f : with_scope M -> item) items,
  (forall y, In y l -> In (f y) items) -> (forall y, it_kind (f y) = k /\ shows (ws_member y) (it_label (f y)) (it_insert (f y))) -> listed k shows l (map content items).
Proof.
  intros M k shows l f items I S y Y. exists (it_label (f y)), (it_insert (f y)). destruct (S y) as (K & H). split; [|exact H].
  rewrite <- K. apply (in_map content). exact (I y Y).
Qed.
Lemma without_dollars_map : forall (l : list (with_scope property)) l', without_dollars (map (fun p => propToCompletionItem (ws_member p)) l) = Some l' ->
  (forall y, In y l -> exists i, In i l' /\ it_kind i = PropertyCompletion /\ shows_property (ws_member y) (it_label i) (it_insert i))
  /\ (forall i, In i l' -> exists y, In y l /\ it_kind i = PropertyCompletion /\ shows_property (ws_member y) (it_label i) (it_insert i)) /\ length l' = length l.
Proof.
  induction l as [|y l IH]; intros l' E; cbn [map without_dollars] in E; [injection E as <-; split; [intros y []|split; [intros i []|reflexivity]]|].
  destruct (without_dollar _) as [j|] eqn:EJ; [|discriminate E]. destruct (without_dollars _) as [k|] eqn:EK; [|discriminate E]. injection E as <-.
  destruct (item_property _ _ EJ) as (K & S). destruct (IH k eq_refl) as (H1 & H2 & H3). split; [|split].
  - intros z [->|Z]; [exists j; split; [left; reflexivity|auto]|]. destruct (H1 z Z) as (i & I & H). exists i. split; [right; exact I|exact H].
  - intros i [->|I]; [exists y; split; [left; reflexivity|auto]|]. destruct (H2 i I) as (z & Z & H). exists z. split; [right; exact Z|exact H].
  - cbn. rewrite H3. reflexivity.
Qed.

(** If no two class-likes share a name, nothing was asked before in the
    request, every property has a name, no name of a member contains a colon,
    no class inherits from itself and no trait of an ancestor declares
    properties: behind [->], where the first type of the receiver is a class,
    the accessible methods and properties of the class that match the word are
    proposed, each name at least once, and none that is overridden by
    another accessible one; and nothing else if there is no other type.
    What is missing: all but the first type, traits (C85_trait_refuted), and
    properties without a name (C85_crash_refuted). *)
Theorem C85_arrow_of_class_partial : forall (T : Text) (X : XorFilter) root h st score qm qp cur ac word t ts c,
  text_ok T -> Forall event_ok h -> run root h = Some st -> unique_names h -> plain_uris h ->
  (forall scope m, method_named h scope [] m -> ~ In COLON (m_name m)) ->
  (forall scope p, prop_named h scope [] p -> ~ In COLON (pr_name p) /\ pr_name p <> []) ->
  asked false true true (method_db st) qm -> unasked qm [] -> asked false false false (prop_db st) qp -> unasked qp [] -> class_named h (ts_fqn t) c ->
  (forall d u p, ancestor (workspace h (prop_named h)) c d -> uses (workspace h (prop_named h)) d u -> ~ prop_named h (ts_fqn (t_name u)) [] p) ->
  acyclic (workspace h (prop_named h)) ->
  exists n items ms ps, (forall fuel, (n <= fuel)%nat -> memberAccessCompletion st score fuel word qm qp cur ac (t :: ts) = Some (Items items))
    /\ listed MethodCompletion shows_method ms (map content items) /\ listed PropertyCompletion shows_property ps (map content items)
    /\ (ts = [] -> length items = (length ms + length ps)%nat
        /\ forall i, In i items -> in_list MethodCompletion shows_method ms (content i) \/ in_list PropertyCompletion shows_property ps (content i))
    /\ class_offers (workspace h (method_named h)) c [] (fun m => arrow_access cur ac m /\ fits score word m) ms
    /\ class_offers (workspace h (prop_named h)) c [] (fun p => arrow_access cur ac p /\ fits score word p) ps.
Proof.
  intros T X root h st score qm qp cur ac word t ts c TOK OK RUN UN PU NCM NCP AM UM AP UP C NT AC.
  assert (NCP1 : forall scope p, prop_named h scope [] p -> ~ In COLON (mb_name p)) by (intros scope p H; exact (proj1 (NCP scope p H))).
  assert (NCP2 : forall scope p, prop_named h scope [] p -> pr_name p <> []) by (intros scope p H; exact (proj2 (NCP scope p H))).
  destruct (C85_ends_partial T X st score word cur ac (t :: ts)) as (EN & _). destruct (EN (acyclic_props TOK root h st OK RUN PU AC) qm qp) as (fuel & r & D). assert (D0 := D fuel (le_n fuel)).
  assert (NX := C85_arrow_no_crash_partial T X root h st score qm qp cur ac word (t :: ts) fuel r TOK OK RUN PU AP NCP2 D0). unfold memberAccessCompletion in D0.
  destruct (arrow_methods _ _ _ _ _ _ _ _) as [(qm', ms)|] eqn:EM; [|discriminate D0]. destruct (arrow_props _ _ _ _ _ _ _ _) as [(qp', ps)|] eqn:EP; [|discriminate D0].
  destruct (arrow_methods_class TOK root h st OK RUN UN score word cur ac t ts fuel NCM qm qm' ms AM UM c C EM) as (m1 & m2 & -> & RM & OM).
  destruct (arrow_props_class TOK root h st OK RUN UN score word cur ac t ts fuel PU NCP1 qp qp' ps AP UP c C NT AC EP) as (p1 & p2 & -> & RP & OP).
  destruct (without_dollars _) as [props|] eqn:W; injection D0 as E0; [|destruct (NX (eq_sym E0))]. subst r. destruct (without_dollars_map _ _ W) as (W1 & W2 & W3).
 
  eexists fuel, _, m1, p1. split; [exact D|]. split; [|split; [|split; [|split; [exact OM|exact OP]]]].
  - apply (listed_map _ _ _ (fun m => methodToCompletionItem (ws_member m))); [|intros y; split; [reflexivity|apply item_method]].
    intros y Y. apply (Permutation_in _ (Permutation_sym (order_perm _ _))). apply in_or_app. left. rewrite map_app. apply in_or_app. left. apply (in_map (fun m => methodToCompletionItem (ws_member m))). exact Y.
  - intros y Y. destruct (W1 y (in_or_app _ _ _ (or_introl Y))) as (i & I & K & S). exists (it_label i), (it_insert i). split; [|exact S]. rewrite <- K. apply (in_map content).
    apply (Permutation_in _ (Permutation_sym (order_perm _ _))). apply in_or_app. right. exact I.
  - intros ET. rewrite (RM ET), (RP ET), !app_nil_r in *. split.
    + rewrite (Permutation_length (order_perm _ _)), app_length, map_length, W3, ?app_nil_r. reflexivity.
    + intros i I. apply (Permutation_in _ (order_perm _ _)) in I. apply in_app_or in I as [I|I].
      * left. apply in_map_iff in I as (y & <- & Y). eexists y, _, _. split; [exact Y|]. split; [reflexivity|apply item_method].
      * right. destruct (W2 i I) as (y & Y & K & S). rewrite ?app_nil_r in Y. exists y, (it_label i), (it_insert i). split; [exact Y|]. split; [unfold content; rewrite K; reflexivity|exact S].
Qed.
Print Assumptions C85_arrow_of_class_partial.

(** Behind [::] and [::$]; the public constants are certain. *)
Theorem C85_static_of_class_partial : forall (T : Text) (X : XorFilter) root h st score variable qm qp qc cur ac word t ts c,
  text_ok T -> Forall event_ok h -> run root h = Some st -> unique_names h -> plain_uris h -> no_shared_constants h ->
  (forall scope m, method_named h scope [] m -> ~ In COLON (m_name m)) ->
  (forall scope p, prop_named h scope [] p -> ~ In COLON (pr_name p)) ->
  (forall scope x, const_named h scope [] x -> ~ In COLON (cc_name x)) ->
  asked false true true (method_db st) qm -> unasked qm [] -> asked false false false (prop_db st) qp -> unasked qp [] ->
  asked true false false (const_db st) qc -> unasked qc [] -> class_named h (ts_fqn t) c ->
  (forall d u p, ancestor (workspace h (prop_named h)) c d -> uses (workspace h (prop_named h)) d u -> ~ prop_named h (ts_fqn (t_name u)) [] p) ->
  (forall d u x, ancestor (workspace h (const_named h)) c d -> uses (workspace h (const_named h)) d u -> ~ const_named h (ts_fqn (t_name u)) [] x) ->
  acyclic (workspace h (prop_named h)) -> acyclic (workspace h (const_named h)) ->
  exists n items ms ps cs, (forall fuel, (n <= fuel)%nat -> scopedAccessCompletion st score fuel word variable qm qp qc cur ac (t :: ts) = Some (Items items))
    /\ listed MethodCompletion shows_method ms (map content items) /\ listed PropertyCompletion shows_static_property ps (map content items)
    /\ listed ConstantCompletion shows_constant cs (map content items)
    /\ (ts = [] -> length items = (length ms + length ps + length cs)%nat
        /\ forall i, In i items -> in_list MethodCompletion shows_method ms (content i) \/ in_list PropertyCompletion shows_static_property ps (content i)
             \/ in_list ConstantCompletion shows_constant cs (content i))
    /\ class_offers (workspace h (prop_named h)) c [] (fun p => static_access cur ac p /\ fits score word p) ps
    /\ (if variable then ms = [] /\ cs = []
        else class_offers (workspace h (method_named h)) c [] (fun m => static_access cur ac m /\ fits score word m) ms
          /\ offers_between (belongs (workspace h (const_named h)) c []) (overrides (workspace h (const_named h)) c)
               (fun x => (static_access cur ac x \/ mb_visibility x = Protected) /\ fits score word x)
               (fun x => (static_access cur ac x /\ mb_visibility x = Public) /\ fits score word x) cs).
Proof.
  intros T X root h st score variable qm qp qc cur ac word t ts c TOK OK RUN UN PU NSC NCM NCP NCC AM UM AP UP ACQ UC C NTP NTC AC ACC.
  destruct (C85_ends_partial T X st score word cur ac (t :: ts)) as (_ & EN).
  destruct (EN (acyclic_props TOK root h st OK RUN PU AC) (acyclic_consts TOK root h st OK RUN NSC ACC) variable qm qp qc) as (fuel & r & D). assert (D0 := D fuel (le_n fuel)).
  unfold scopedAccessCompletion in D0.
  destruct (scoped_methods _ _ _ _ _ _ _ _ _) as [(qm', ms)|] eqn:EM; [|discriminate D0]. destruct (scoped_props _ _ _ _ _ _ _ _) as [(qp', ps)|] eqn:EP; [|discriminate D0].
  destruct (scoped_consts _ _ _ _ _ _ _ _ _) as [(qc', cs)|] eqn:EC; [|discriminate D0]. injection D0 as E0. subst r.
  destruct (scoped_props_class TOK root h st OK RUN UN score word cur ac t ts fuel PU NCP qp qp' ps AP UP c C NTP AC EP) as (p1 & p2 & -> & RP & OP).
  assert (HM : exists m1 m2, ms = m1 ++ m2 /\ (ts = [] -> m2 = []) /\ (if variable then m1 = [] else class_offers (workspace h (method_named h)) c [] (fun m => static_access cur ac m /\ fits score word m) m1)).
  { destruct variable; [injection EM as _ <-; exists [], []; auto|]. exact (scoped_methods_class TOK root h st OK RUN UN score word cur ac t ts fuel NCM qm qm' ms AM UM c C EM). }
  assert (HC : exists c1 c2, cs = c1 ++ c2 /\ (ts = [] -> c2 = []) /\ (if variable then c1 = [] else offers_between (belongs (workspace h (const_named h)) c []) (overrides (workspace h (const_named h)) c)
               (fun x => (static_access cur ac x \/ mb_visibility x = Protected) /\ fits score word x) (fun x => (static_access cur ac x /\ mb_visibility x = Public) /\ fits score word x) c1)).
  { destruct variable; [injection EC as _ <-; exists [], []; auto|]. exact (scoped_consts_class TOK root h st OK RUN UN score word cur ac t ts fuel NSC NCC qc qc' cs ACQ UC c C NTC ACC EC). }
  destruct HM as (m1 & m2 & -> & RM & OM). destruct HC as (c1 & c2 & -> & RC & OC).
  eexists fuel, _, m1, p1, c1. split; [exact D|].
  assert (IN : forall i l sc, In i l -> In i (orderItems l sc)) by (intros i l sc; apply (Permutation_in _ (Permutation_sym (order_perm _ _)))).
  split; [|split; [|split; [|split; [|split; [exact OP|]]]]].
  - apply (listed_map _ _ _ (fun m => methodToCompletionItem (ws_member m))); [|intros y; split; [reflexivity|apply item_method]].
    intros y Y. apply IN. apply in_or_app. left. rewrite map_app. apply in_or_app. left. apply (in_map (fun m => methodToCompletionItem (ws_member m))). exact Y.
  - apply (listed_map _ _ _ (fun m => propToCompletionItem (ws_member m))); [|intros y; split; [reflexivity|apply item_static_property]].
    intros y Y. apply IN. apply in_or_app. right. apply in_or_app. left. rewrite map_app. apply in_or_app. left. apply (in_map (fun m => propToCompletionItem (ws_member m))). exact Y.
  - apply (listed_map _ _ _ (fun m => classConstToCompletionItem (ws_member m))); [|intros y; split; [reflexivity|split; reflexivity]].
    intros y Y. apply IN. apply in_or_app. right. apply in_or_app. right. rewrite map_app. apply in_or_app. left. apply (in_map (fun m => classConstToCompletionItem (ws_member m))). exact Y.
  - intros ET. rewrite (RM ET), (RP ET), (RC ET), !app_nil_r in *. split.
    + rewrite (Permutation_length (order_perm _ _)), !app_length, !map_length. lia.
    + intros i I. apply (Permutation_in _ (order_perm _ _)) in I. apply in_app_or in I as [I|I]; [|apply in_app_or in I as [I|I]]; apply in_map_iff in I as (y & <- & Y).
      * left. eexists y, _, _. split; [exact Y|]. split; [reflexivity|apply item_method].
      * right. left. eexists y, _, _. split; [exact Y|]. split; [reflexivity|apply item_static_property].
      * right. right. eexists y, _, _. split; [exact Y|]. split; [reflexivity|split; reflexivity].
  - destruct variable; auto.
Qed.
Print Assumptions C85_static_of_class_partial.

(** Behind [->] where the first type is an interface: its methods. *)
Theorem C85_arrow_of_interface_partial : forall (T : Text) (X : XorFilter) root h st score qm qp cur ac word t ts i fuel items,
  text_ok T -> Forall event_ok h -> run root h = Some st -> unique_names h ->
  (forall scope m, method_named h scope [] m -> ~ In COLON (m_name m)) ->
  asked false true true (method_db st) qm -> unasked qm [] -> interface_named h (ts_fqn t) i ->
  memberAccessCompletion st score fuel word qm qp cur ac (t :: ts) = Some (Items items) ->
  exists ms, listed MethodCompletion shows_method ms (map content items)
    /\ (ts = [] -> forall x, In x items -> it_kind x = MethodCompletion -> in_list MethodCompletion shows_method ms (content x))
    /\ interface_offers (workspace h (method_named h)) i [] (fun m => arrow_access cur ac m /\ fits score word m) ms.
Proof.
  intros T X root h st score qm qp cur ac word t ts i fuel items TOK OK RUN UN NCM AM UM C E. unfold memberAccessCompletion in E.
  destruct (arrow_methods _ _ _ _ _ _ _ _) as [(qm', ms)|] eqn:EM; [|discriminate E]. destruct (arrow_props _ _ _ _ _ _ _ _) as [(qp', ps)|] eqn:EP; [|discriminate E].
  destruct (arrow_methods_interface TOK root h st OK RUN UN score word cur ac t ts fuel NCM qm qm' ms AM UM i C EM) as (m1 & m2 & -> & RM & OM).
  destruct (without_dollars _) as [props|] eqn:W; [|discriminate E]. injection E as <-. destruct (without_dollars_map _ _ W) as (W1 & W2 & W3).
  exists m1. split; [|split; [|exact OM]].
  - apply (listed_map _ _ _ (fun m => methodToCompletionItem (ws_member m))); [|intros y; split; [reflexivity|apply item_method]].
    intros y Y. apply (Permutation_in _ (Permutation_sym (order_perm _ _))). apply in_or_app. left. rewrite map_app. apply in_or_app. left. apply (in_map (fun m => methodToCompletionItem (ws_member m))). exact Y.
  - intros ET x I K. rewrite (RM ET), app_nil_r in *. apply (Permutation_in _ (order_perm _ _)) in I. apply in_app_or in I as [I|I].
    + apply in_map_iff in I as (y & <- & Y). eexists y, _, _. split; [exact Y|]. split; [reflexivity|apply item_method].
    + destruct (W2 x I) as (y & _ & K' & _). rewrite K in K'. discriminate K'.
Qed.
Print Assumptions C85_arrow_of_interface_partial.

(** What a trait has is never proposed: neither behind [$this->] within the
    trait, nor, for properties, behind a variable of a class that uses it. *)
Definition no_score : gostr -> gostr -> Z := fun _ _ => 0%Z.
Definition labels (r : option completed) : option (list (item_kind * gostr)) :=
  match r with Some (Items l) => Some (map (fun i => (it_kind i, it_label i)) l) | _ => None end.
Ltac here k := exists uri_a, family_doc; split; [reflexivity|]; split; [exact I|]; eexists (firstn k (d_symbols family_doc)), _; split; [reflexivity|];
  let s := fresh in let H := fresh in let SE := fresh in intros s H _ SE; cbn in H;
  repeat (destruct H as [<-|H]; [first [exact SE|vm_compute in SE; first [discriminate SE|intuition discriminate]|apply (same_class_name_iff ascii_text_ok) in SE; vm_compute in SE; discriminate SE]|]); destruct H.
Theorem C85_trait_refuted : exists st m p sc,
  run root_uri family = Some st
  /\ trait_named family (B "\T") (Trait (at_line uri_a 1 9) (ty "\T")) /\ method_named family (B "\T") (B "t") m
  /\ memberAccessCompletion st no_score 9 [] NewQuery NewQuery (B "\T") (Access (B "$this") [ty "\T"]) [ty "\T"] = Some (Items [])
  /\ belongs (workspace family (prop_named family)) class_A (B "$t") p sc
  /\ exists l, labels (memberAccessCompletion st no_score 9 (B "") NewQuery NewQuery [] (Access (B "$x") [ty "\A"]) [ty "\A"]) = Some l
       /\ In (PropertyCompletion, B "a") l /\ ~ In (PropertyCompletion, B "t") l.
Proof.
  destruct (run root_uri family) as [st|] eqn:R; [|vm_compute in R; discriminate R].
  exists st, (Method (at_line uri_a 3 5) zero_loc (B "t") [] [ty "\int"] [] (ty "\T") Public false NoClassModifier None),
    (Property (Loc uri_a (line_range 7 7)) zero_loc [] None (B "$t") (ty "\T") Public false [ty "\int"]), (ScTrait (Trait (at_line uri_a 1 9) (ty "\T"))).
  assert (CT : current family (STrait (Trait (at_line uri_a 1 9) (ty "\T")))) by here 4%nat.
  split; [reflexivity|]. split; [split; [exact CT|reflexivity]|].
  split; [split; [exists (nth 5 (d_symbols family_doc) (a_trait "")); split; [here 5%nat|reflexivity]|split; [reflexivity|right; reflexivity]]|].
  split; [vm_compute in R; injection R as <-; vm_compute; reflexivity|].
  split.
  { apply trait_member with (d := class_A).
    - constructor.
    - exists (ty "\T"). split; [left; reflexivity|]. split; [reflexivity|]. split; [exact CT|reflexivity].
    - split; [exists (nth 6 (d_symbols family_doc) (a_trait "")); split; [here 6%nat|reflexivity]|split; [reflexivity|right; reflexivity]]. }
  vm_compute in R. injection R as <-. eexists. split; [vm_compute; reflexivity|]. split; [vm_compute; tauto|]. vm_compute. intuition discriminate.
Qed.
Print Assumptions C85_trait_refuted.

(** A property without a name -- the analysis finds one where its name is still
    to be written -- makes completion behind [->] panic if no word is typed yet. *)
Definition nameless : list event := Eval cbv delta [a_subclass a_property] beta iota in
  [EvSync (Doc uri_a (B "1") [a_subclass "\P" "" [] []; a_property uri_a "\P" "" (line_range 7 7)] [] [])].
Lemma nameless_ok : Forall event_ok nameless.
Proof. constructor; [|constructor]. unfold nameless. cbn [event_ok]. ok. Qed.
Theorem C85_crash_refuted : exists st, Forall event_ok nameless /\ run root_uri nameless = Some st
  /\ memberAccessCompletion st no_score 9 [] NewQuery NewQuery [] (Access (B "$x") [ty "\P"]) [ty "\P"] = Some Crash.
Proof.
  destruct (run root_uri nameless) as [st|] eqn:R; [|vm_compute in R; discriminate R]. exists st. split; [exact nameless_ok|]. split; [reflexivity|].
  vm_compute in R. injection R as <-. vm_compute. reflexivity.
Qed.
Print Assumptions C85_crash_refuted.

(** [$x->] and [$x->ru] where [$x] is a B, and [B::]; the search takes for a
    match what begins with the word. *)
Definition begins : gostr -> gostr -> Z := fun word name => if has_prefix word name then 1%Z else 0%Z.
Definition family_B : class := family_class "\B" "\P" ["\I"] [].
Example C85_hypotheses_met : exists st, run root_uri family = Some st
  /\ unique_names family /\ plain_uris family /\ no_shared_constants family
  /\ (forall scope m, method_named family scope [] m -> ~ In COLON (m_name m))
  /\ (forall scope p, prop_named family scope [] p -> ~ In COLON (pr_name p) /\ pr_name p <> [])
  /\ (forall scope x, const_named family scope [] x -> ~ In COLON (cc_name x))
  /\ class_named family (B "\B") family_B /\ interface_named family (B "\I") (Interface (at_line uri_a 1 9) zero_loc [] None (ty "\I") [ty "\J"])
  /\ (forall d u p, ancestor (workspace family (prop_named family)) family_B d -> uses (workspace family (prop_named family)) d u -> ~ prop_named family (ts_fqn (t_name u)) [] p)
  /\ (forall d u x, ancestor (workspace family (const_named family)) family_B d -> uses (workspace family (const_named family)) d u -> ~ const_named family (ts_fqn (t_name u)) [] x)
  /\ acyclic (workspace family (prop_named family)) /\ acyclic (workspace family (const_named family))
  /\ asked false true true (method_db st) NewQuery /\ unasked (@NewQuery method) []
  /\ labels (memberAccessCompletion st begins 9 [] NewQuery NewQuery [] (Access (B "$x") [ty "\B"]) [ty "\B"])
     = Some [(MethodCompletion, B "__construct"); (MethodCompletion, B "run"); (MethodCompletion, B "Twice"); (MethodCompletion, B "i"); (MethodCompletion, B "j"); (PropertyCompletion, B "a")]
  /\ labels (memberAccessCompletion st begins 9 (B "ru") NewQuery NewQuery [] (Access (B "$x") [ty "\B"]) [ty "\B"]) = Some [(MethodCompletion, B "run")]
  /\ labels (memberAccessCompletion st begins 9 [] NewQuery NewQuery [] (Access (B "$x") [ty "\I"]) [ty "\I"]) = Some [(MethodCompletion, B "i"); (MethodCompletion, B "j")]
  /\ labels (scopedAccessCompletion st begins 9 [] false NewQuery NewQuery NewQuery [] (Access (B "self") [ty "\B"]) [ty "\B"]) 
     = Some [(MethodCompletion, B "__construct"); (MethodCompletion, B "kept"); (MethodCompletion, B "run"); (MethodCompletion, B "Twice"); (MethodCompletion, B "i"); (MethodCompletion, B "j");
         (PropertyCompletion, B "$a"); (ConstantCompletion, B "MAX")].
Proof.
  destruct C37_hypotheses_met as (_ & _ & UN & _). destruct C38_hypotheses_met as (PU & NSC & _).
  destruct (run root_uri family) as [st|] eqn:R; [|vm_compute in R; discriminate R]. exists st. split; [reflexivity|]. split; [exact UN|]. split; [exact PU|]. split; [exact NSC|].
  split. { intros scope m ((s & CS & K) & _). apply family_symbols in CS. cbn in CS.
    repeat (destruct CS as [H|CS]; [rewrite <- H in K; first [discriminate K|injection K as ->; vm_compute; intuition discriminate]|]). destruct CS. }
  split. { intros scope m ((s & CS & K) & _). apply family_symbols in CS. cbn in CS.
    repeat (destruct CS as [H|CS]; [rewrite <- H in K; first [discriminate K|injection K as ->; vm_compute; intuition discriminate]|]). destruct CS. }
  split. { intros scope m ((s & CS & K) & _). apply family_symbols in CS. cbn in CS.
    repeat (destruct CS as [H|CS]; [rewrite <- H in K; first [discriminate K|injection K as ->; vm_compute; intuition discriminate]|]). destruct CS. }
  split; [split; [here 19%nat|left; reflexivity]|]. split; [split; [exists (nth 2 (d_symbols family_doc) (a_trait "")); split; [here 2%nat|reflexivity]|reflexivity]|].
  assert (AN : forall M (members : gostr -> gostr -> M -> Prop) d, ancestor (workspace family members) family_B d -> d = family_B \/ d = family_class "\P" "" [] []).
  { intros M members d A. induction A as [|d p A IH (NE & PC & N)]; [left; reflexivity|]. apply (same_class_name_iff ascii_text_ok) in N.
    destruct IH as [->| ->]; [|discriminate NE]. right. family_cases PC; first [reflexivity|vm_compute in N; discriminate N]. }
  split; [intros d u p A (e & E & _); destruct (AN _ _ d A) as [->| ->]; destruct E|]. split; [intros d u p A (e & E & _); destruct (AN _ _ d A) as [->| ->]; destruct E|].
  split; [apply family_acyclic|]. split; [apply family_acyclic|]. split; [constructor|]. split; [split; [|split]; intros f i []|].
  vm_compute in R. injection R as <-. split; [vm_compute; reflexivity|]. split; [vm_compute; reflexivity|]. split; vm_compute; reflexivity.
Qed.
