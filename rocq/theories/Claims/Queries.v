(** Claims about collecting the members of a class and about which of them an
    expression can access. *)
From Coq Require Import String.
From Coq Require Import List Bool NArith ZArith Lia.
From Coq.Strings Require Import Byte.
From Verif Require Import Base.Bytes Base.BytesProofs Base.Protocol Codec.CodecSpec Symbols.Symbols Symbols.KeysModel Words.TokeniserSpec
  Storage.KvModel Store.FilterModel Store.StoreModel Store.StoreSpec Store.LookupProofs Store.LookupKinds Store.Examples
  Query.QueryModel Query.QueryStoreModel Query.QuerySpec Query.QueryProofs Query.QueryMembers Query.QueryClaimProofs
  Query.QueryHistorySpec Query.QueryHistory Query.QuerySound.
Import ListNotations.
Open Scope list_scope.

Local Open Scope string_scope.
Local Open Scope list_scope.

(** ** The workspace of the examples *)
Definition a_subclass (name parent : string) (interfaces traits : list string) : symbol :=
  SClass (Class [] (at_line uri_a 1 1) (at_line uri_a 1 9) NoClassModifier (ty name) (ty parent) (map ty interfaces) (map ty traits) None).
Definition an_interface (name : string) (extends : list string) : symbol :=
  SInterface (Interface (at_line uri_a 1 9) (at_line uri_a 1 1) [] None (ty name) (map ty extends)).
Definition a_trait (name : string) : symbol := STrait (Trait (at_line uri_a 1 9) (ty name)).
Definition a_member (scope name : string) (visibility : Z) (static : bool) : symbol :=
  SMethod (Method (at_line uri_a 3 5) (at_line uri_a 3 3) (B name) [] [ty "\int"] [] (ty scope) visibility static NoClassModifier None).
Definition family_doc : doc := Eval cbv delta [a_subclass an_interface a_trait a_member a_property a_constant] beta iota in Doc uri_a (B "1")
  [ an_interface "\J" []; a_member "\J" "j" Public false;
    an_interface "\I" ["\J"]; a_member "\I" "i" Public false;
    a_trait "\T"; a_member "\T" "t" Public false; a_property uri_a "\T" "$t" (line_range 7 7);
    a_subclass "\P" "" [] []; a_member "\P" "run" Public false; a_member "\P" "hidden" Private false;
    a_member "\P" "__construct" Public false; a_member "\P" "kept" Protected false; a_member "\P" "Twice" Public false;
    a_member "\P" "secret" Private true;
    a_subclass "\A" "\p" ["\I"] ["\T"]; a_member "\A" "run" Public false; a_member "\A" "__construct" Private false; a_member "\A" "twice" Public false;
    a_property uri_a "\A" "$a" (line_range 8 8);
    a_subclass "\B" "\P" ["\I"] [];
    a_subclass "\C" "" ["\J"; "\I"] [];
    a_constant uri_a "\P" "MAX" "1"; a_constant uri_a "\A" "MAX" "2"; a_property uri_a "\P" "$a" (line_range 9 9) ] [] [].
Definition family : list event := [EvSync family_doc].
Lemma family_ok : Forall event_ok family.
Proof. constructor; [|constructor]. unfold family_doc. cbn [event_ok]. ok. Qed.
Definition family_class (name parent : string) (interfaces traits : list string) : class :=
  Class [] (at_line uri_a 1 1) (at_line uri_a 1 9) NoClassModifier (ty name) (ty parent) (map ty interfaces) (map ty traits) None.

(** two classes that extend each other *)
Definition cycle_doc : doc := Eval cbv delta [a_subclass] beta iota in Doc uri_a (B "1")
  [ a_subclass "\X" "\Y" [] []; a_subclass "\Y" "\X" [] [] ] [] [].
Definition cycle : list event := [EvSync cycle_doc].
Lemma cycle_ok : Forall event_ok cycle.
Proof. constructor; [|constructor]. unfold cycle_doc. cbn [event_ok]. ok. Qed.

(** ** C36 *)
(** For every store, also of ill-formed programs, and in every state of the
    query: collecting the methods of a class, and the methods, constants and
    properties of an interface, ends. *)
Theorem C36_methods_and_interfaces_terminate_partial : forall (T : Text) (X : XorFilter) st name,
  (forall q c searched, valid_address q searched ->
     exists n r, forall fuel, (n <= fuel)%nat -> GetClassMethods (method_db st) fuel q c name searched = Some r)
  /\ (forall q i searched, valid_address q searched ->
     exists n r, forall fuel, (n <= fuel)%nat -> GetInterfaceMethods (method_db st) fuel q i name searched = Some r)
  /\ (forall q i searched, valid_address q searched ->
     exists n r, forall fuel, (n <= fuel)%nat -> GetInterfaceClassConsts (const_db st) fuel q i name searched = Some r)
  /\ (forall q i searched, valid_address q searched ->
     exists n r, forall fuel, (n <= fuel)%nat -> GetInterfaceProps (prop_db st) fuel q i name searched = Some r).
Proof.
  intros T X st name. split; [|split; [|split]].
  - intros q c s V. exact (class_members_terminate false true (method_db st) true (store_db_finite _ st) (or_introl eq_refl) q c name s V).
  - intros q i s V. destruct (interface_terminates false (method_db st) (store_db_finite _ st) q i name s V) as (n & r & _ & H). exists n, r. exact H.
  - intros q i s V. destruct (interface_terminates true (const_db st) (store_db_finite _ st) q i name s V) as (n & r & _ & H). exists n, r. exact H.
  - intros q i s V. destruct (interface_terminates false (prop_db st) (store_db_finite _ st) q i name s V) as (n & r & _ & H). exists n, r. exact H.
Qed.
Print Assumptions C36_methods_and_interfaces_terminate_partial.

(** Collecting the constants and the properties of a class ends if no class
    extends itself through its parents. *)
Theorem C36_constants_and_properties_terminate_partial : forall (T : Text) (X : XorFilter) st name,
  acyclic (const_db st) ->
  (forall q c searched, valid_address q searched ->
     exists n r, forall fuel, (n <= fuel)%nat -> GetClassClassConsts (const_db st) fuel q c name searched = Some r)
  /\ (forall q c searched, valid_address q searched ->
     exists n r, forall fuel, (n <= fuel)%nat -> GetClassProps (prop_db st) fuel q c name searched = Some r).
Proof.
  intros T X st name AC. split; intros q c s V.
  - exact (class_members_terminate true false (const_db st) false (store_db_finite _ st) (or_intror AC) q c name s V).
  - exact (class_members_terminate false false (prop_db st) false (store_db_finite _ st) (or_intror AC) q c name s V).
Qed.
Print Assumptions C36_constants_and_properties_terminate_partial.

(** Otherwise the loop never ends: the classes already searched are not
    remembered there (query.go:653, 897). *)
Theorem C36_terminates_refuted : exists h st c,
  Forall event_ok h /\ run root_uri h = Some st /\ current h (SClass c)
  /\ (forall fuel name, GetClassClassConsts (const_db st) fuel NewQuery c name None = None)
  /\ (forall fuel name, GetClassProps (prop_db st) fuel NewQuery c name None = None).
Proof.
  destruct (run root_uri cycle) as [st|] eqn:R; [|vm_compute in R; discriminate R].
  exists cycle, st, (family_class "\X" "\Y" [] []). split; [exact cycle_ok|]. split; [exact R|].
  assert (CY : forall {M} (members : gostr -> gostr -> list M) c, (c = family_class "\X" "\Y" [] [] \/ c = family_class "\Y" "\X" [] []) ->
    c_interfaces c = [] /\ ts_IsEmpty (c_extends c) = false /\ exists d, db_classes (store_db members st) (ts_fqn (c_extends c)) = [d] /\ (d = family_class "\X" "\Y" [] [] \/ d = family_class "\Y" "\X" [] [])).
  { intros M members c [-> | ->]; (split; [reflexivity|]; split; [reflexivity|]); vm_compute in R; injection R as <-; eexists; (split; [vm_compute; reflexivity|auto]). }
  split; [|split].
  - exists uri_a, cycle_doc. split; [reflexivity|]. split; [exact I|]. eexists [], _. split; [reflexivity|]. intros s [<-|[]] _ H. cbn in H.
    apply same_class_name_iff in H; [vm_compute in H; discriminate H|exact ascii_text_ok].
  - intros fuel name. apply (cycle_never_ends true (const_db st) _ (CY _ _)). left. reflexivity.
  - intros fuel name. apply (cycle_never_ends false (prop_db st) _ (CY _ _)). left. reflexivity.
Qed.
Print Assumptions C36_terminates_refuted.

(** the example workspace has no cycle, and its collections are not empty *)
Lemma family_symbols : forall s, current family s -> In s (d_symbols family_doc).
Proof.
  intros s (u & dd & L & D). unfold family, latest in L. cbn [fold_left] in L. destruct (str_eqb (d_uri family_doc) u); [|discriminate L].
  injection L as <-. destruct D as (_ & b & a & E & _). rewrite E. apply in_or_app. right. left. reflexivity.
Qed.
Ltac family_cases H := apply family_symbols in H; cbn in H;
  repeat (let H' := fresh in destruct H as [H'|H]; [first [discriminate H'|injection H' as <-]|]); try (exfalso; exact H).
Example C36_hypotheses_met : exists st, run root_uri family = Some st /\ acyclic (const_db st)
  /\ option_map (fun r => length (ih_members (snd r))) (GetClassMethods (method_db st) 9 NewQuery (family_class "\A" "\p" ["\I"] ["\T"]) [] None) = Some 12%nat
  /\ option_map (fun r => length (ih_members (snd r))) (GetClassProps (prop_db st) 9 NewQuery (family_class "\A" "\p" ["\I"] ["\T"]) [] None) = Some 2%nat.
Proof.
  destruct (run root_uri family) as [st|] eqn:R; [|vm_compute in R; discriminate R]. exists st. split; [reflexivity|]. split.
  - exists (fun c => if ts_IsEmpty (c_extends c) then 0%nat else if str_eqb (GetClassFQNLowerCase (ts_fqn (c_extends c))) (B "\p") then 1%nat else 2%nat).
    intros c p [NE P]. rewrite NE. apply (db_class ascii_text_ok root_uri family st family_ok R) in P as [C N].
    apply (same_class_name_iff ascii_text_ok) in N. rewrite <- N. family_cases C; vm_compute; lia.
  - vm_compute in R. injection R as <-. split; vm_compute; reflexivity.
Qed.

(** ** C37 *)
(** After any history in which no class-like is declared twice: a first query
    for the methods of a class yields exactly the methods of the name that the
    class, its ancestors, the traits they use and the interfaces they
    implement declare, each with the class-like that declares it. *)
Theorem C37_methods_complete_partial : forall (T : Text) (X : XorFilter) root h st c name,
  text_ok T -> Forall event_ok h -> run root h = Some st -> unique_names h -> current h (SClass c) -> ~ In NUL name ->
  exists n q' r, (forall fuel, (n <= fuel)%nat -> GetClassMethods (method_db st) fuel NewQuery c name None = Some (q', r))
    /\ forall x, In x (ih_members r) <-> exists m sc, x = WithScope m sc 0%Z /\ belongs (workspace h (method_named h)) c name m sc.
Proof.
  intros T X root h st c name TOK OK RUN UN C NN.
  destruct (C36_methods_and_interfaces_terminate_partial T X st name) as (TM & _). destruct (TM NewQuery c None I) as (n & [q' r] & H).
  exists n, q', r. split; [exact H|].
  assert (SW : same_world no_nul name (method_db st) (workspace h (method_named h))).
  { apply (store_world TOK root h st OK RUN). intros scope m NS. apply (db_method TOK root h st OK RUN); assumption. }
  assert (NC : ~ In NUL (ts_fqn (c_name c))) by (apply (current_names TOK _ _ OK C); left; reflexivity).
  intros x. rewrite (class_members_belong false true true (method_db st) name) with (3 := or_introl eq_refl) (4 := H n (le_n n)).
  - split; intros (m & sc & E & BL); exists m, sc; (split; [exact E|]).
    + exact (same_belongs no_nul name _ _ SW c m sc NC BL).
    + exact (same_belongs no_nul name _ _ (same_world_sym _ _ _ _ SW) c m sc NC BL).
  - eapply same_once; [apply same_world_sym; exact SW|]. apply (workspace_once TOK). exact UN.
  - exists (ts_fqn (c_name c)). apply (db_class TOK root h st OK RUN). split; [exact C|]. left. reflexivity.
Qed.
Print Assumptions C37_methods_complete_partial.

(** Whatever is declared twice, and whatever members of this name were asked for
    before with the same query: each method answered is declared, under the name, in
    a file of the workspace.  [earlier]: the classes asked for before. *)
Fixpoint ask_methods {T : Text} (st : store) (fuel : nat) (name : gostr) (q : query method) (cs : list class) : option (query method * inherited method) :=
  match cs with
  | [] => None
  | [c] => GetClassMethods (method_db st) fuel q c name None
  | c :: cs => match GetClassMethods (method_db st) fuel q c name None with Some (q, _) => ask_methods st fuel name q cs | None => None end
  end.
Theorem C37_only_declared_methods : forall (T : Text) (X : XorFilter) root h st name earlier c fuel q r x,
  text_ok T -> Forall event_ok h -> run root h = Some st -> Forall (fun c => current h (SClass c)) earlier -> current h (SClass c) -> ~ In NUL name ->
  ask_methods st fuel name NewQuery (earlier ++ [c]) = Some (q, r) -> In x (ih_members r) ->
  exists m, current h (SMethod m) /\ (name = [] \/ to_lower (m_name m) = to_lower name) /\ shown (SMethod m) (SMethod (ws_member x)).
Proof.
  intros T X root h st name earlier c fuel q r x TOK OK RUN Ce Cc NN A Ix.
  set (P := fun m0 : method => exists m, current h (SMethod m) /\ (name = [] \/ to_lower (m_name m) = to_lower name) /\ shown (SMethod m) (SMethod m0)).
  assert (SW : same_world no_nul name (method_db st) (workspace h (method_named h))).
  { apply (store_world TOK root h st OK RUN). intros scope m NS. apply (db_method TOK root h st OK RUN); assumption. }
  destruct SW as (_ & _ & _ & Mm & Oc & Oi & Ot).
  assert (Pm : forall s m, no_nul s -> In m (db_members (method_db st) s name) -> P m).
  { intros sc m O I. apply (Mm sc m O) in I as ((y & Cy & Ky) & _ & Ny). destruct y; try discriminate Ky. cbn in Ky. injection Ky as ->. exists s. split; [exact Cy|].
    split; [exact Ny|]. exact (keep_shown (SMethod s)). }
  assert (St : forall q c q' r, current h (SClass c) -> clean name P q -> GetClassMethods (method_db st) fuel q c name None = Some (q', r) -> clean name P q' /\ clean_members P (ih_members r)).
  { intros q0 c0 q1 r0 C0 Q0. apply (class_clean false true true (method_db st) name no_nul P Oc Oi Ot Pm); [|exact Q0]. apply (current_names TOK _ _ OK C0). left. reflexivity. }
  assert (G : forall earlier q0, Forall (fun c => current h (SClass c)) earlier -> clean name P q0 -> ask_methods st fuel name q0 (earlier ++ [c]) = Some (q, r) -> clean_members P (ih_members r)).
  { clear earlier Ce A. induction earlier as [|e l IH]; intros q0 Ce Q0 A.
    - cbn in A. exact (proj2 (St _ _ _ _ Cc Q0 A)).
    - inversion Ce; subst. cbn [app ask_methods] in A. destruct (l ++ [c]) eqn:El; [destruct l; discriminate El|].
      destruct (GetClassMethods (method_db st) fuel q0 e name None) as [(q1, r1)|] eqn:E1; [|discriminate A]. destruct (St _ _ _ _ H1 Q0 E1) as (Q1 & _). exact (IH q1 H2 Q1 A). }
  pose proof (G earlier NewQuery Ce (clean_new name P) A) as F. unfold clean_members in F. rewrite Forall_forall in F. exact (F x Ix).
Qed.
Print Assumptions C37_only_declared_methods.

(** The same for an interface and the interfaces it extends. *)
Theorem C37_interface_methods_complete_partial : forall (T : Text) (X : XorFilter) root h st i name,
  text_ok T -> Forall event_ok h -> run root h = Some st -> unique_names h -> indexed h (SInterface i) -> ~ In NUL name ->
  exists n q' r, (forall fuel, (n <= fuel)%nat -> GetInterfaceMethods (method_db st) fuel NewQuery i name None = Some (q', r))
    /\ forall x, In x (ih_members r) <-> exists m sc, x = WithScope m sc 0%Z /\ interface_belongs (workspace h (method_named h)) i name m sc.
Proof.
  intros T X root h st i name TOK OK RUN UN C NN.
  destruct (C36_methods_and_interfaces_terminate_partial T X st name) as (_ & TM & _). destruct (TM NewQuery i None I) as (n & [q' r] & H).
  exists n, q', r. split; [exact H|].
  assert (SW : same_world no_nul name (method_db st) (workspace h (method_named h))).
  { apply (store_world TOK root h st OK RUN). intros scope m NS. apply (db_method TOK root h st OK RUN); assumption. }
  assert (DI : In i (db_interfaces (method_db st) (ts_fqn (i_name i)))) by (apply (db_interface TOK root h st OK RUN); split; [exact C|reflexivity]).
  assert (NC : ~ In NUL (ts_fqn (i_name i))) by (destruct SW as (_ & _ & _ & _ & _ & S6 & _); eapply S6; exact DI).
  intros x. rewrite (interface_members_belong false (method_db st)) with (3 := H n (le_n n)).
  - split; intros (m & sc & E & BL); exists m, sc; (split; [exact E|]).
    + exact (same_interface_belongs no_nul name _ _ SW i m sc NC BL).
    + exact (same_interface_belongs no_nul name _ _ (same_world_sym _ _ _ _ SW) i m sc NC BL).
  - eapply same_once; [apply same_world_sym; exact SW|]. apply (workspace_once TOK). exact UN.
  - eexists. exact DI.
Qed.
Print Assumptions C37_interface_methods_complete_partial.

(** Properties and constants of classes: also only if no class extends itself
    and no used trait declares such a member. *)
Theorem C37_properties_complete_partial : forall (T : Text) (X : XorFilter) root h st c name,
  text_ok T -> Forall event_ok h -> run root h = Some st -> unique_names h -> plain_uris h -> current h (SClass c) -> ~ In NUL name ->
  acyclic (workspace h (prop_named h)) ->
  (forall d t p, ancestor (workspace h (prop_named h)) c d -> uses (workspace h (prop_named h)) d t -> ~ prop_named h (ts_fqn (t_name t)) name p) ->
  exists n q' r, (forall fuel, (n <= fuel)%nat -> GetClassProps (prop_db st) fuel NewQuery c name None = Some (q', r))
    /\ forall x, In x (ih_members r) <-> exists m sc, x = WithScope m sc 0%Z /\ belongs (workspace h (prop_named h)) c name m sc.
Proof.
  intros T X root h st c name TOK OK RUN UN PU C NN AC NT.
  assert (SW : same_world no_nul name (prop_db st) (workspace h (prop_named h))).
  { apply (store_world TOK root h st OK RUN). intros scope m NS. apply (db_prop TOK root h st OK RUN); assumption. }
  assert (AC' : acyclic (prop_db st)) by (destruct AC as [rank AC]; exists rank; intros d p P; apply AC; exact (same_parent_w no_nul name _ _ SW d p P)).
  destruct (class_members_terminate false false (prop_db st) false (store_db_finite _ st) (or_intror AC') NewQuery c name None I) as (n & [q' r] & H).
  exists n, q', r. split; [exact H|].
  assert (NC : ~ In NUL (ts_fqn (c_name c))) by (apply (current_names TOK _ _ OK C); left; reflexivity).
  intros x. rewrite (class_members_belong false false false (prop_db st) name) with (4 := H n (le_n n)).
  - split; intros (m & sc & E & BL); exists m, sc; (split; [exact E|]).
    + exact (same_belongs no_nul name _ _ SW c m sc NC BL).
    + exact (same_belongs no_nul name _ _ (same_world_sym _ _ _ _ SW) c m sc NC BL).
  - eapply same_once; [apply same_world_sym; exact SW|]. apply (workspace_once TOK). exact UN.
  - exists (ts_fqn (c_name c)). apply (db_class TOK root h st OK RUN). split; [exact C|]. left. reflexivity.
  - right. intros d t m A U M. apply (NT d t m).
    + exact (same_ancestor no_nul name _ _ SW c d A).
    + exact (same_uses no_nul name _ _ SW d t U).
    + assert (SW' := SW). destruct SW' as (_ & _ & _ & S4 & _ & _ & S7). apply S4; [|exact M]. destruct U as (e & _ & _ & U). eapply S7. exact U.
Qed.
Print Assumptions C37_properties_complete_partial.
Theorem C37_constants_complete_partial : forall (T : Text) (X : XorFilter) root h st c name,
  text_ok T -> Forall event_ok h -> run root h = Some st -> unique_names h -> current h (SClass c) -> ~ In NUL name ->
  no_shared_constants h -> (name <> [] -> forall scope, no_longer_constant h scope name) ->
  acyclic (workspace h (const_named h)) ->
  (forall d t p, ancestor (workspace h (const_named h)) c d -> uses (workspace h (const_named h)) d t -> ~ const_named h (ts_fqn (t_name t)) name p) ->
  exists n q' r, (forall fuel, (n <= fuel)%nat -> GetClassClassConsts (const_db st) fuel NewQuery c name None = Some (q', r))
    /\ forall x, In x (ih_members r) <-> exists m sc, x = WithScope m sc 0%Z /\ belongs (workspace h (const_named h)) c name m sc.
Proof.
  intros T X root h st c name TOK OK RUN UN C NN NSC NLC AC NT.
  assert (SW : same_world no_nul name (const_db st) (workspace h (const_named h))).
  { apply (store_world TOK root h st OK RUN). intros scope m NS. apply (db_const TOK root h st OK RUN); auto. }
  assert (AC' : acyclic (const_db st)) by (destruct AC as [rank AC]; exists rank; intros d p P; apply AC; exact (same_parent_w no_nul name _ _ SW d p P)).
  destruct (class_members_terminate true false (const_db st) false (store_db_finite _ st) (or_intror AC') NewQuery c name None I) as (n & [q' r] & H).
  exists n, q', r. split; [exact H|].
  assert (NC : ~ In NUL (ts_fqn (c_name c))) by (apply (current_names TOK _ _ OK C); left; reflexivity).
  intros x. rewrite (class_members_belong true false false (const_db st) name) with (4 := H n (le_n n)).
  - split; intros (m & sc & E & BL); exists m, sc; (split; [exact E|]).
    + exact (same_belongs no_nul name _ _ SW c m sc NC BL).
    + exact (same_belongs no_nul name _ _ (same_world_sym _ _ _ _ SW) c m sc NC BL).
  - eapply same_once; [apply same_world_sym; exact SW|]. apply (workspace_once TOK). exact UN.
  - exists (ts_fqn (c_name c)). apply (db_class TOK root h st OK RUN). split; [exact C|]. left. reflexivity.
  - right. intros d t m A U M. apply (NT d t m).
    + exact (same_ancestor no_nul name _ _ SW c d A).
    + exact (same_uses no_nul name _ _ SW d t U).
    + assert (SW' := SW). destruct SW' as (_ & _ & _ & S4 & _ & _ & S7). apply S4; [|exact M]. destruct U as (e & _ & _ & U). eapply S7. exact U.
Qed.
Print Assumptions C37_constants_complete_partial.

(** A second call in the same request can miss inherited methods: the
    interface I of A is cached with the map of all names searched for A, which
    contains P; merging it into the search of B hides P. *)
Definition class_A := family_class "\A" "\p" ["\I"] ["\T"].
Definition class_B := family_class "\B" "\P" ["\I"] [].
Definition class_C := family_class "\C" "" ["\J"; "\I"] [].
Definition interface_I : interface := Interface (at_line uri_a 1 9) zero_loc [] None (ty "\I") [ty "\J"].
Definition names_found {M} {MM : Member M} (r : query M * inherited M) : list gostr := map (fun x => mb_name (ws_member x)) (ih_members (snd r)).
Theorem C37_repeated_query_refuted : exists st q1 r1,
  run root_uri family = Some st /\ GetClassMethods (method_db st) 9 NewQuery class_A (B "run") None = Some (q1, r1)
  /\ option_map names_found (GetClassMethods (method_db st) 9 NewQuery class_B (B "run") None) = Some [B "run"]
  /\ option_map names_found (GetClassMethods (method_db st) 9 q1 class_B (B "run") None) = Some [].
Proof.
  eexists. eexists. eexists. split; [vm_compute; reflexivity|]. split; [vm_compute; reflexivity|]. split; vm_compute; reflexivity.
Qed.
Print Assumptions C37_repeated_query_refuted.

(** Asking for an interface after a class that implements it: the cached
    collection leaves out what the class had searched before. *)
Theorem C37_interface_after_class_refuted : exists st q1 r1,
  run root_uri family = Some st /\ GetClassMethods (method_db st) 9 NewQuery class_C [] None = Some (q1, r1)
  /\ option_map names_found (GetInterfaceMethods (method_db st) 9 NewQuery interface_I [] None) = Some [B "i"; B "j"]
  /\ option_map names_found (GetInterfaceMethods (method_db st) 9 q1 interface_I [] None) = Some [B "i"].
Proof.
  eexists. eexists. eexists. split; [vm_compute; reflexivity|]. split; [vm_compute; reflexivity|]. split; vm_compute; reflexivity.
Qed.
Print Assumptions C37_interface_after_class_refuted.

(** Properties that a trait declares are not found on the classes using it. *)
Theorem C37_trait_properties_refuted : exists st p sc,
  run root_uri family = Some st /\ belongs (prop_db st) class_A [] p sc /\ pr_name p = B "$t"
  /\ option_map names_found (GetClassProps (prop_db st) 9 NewQuery class_A [] None) = Some [B "$a"; B "$a"].
Proof.
  eexists. eexists. exists (ScTrait (Trait (at_line uri_a 1 9) (ty "\T"))). split; [vm_compute; reflexivity|]. split.
  - eapply trait_member; [apply ancestor_self| |left; vm_compute; reflexivity]. exists (ty "\T"). split; [left; reflexivity|]. split; [reflexivity|].
    left. vm_compute. reflexivity.
  - split; [vm_compute; reflexivity|]. vm_compute. reflexivity.
Qed.
Print Assumptions C37_trait_properties_refuted.

(** a class with a parent, an interface that extends another one and a trait *)
Example C37_hypotheses_met :
  text_ok ascii_text /\ Forall event_ok family /\ unique_names family /\ current family (SClass class_A)
  /\ exists st, run root_uri family = Some st
       /\ option_map names_found (GetClassMethods (method_db st) 9 NewQuery class_A [] None)
          = Some [B "__construct"; B "run"; B "twice"; B "t"; B "__construct"; B "hidden"; B "kept"; B "run"; B "secret"; B "Twice"; B "i"; B "j"].
Proof.
  split; [exact ascii_text_ok|]. split; [exact family_ok|]. split; [|split].
  - constructor.
    + intros c d C D H. apply (same_class_name_iff ascii_text_ok) in H. family_cases C; family_cases D; try reflexivity; vm_compute in H; discriminate H.
    + intros c d C D H. family_cases C; family_cases D; try reflexivity; vm_compute in H; discriminate H.
    + intros c d C D H. family_cases C; family_cases D; try reflexivity; vm_compute in H; discriminate H.
    + intros c d C D H. apply (same_class_name_iff ascii_text_ok) in H. family_cases C; family_cases D; vm_compute in H; discriminate H.
  - exists uri_a, family_doc. split; [reflexivity|]. split; [exact I|]. eexists (firstn 14 (d_symbols family_doc)), _. split; [reflexivity|].
    intros s H _ SE. cbn in H. repeat (destruct H as [<-|H]; [first [exact SE|apply (same_class_name_iff ascii_text_ok) in SE; vm_compute in SE; discriminate SE]|]). destruct H.
  - eexists. split; [vm_compute; reflexivity|]. vm_compute. reflexivity.
Qed.

(** ** C38 *)
(** Whatever was collected, no name is offered twice. *)
Theorem C38_each_name_once : forall (M : Type) (MM : Member M) (r : inherited M) currentClass ac,
  NoDup (map (fun y => mb_name (ws_member y)) (ReduceStatic r currentClass ac))
  /\ NoDup (map (fun y => mb_name (ws_member y)) (ReduceAccess r currentClass ac)).
Proof.
  intros M MM r cur ac. split; apply reduce_nodup; intros x; [reflexivity|]. destruct (mb_static (ws_member x)); reflexivity.
Qed.
Print Assumptions C38_each_name_once.

(** [y] is offered where exactly the members satisfying [ok] are accessible:
    it is a member of the class, accessible, and no accessible member of the
    same name overrides it; and no accessible name is left out *)
Definition offered_rightly {M} {MM : Member M} (w : world M) (c : class) (name : gostr) (ok : M -> bool) (l : list (with_scope M)) : Prop :=
  (forall y, In y l ->
     belongs w c name (ws_member y) (ws_scope y) /\ ok (ws_member y) = true
     /\ forall m sc, belongs w c name m sc -> mb_name m = mb_name (ws_member y) -> overrides w c sc (ws_scope y) -> ok m = false)
  /\ (forall m sc, belongs w c name m sc -> ok m = true -> exists y, In y l /\ mb_name (ws_member y) = mb_name m).
Lemma offered_same : forall {M} {MM : Member M} ok name (w w' : world M) c good l, same_world ok name w w' -> ok (ts_fqn (c_name c)) ->
  offered_rightly w c name good l -> offered_rightly w' c name good l.
Proof.
  intros M MM ok name w w' c good l SW C [H1 H2]. assert (SW' := same_world_sym _ _ _ _ SW). split.
  - intros y Y. destruct (H1 y Y) as (B1 & B2 & B3). split; [exact (same_belongs ok name _ _ SW c _ _ C B1)|]. split; [exact B2|].
    intros m sc BM NM OV. apply (B3 m sc); [exact (same_belongs ok name _ _ SW' c m sc C BM)|exact NM|exact (same_overrides ok name _ _ SW' c _ _ OV)].
  - intros m sc BM. apply (H2 m sc). exact (same_belongs ok name _ _ SW' c m sc C BM).
Qed.

(** After any history in which no class-like is declared twice: among the
    methods of a class, the overriding one is offered. *)
Theorem C38_methods_override_partial : forall (T : Text) (X : XorFilter) root h st c name currentClass ac,
  text_ok T -> Forall event_ok h -> run root h = Some st -> unique_names h -> current h (SClass c) -> ~ In NUL name ->
  exists n q' r, (forall fuel, (n <= fuel)%nat -> GetClassMethods (method_db st) fuel NewQuery c name None = Some (q', r))
    /\ offered_rightly (workspace h (method_named h)) c name (IsInheritedStatic currentClass ac (ih_relations r)) (ReduceStatic r currentClass ac)
    /\ offered_rightly (workspace h (method_named h)) c name (IsInherited currentClass ac (ih_relations r)) (ReduceAccess r currentClass ac).
Proof.
  intros T X root h st c name cur ac TOK OK RUN UN C NN.
  destruct (C36_methods_and_interfaces_terminate_partial T X st name) as (TM & _). destruct (TM NewQuery c None I) as (n & [q' r] & H).
  exists n, q', r. split; [exact H|].
  assert (SW : same_world no_nul name (method_db st) (workspace h (method_named h))).
  { apply (store_world TOK root h st OK RUN). intros scope m NS. apply (db_method TOK root h st OK RUN); assumption. }
  assert (NC : ~ In NUL (ts_fqn (c_name c))) by (apply (current_names TOK _ _ OK C); left; reflexivity).
  assert (OF : forall ok adjust, (forall x, ws_member (adjust x) = ws_member x /\ ws_scope (adjust x) = ws_scope x) ->
    offered_rightly (workspace h (method_named h)) c name ok (reduce ok adjust [] (ih_members r))).
  { intros ok adjust ADJ. apply (offered_same no_nul name (method_db st)); [exact SW|exact NC|].
    apply (offered_members false true true (method_db st) c name n q' r); auto.
    - eapply same_once; [apply same_world_sym; exact SW|]. apply (workspace_once TOK). exact UN.
    - exists (ts_fqn (c_name c)). apply (db_class TOK root h st OK RUN). split; [exact C|]. left. reflexivity. }
  split; apply OF; intros x; [auto|]. destruct (mb_static (ws_member x)); auto.
Qed.
Print Assumptions C38_methods_override_partial.
Theorem C38_properties_override_partial : forall (T : Text) (X : XorFilter) root h st c name currentClass ac,
  text_ok T -> Forall event_ok h -> run root h = Some st -> unique_names h -> plain_uris h -> current h (SClass c) -> ~ In NUL name ->
  acyclic (workspace h (prop_named h)) ->
  (forall d t p, ancestor (workspace h (prop_named h)) c d -> uses (workspace h (prop_named h)) d t -> ~ prop_named h (ts_fqn (t_name t)) name p) ->
  exists n q' r, (forall fuel, (n <= fuel)%nat -> GetClassProps (prop_db st) fuel NewQuery c name None = Some (q', r))
    /\ offered_rightly (workspace h (prop_named h)) c name (IsInheritedStatic currentClass ac (ih_relations r)) (ReduceStatic r currentClass ac)
    /\ offered_rightly (workspace h (prop_named h)) c name (IsInherited currentClass ac (ih_relations r)) (ReduceAccess r currentClass ac).
Proof.
  intros T X root h st c name cur ac TOK OK RUN UN PU C NN AC NT.
  assert (SW : same_world no_nul name (prop_db st) (workspace h (prop_named h))).
  { apply (store_world TOK root h st OK RUN). intros scope m NS. apply (db_prop TOK root h st OK RUN); assumption. }
  assert (AC' : acyclic (prop_db st)) by (destruct AC as [rank AC]; exists rank; intros d p P; apply AC; exact (same_parent_w no_nul name _ _ SW d p P)).
  destruct (class_members_terminate false false (prop_db st) false (store_db_finite _ st) (or_intror AC') NewQuery c name None I) as (n & [q' r] & H).
  exists n, q', r. split; [exact H|].
  assert (NC : ~ In NUL (ts_fqn (c_name c))) by (apply (current_names TOK _ _ OK C); left; reflexivity).
  assert (OF : forall ok adjust, (forall x, ws_member (adjust x) = ws_member x /\ ws_scope (adjust x) = ws_scope x) ->
    offered_rightly (workspace h (prop_named h)) c name ok (reduce ok adjust [] (ih_members r))).
  { intros ok adjust ADJ. apply (offered_same no_nul name (prop_db st)); [exact SW|exact NC|].
    apply (offered_members false false false (prop_db st) c name n q' r); auto.
    - eapply same_once; [apply same_world_sym; exact SW|]. apply (workspace_once TOK). exact UN.
    - exists (ts_fqn (c_name c)). apply (db_class TOK root h st OK RUN). split; [exact C|]. left. reflexivity.
    - right. split; [exact AC'|]. intros k. apply (db_classes_nodup TOK root h st OK RUN).
    - right. intros d t m A U M. apply (NT d t m).
      + exact (same_ancestor no_nul name _ _ SW c d A).
      + exact (same_uses no_nul name _ _ SW d t U).
      + assert (SW' := SW). destruct SW' as (_ & _ & _ & S4 & _ & _ & S7). apply S4; [|exact M]. destruct U as (e & _ & _ & U). eapply S7. exact U. }
  split; apply OF; intros x; [auto|]. destruct (mb_static (ws_member x)); auto.
Qed.
Print Assumptions C38_properties_override_partial.
Theorem C38_constants_override_partial : forall (T : Text) (X : XorFilter) root h st c name currentClass ac,
  text_ok T -> Forall event_ok h -> run root h = Some st -> unique_names h -> current h (SClass c) -> ~ In NUL name ->
  no_shared_constants h -> (name <> [] -> forall scope, no_longer_constant h scope name) ->
  acyclic (workspace h (const_named h)) ->
  (forall d t p, ancestor (workspace h (const_named h)) c d -> uses (workspace h (const_named h)) d t -> ~ const_named h (ts_fqn (t_name t)) name p) ->
  exists n q' r, (forall fuel, (n <= fuel)%nat -> GetClassClassConsts (const_db st) fuel NewQuery c name None = Some (q', r))
    /\ offered_rightly (workspace h (const_named h)) c name (IsInheritedStatic currentClass ac (ih_relations r)) (ReduceStatic r currentClass ac).
Proof.
  intros T X root h st c name cur ac TOK OK RUN UN C NN NSC NLC AC NT.
  assert (SW : same_world no_nul name (const_db st) (workspace h (const_named h))).
  { apply (store_world TOK root h st OK RUN). intros scope m NS. apply (db_const TOK root h st OK RUN); auto. }
  assert (AC' : acyclic (const_db st)) by (destruct AC as [rank AC]; exists rank; intros d p P; apply AC; exact (same_parent_w no_nul name _ _ SW d p P)).
  destruct (class_members_terminate true false (const_db st) false (store_db_finite _ st) (or_intror AC') NewQuery c name None I) as (n & [q' r] & H).
  exists n, q', r. split; [exact H|].
  assert (NC : ~ In NUL (ts_fqn (c_name c))) by (apply (current_names TOK _ _ OK C); left; reflexivity).
  apply (offered_same no_nul name (const_db st)); [exact SW|exact NC|].
  apply (offered_members true false false (const_db st) c name n q' r); auto.
  - eapply same_once; [apply same_world_sym; exact SW|]. apply (workspace_once TOK). exact UN.
  - exists (ts_fqn (c_name c)). apply (db_class TOK root h st OK RUN). split; [exact C|]. left. reflexivity.
  - right. split; [exact AC'|]. intros k. apply (db_classes_nodup TOK root h st OK RUN).
  - right. intros d t m A U M. apply (NT d t m).
    + exact (same_ancestor no_nul name _ _ SW c d A).
    + exact (same_uses no_nul name _ _ SW d t U).
    + assert (SW' := SW). destruct SW' as (_ & _ & _ & S4 & _ & _ & S7). apply S4; [|exact M]. destruct U as (e & _ & _ & U). eapply S7. exact U.
Qed.
Print Assumptions C38_constants_override_partial.

(** Method names are case insensitive in PHP, but an overridden method that is
    spelled differently is offered beside the one overriding it. *)
Definition scope_and_name {M} {MM : Member M} (x : with_scope M) : gostr * gostr := (mb_scope (ws_member x), mb_name (ws_member x)).
Theorem C38_case_refuted : exists st q' r,
  run root_uri family = Some st /\ GetClassMethods (method_db st) 9 NewQuery class_A (B "twice") None = Some (q', r)
  /\ map scope_and_name (ReduceAccess r [] (Access (B "$a") [ty "\A"])) = [(B "\A", B "twice"); (B "\P", B "Twice")].
Proof.
  eexists. eexists. eexists. split; [vm_compute; reflexivity|]. split; [vm_compute; reflexivity|]. vm_compute. reflexivity.
Qed.
Print Assumptions C38_case_refuted.
(** The constructor used for the parameters of [new C]: a public one of the
    class or its ancestors that no other public one overrides, and none only if
    there is none.  (Full statement: the one that PHP calls, which may be
    private; see below.) *)
Theorem C38_constructor_partial : forall (T : Text) (X : XorFilter) root h st c,
  text_ok T -> Forall event_ok h -> run root h = Some st -> unique_names h -> current h (SClass c) ->
  exists n q' r, (forall fuel, (n <= fuel)%nat -> GetClassMethods (method_db st) fuel NewQuery c (B "__construct") None = Some (q', r))
    /\ match ReduceFirst r with
       | Some x => belongs (workspace h (method_named h)) c (B "__construct") (ws_member x) (ws_scope x) /\ m_visibility (ws_member x) = Public
           /\ forall m sc, belongs (workspace h (method_named h)) c (B "__construct") m sc ->
                overrides (workspace h (method_named h)) c sc (ws_scope x) -> m_visibility m <> Public
       | None => forall m sc, belongs (workspace h (method_named h)) c (B "__construct") m sc -> m_visibility m <> Public
       end.
Proof.
  intros T X root h st c TOK OK RUN UN C. set (name := B "__construct"). assert (NN : ~ In NUL name) by (vm_compute; intuition discriminate).
  destruct (C36_methods_and_interfaces_terminate_partial T X st name) as (TM & _). destruct (TM NewQuery c None I) as (n & [q' r] & H).
  exists n, q', r. split; [exact H|].
  assert (SW : same_world no_nul name (method_db st) (workspace h (method_named h))).
  { apply (store_world TOK root h st OK RUN). intros scope m NS. apply (db_method TOK root h st OK RUN); assumption. }
  assert (NC : ~ In NUL (ts_fqn (c_name c))) by (apply (current_names TOK _ _ OK C); left; reflexivity).
  assert (SW' := same_world_sym _ _ _ _ SW).
  assert (F : match ReduceFirst r with
    | Some x => belongs (method_db st) c name (ws_member x) (ws_scope x) /\ mb_visibility (ws_member x) = Public
      /\ forall m sc, belongs (method_db st) c name m sc -> overrides (method_db st) c sc (ws_scope x) -> mb_visibility m <> Public
    | None => forall m sc, belongs (method_db st) c name m sc -> mb_visibility m <> Public
    end).
  { apply (first_public false true true (method_db st) c name n q' r); auto.
    - eapply same_once; [apply same_world_sym; exact SW|]. apply (workspace_once TOK). exact UN.
    - exists (ts_fqn (c_name c)). apply (db_class TOK root h st OK RUN). split; [exact C|]. left. reflexivity. }
  destruct (ReduceFirst r) as [x|].
  - destruct F as (B1 & B2 & B3). split; [exact (same_belongs no_nul name _ _ SW c _ _ NC B1)|]. split; [exact B2|].
    intros m sc BM OV. apply (B3 m sc); [exact (same_belongs no_nul name _ _ SW' c m sc NC BM)|exact (same_overrides no_nul name _ _ SW' c _ _ OV)].
  - intros m sc BM. apply (F m sc). exact (same_belongs no_nul name _ _ SW' c m sc NC BM).
Qed.
Print Assumptions C38_constructor_partial.
(** An inaccessible overriding member does not hide the overridden one: the
    constructor of a class with a private constructor is its parent's. *)
Theorem C38_constructor_refuted : exists st q' r x,
  run root_uri family = Some st /\ GetClassMethods (method_db st) 9 NewQuery class_A (B "__construct") None = Some (q', r)
  /\ ReduceFirst r = Some x /\ scope_and_name x = (B "\P", B "__construct")
  /\ map scope_and_name (ih_members r) = [(B "\A", B "__construct"); (B "\P", B "__construct")].
Proof.
  eexists. eexists. eexists. eexists. split; [vm_compute; reflexivity|]. split; [vm_compute; reflexivity|]. split; [vm_compute; reflexivity|]. split; vm_compute; reflexivity.
Qed.
Print Assumptions C38_constructor_refuted.
(** the overriding method [run] of [\A] is offered, with those it inherits *)
Lemma family_acyclic : forall M (members : gostr -> gostr -> M -> Prop), acyclic (workspace family members).
Proof.
  intros M members.
  exists (fun c => if ts_IsEmpty (c_extends c) then 0%nat else if str_eqb (GetClassFQNLowerCase (ts_fqn (c_extends c))) (B "\p") then 1%nat else 2%nat).
  intros c p [NE [C N]]. rewrite NE. apply (same_class_name_iff ascii_text_ok) in N. rewrite <- N. family_cases C; vm_compute; lia.
Qed.
Example C38_hypotheses_met : plain_uris family /\ no_shared_constants family /\ (forall scope, no_longer_constant family scope (B "MAX"))
  /\ acyclic (workspace family (prop_named family)) /\ acyclic (workspace family (const_named family))
  /\ (forall t p, current family (STrait t) -> ~ prop_named family (ts_fqn (t_name t)) (B "$a") p)
  /\ (forall t p, current family (STrait t) -> ~ const_named family (ts_fqn (t_name t)) (B "MAX") p)
  /\ exists st, run root_uri family = Some st
  /\ (exists q' r, GetClassProps (prop_db st) 9 NewQuery class_A (B "$a") None = Some (q', r) /\ map scope_and_name (ih_members r) = [(B "\A", B "$a"); (B "\P", B "$a")]
       /\ map scope_and_name (ReduceAccess r [] (Access (B "$x") [ty "\A"])) = [(B "\A", B "$a")])
  /\ (exists q' r, GetClassClassConsts (const_db st) 9 NewQuery class_A (B "MAX") None = Some (q', r)
       /\ map scope_and_name (ReduceStatic r [] (Access (B "A") [ty "\A"])) = [(B "\A", B "MAX")]).
Proof.
  split; [|split; [|split; [|split; [|split; [|split; [|split]]]]]].
  - intros d [<-|[]]. split; [discriminate|]. intros (p & b & E & D). cbn [d_uri family_doc] in E.
    assert (L : last (p ++ [b]) NUL = b) by apply last_last. rewrite <- E in L. vm_compute in L. subst b. discriminate D.
  - intros d1 d2 c1 c2 [<-|[]] [<-|[]] _ _ _ _. reflexivity.
  - intros scope d c t [<-|[]] I _ E. cbn in I. repeat (destruct I as [H|I]; [first [discriminate H|injection H as <-; destruct t; [reflexivity|discriminate E]]|]). destruct I.
  - apply family_acyclic.
  - apply family_acyclic.
  - intros t p C ((s & CS & K) & SC & [N|N]); [discriminate N|]. family_cases C. apply family_symbols in CS. cbn in CS.
    repeat (destruct CS as [H|CS]; [rewrite <- H in K; first [discriminate K|injection K as ->; first [discriminate SC|discriminate N]]|]). destruct CS.
  - intros t p C ((s & CS & K) & SC & [N|N]); [discriminate N|]. family_cases C. apply family_symbols in CS. cbn in CS.
    repeat (destruct CS as [H|CS]; [rewrite <- H in K; first [discriminate K|injection K as ->; first [discriminate SC|discriminate N]]|]). destruct CS.
  - eexists. split; [vm_compute; reflexivity|]. split; eexists; eexists; (split; [vm_compute; reflexivity|]); [split; vm_compute; reflexivity|vm_compute; reflexivity].
Qed.
Example C38_methods_hypotheses_met : exists st q' r,
  run root_uri family = Some st /\ GetClassMethods (method_db st) 9 NewQuery class_A [] None = Some (q', r)
  /\ map scope_and_name (ReduceAccess r [] (Access (B "$a") [ty "\A"]))
     = [(B "\A", B "run"); (B "\A", B "twice"); (B "\T", B "t"); (B "\P", B "__construct"); (B "\P", B "Twice"); (B "\I", B "i"); (B "\J", B "j")].
Proof.
  eexists. eexists. eexists. split; [vm_compute; reflexivity|]. split; [vm_compute; reflexivity|]. vm_compute. reflexivity.
Qed.

(** ** C39 *)
(** [->]: a public member is offered everywhere, unless one of the same name
    is. A private one is offered only for $this in its own class, or if the
    object may be of the current class. *)
Theorem C39_access_partial : forall (M : Type) (MM : Member M) (r : inherited M) currentClass ac,
  (forall x, In x (ih_members r) -> mb_visibility (ws_member x) = Public ->
     exists y, In y (ReduceAccess r currentClass ac) /\ mb_name (ws_member y) = mb_name (ws_member x))
  /\ (forall y, In y (ReduceAccess r currentClass ac) -> mb_visibility (ws_member y) = Private ->
       (ac_scope_name ac = B "$this" /\ mb_scope (ws_member y) = currentClass) \/ (exists t, In t (ac_scope_types ac) /\ ts_fqn t = currentClass))
  /\ (forall y, In y (ReduceAccess r currentClass ac) -> mb_visibility (ws_member y) = Protected ->
       ac_scope_name ac = B "$this" \/ (exists t, In t (ac_scope_types ac) /\ (ts_fqn t = currentClass \/ In (mb_scope (ws_member y), ts_fqn t) (ih_relations r))))
  /\ (forall x t, In x (ih_members r) -> mb_visibility (ws_member x) = Protected -> In t (ac_scope_types ac) ->
       ts_fqn t = currentClass \/ In (mb_scope (ws_member x), ts_fqn t) (ih_relations r) ->
       exists y, In y (ReduceAccess r currentClass ac) /\ mb_name (ws_member y) = mb_name (ws_member x)).
Proof.
  intros M MM r cur ac. split; [|split; [|split]].
  - intros x I V. apply reduce_complete; [intros y; destruct (mb_static (ws_member y)); reflexivity|exact I|].
    unfold IsInherited. rewrite V. cbn. destruct (_ && _); reflexivity.
  - intros y Y V. apply reduce_accessible in Y; [|intros z; destruct (mb_static (ws_member z)); reflexivity].
    unfold IsInherited in Y. rewrite V in Y. cbn [Z.eqb Private Public negb] in Y. rewrite orb_false_r in Y.
    destruct (str_eqb (ac_scope_name ac) (B "$this") && str_eqb (mb_scope (ws_member y)) cur) eqn:TH.
    + apply andb_prop in TH as [E1 E2]. apply str_eqb_eq in E1, E2. auto.
    + right. destruct (same_or_related cur (ih_relations r) (mb_scope (ws_member y)) (ac_scope_types ac)) as [sm rl] eqn:SR.
      apply orb_prop in Y as [Y|Y]; [|cbn in Y; rewrite andb_false_r in Y; discriminate Y]. subst sm.
      apply same_or_related_same in SR. exact SR.
  - intros y Y V. apply reduce_accessible in Y; [|intros z; destruct (mb_static (ws_member z)); reflexivity].
    unfold IsInherited in Y. rewrite V in Y. cbn [Z.eqb Private Public Protected negb] in Y. rewrite orb_true_r, andb_true_r in Y.
    destruct (str_eqb (ac_scope_name ac) (B "$this")) eqn:TH; [left; apply str_eqb_eq; exact TH|]. right.
    destruct (same_or_related cur (ih_relations r) (mb_scope (ws_member y)) (ac_scope_types ac)) as [sm rl] eqn:SR.
    apply orb_prop in Y as [Y|Y].
    + subst sm. apply same_or_related_same in SR as (t & IT & ET). eauto.
    + cbn in Y. rewrite andb_true_r in Y. subst rl. destruct sm; [apply same_or_related_same in SR as (t & IT & ET); eauto|].
      apply same_or_related_related in SR as (t & IT & ET). apply IsRelated_In in ET. eauto.
  - intros x t I V IT RT. apply reduce_complete; [intros y; destruct (mb_static (ws_member y)); reflexivity|exact I|].
    unfold IsInherited. rewrite V. cbn [Z.eqb Private Public Protected negb]. destruct (_ && _); [reflexivity|].
    assert (SR := same_or_related_some cur (ih_relations r) (mb_scope (ws_member x)) (ac_scope_types ac) t IT RT).
    destruct (same_or_related cur (ih_relations r) (mb_scope (ws_member x)) (ac_scope_types ac)) as [[] []]; cbn in SR |- *; congruence.
Qed.
Print Assumptions C39_access_partial.
(** What is recorded as related: for constants, the class-likes and what they
    extend or implement, the declaring one first; nothing for methods and
    properties. *)
Theorem C39_relations : forall (M : Type) (db : database M) relate marks traits fuel c name q' r,
  GetClassMembers relate marks traits db fuel NewQuery c name None = Some (q', r) ->
  (relate = false -> ih_relations r = []) /\ (forall a b, In (a, b) (ih_relations r) -> declares_relation db a b).
Proof.
  intros M db relate marks traits fuel c name q' r E. apply class_relations in E.
  split; [intros ->|]; [destruct (ih_relations r) as [|[a b] l]; [reflexivity|]; destruct (E a b (or_introl eq_refl)) as [R _]; discriminate R|].
  intros a b I. exact (proj2 (E a b I)).
Qed.
Print Assumptions C39_relations.
(** The score of a static member offered after [->] is 16 lower than that of
    the others, and nothing else about an offered member is changed. *)
Theorem C39_static_score : forall (M : Type) (MM : Member M) (r : inherited M) currentClass ac y,
  In y (ReduceAccess r currentClass ac) -> exists x, In x (ih_members r)
  /\ ws_member y = ws_member x /\ ws_scope y = ws_scope x
  /\ ws_score y = if mb_static (ws_member x) then (ws_score x - 16)%Z else ws_score x.
Proof.
  intros M MM r cur ac y Y. apply reduce_first in Y as (l1 & x & l2 & E & -> & _). exists x.
  split; [rewrite E; apply in_or_app; right; left; reflexivity|]. destruct (mb_static (ws_member x)); auto.
Qed.
Print Assumptions C39_static_score.

(** [::]: after [parent] nothing of the current class and nothing private is
    offered; after [self], [static] and [$this] private members only of the
    current class; after another class name only static members, and the
    private ones only if that class declares them. *)
Theorem C39_static_partial : forall (M : Type) (MM : Member M) (r : inherited M) currentClass ac,
  (forall y, In y (ReduceStatic r currentClass ac) ->
     (ac_scope_name ac = B "parent" -> mb_scope (ws_member y) <> currentClass /\ mb_visibility (ws_member y) <> Private)
     /\ (In (ac_scope_name ac) [B "self"; B "static"; B "$this"] -> mb_visibility (ws_member y) = Private -> mb_scope (ws_member y) = currentClass)
     /\ (~ In (ac_scope_name ac) [B "parent"; B "self"; B "static"; B "$this"] ->
          mb_static (ws_member y) = true
          /\ (mb_visibility (ws_member y) = Private -> exists t, In t (ac_scope_types ac) /\ ts_fqn t = mb_scope (ws_member y))
          /\ (mb_visibility (ws_member y) = Protected -> exists t, In t (ac_scope_types ac) /\
                (ts_fqn t = mb_scope (ws_member y) \/ In (mb_scope (ws_member y), ts_fqn t) (ih_relations r)))))
  /\ (forall x, In x (ih_members r) -> mb_visibility (ws_member x) = Public -> mb_static (ws_member x) = true -> ac_scope_name ac <> B "parent" ->
       exists y, In y (ReduceStatic r currentClass ac) /\ mb_name (ws_member y) = mb_name (ws_member x)).
Proof.
  intros M MM r cur ac. split.
  - intros y Y. apply reduce_accessible in Y; [|reflexivity]. unfold IsInheritedStatic in Y. split; [|split].
    + intros E. rewrite E in Y. cbn in Y. apply andb_prop in Y as [Y1 Y2]. apply negb_true_iff in Y1, Y2. split.
      * intros E'. rewrite E', str_eqb_refl in Y1. discriminate Y1.
      * intros E'. rewrite E' in Y2. discriminate Y2.
    + intros IN V. rewrite V in Y.
      destruct IN as [E|[E|[E|[]]]]; rewrite <- E in Y; cbn in Y; rewrite orb_false_r in Y; apply str_eqb_eq in Y; exact Y.
    + intros NI.
      assert (NP : IsNameParent (ac_scope_name ac) = false).
      { unfold IsNameParent. destruct (str_eqb (ac_scope_name ac) (B "parent")) eqn:E; [|reflexivity]. apply str_eqb_eq in E. destruct NI. left. congruence. }
      assert (NR : IsNameRelative (ac_scope_name ac) = false).
      { unfold IsNameRelative. destruct (str_eqb (ac_scope_name ac) (B "static")) eqn:E1; [apply str_eqb_eq in E1; destruct NI; right; right; left; congruence|].
        destruct (str_eqb (ac_scope_name ac) (B "self")) eqn:E2; [apply str_eqb_eq in E2; destruct NI; right; left; congruence|].
        destruct (str_eqb (ac_scope_name ac) (B "$this")) eqn:E3; [apply str_eqb_eq in E3; destruct NI; right; right; right; left; congruence|reflexivity]. }
      rewrite NP, NR in Y. destruct (mb_static (ws_member y)); [|discriminate Y]. cbn [negb] in Y. split; [reflexivity|]. split; intros V; rewrite V in Y.
      * cbn [Z.eqb Private Public] in Y.
        destruct (same_or_related (mb_scope (ws_member y)) (ih_relations r) (mb_scope (ws_member y)) (ac_scope_types ac)) as [sm rl] eqn:SR.
        apply orb_prop in Y as [Y|Y]; [|cbn in Y; rewrite andb_false_r in Y; discriminate Y]. subst sm. apply same_or_related_same in SR. exact SR.
      * cbn [Z.eqb Protected Public] in Y.
        destruct (same_or_related (mb_scope (ws_member y)) (ih_relations r) (mb_scope (ws_member y)) (ac_scope_types ac)) as [sm rl] eqn:SR.
        apply orb_prop in Y as [Y|Y].
        -- subst sm. apply same_or_related_same in SR as (t & IT & ET). eauto.
        -- cbn in Y. rewrite andb_true_r in Y. subst rl. destruct sm; [apply same_or_related_same in SR as (t & IT & ET); eauto|].
           apply same_or_related_related in SR as (t & IT & ET). apply IsRelated_In in ET. eauto.
  - intros x I V S NP. apply reduce_complete; [reflexivity|exact I|]. unfold IsInheritedStatic. rewrite V, S.
    unfold IsNameParent. destruct (str_eqb (ac_scope_name ac) (B "parent")) eqn:E; [apply str_eqb_eq in E; contradiction|].
    destruct (IsNameRelative _); cbn; [apply orb_true_r|reflexivity].
Qed.
Print Assumptions C39_static_partial.

(** In \A, [$a->] with $a of the class \A offers a private method of \P. *)
Theorem C39_private_parent_refuted : exists st q' r,
  run root_uri family = Some st /\ GetClassMethods (method_db st) 9 NewQuery class_A (B "hidden") None = Some (q', r)
  /\ map (fun x => (scope_and_name x, m_visibility (ws_member x))) (ReduceAccess r (B "\A") (Access (B "$a") [ty "\A"])) = [((B "\P", B "hidden"), Private)].
Proof.
  eexists. eexists. eexists. split; [vm_compute; reflexivity|]. split; [vm_compute; reflexivity|]. vm_compute. reflexivity.
Qed.
Print Assumptions C39_private_parent_refuted.
(** Outside of any class, [P::] offers the private static method of \P. *)
Theorem C39_private_static_refuted : exists st q' r,
  run root_uri family = Some st /\ GetClassMethods (method_db st) 9 NewQuery (family_class "\P" "" [] []) (B "secret") None = Some (q', r)
  /\ map (fun x => (scope_and_name x, m_visibility (ws_member x))) (ReduceStatic r [] (Access (B "P") [ty "\P"])) = [((B "\P", B "secret"), Private)].
Proof.
  eexists. eexists. eexists. split; [vm_compute; reflexivity|]. split; [vm_compute; reflexivity|]. vm_compute. reflexivity.
Qed.
Print Assumptions C39_private_static_refuted.
(** In \A, a subclass of \P, [$p->] with $p of \P does not offer the protected
    method of \P, although PHP allows it. *)
Theorem C39_protected_refuted : exists st q' r,
  run root_uri family = Some st /\ GetClassMethods (method_db st) 9 NewQuery (family_class "\P" "" [] []) (B "kept") None = Some (q', r)
  /\ map (fun x => (scope_and_name x, m_visibility (ws_member x))) (ih_members r) = [((B "\P", B "kept"), Protected)]
  /\ ReduceAccess r (B "\A") (Access (B "$p") [ty "\P"]) = [].
Proof.
  eexists. eexists. eexists. split; [vm_compute; reflexivity|]. split; [vm_compute; reflexivity|]. split; vm_compute; reflexivity.
Qed.
Print Assumptions C39_protected_refuted.
(** in \A, [$this->] and [self::] offer the private constructor, the protected
    method and not the private ones of the parent; [parent::] the parent's *)
Example C39_hypotheses_met : exists st q' r,
  run root_uri family = Some st /\ GetClassMethods (method_db st) 9 NewQuery class_A [] None = Some (q', r)
  /\ map scope_and_name (ReduceAccess r (B "\A") (Access (B "$this") []))
     = [(B "\A", B "__construct"); (B "\A", B "run"); (B "\A", B "twice"); (B "\T", B "t"); (B "\P", B "kept"); (B "\P", B "Twice"); (B "\I", B "i"); (B "\J", B "j")]
  /\ map scope_and_name (ReduceStatic r (B "\A") (Access (B "parent") [ty "\P"]))
     = [(B "\T", B "t"); (B "\P", B "__construct"); (B "\P", B "kept"); (B "\P", B "run"); (B "\P", B "Twice"); (B "\I", B "i"); (B "\J", B "j")].
Proof.
  eexists. eexists. eexists. split; [vm_compute; reflexivity|]. split; [vm_compute; reflexivity|]. split; vm_compute; reflexivity.
Qed.
