(** Claims about the functions whose parameters are shown in a call. *)
From Coq Require Import String.
From Coq Require Import List Bool Arith NArith ZArith Lia.
From Coq.Strings Require Import Byte.
From Verif Require Import Base.Bytes Base.BytesProofs Base.Protocol Codec.CodecSpec Symbols.Symbols Symbols.KeysModel Words.TokeniserSpec
  Storage.KvModel Store.FilterModel Store.StoreModel Store.StoreSpec Store.LookupProofs Store.LookupKinds Store.Examples
  Types.TypesModel Types.ImportModel Types.ImportSpec Claims.Imports
  Query.QueryModel Query.QueryStoreModel Query.QuerySpec Query.QueryProofs Query.QueryMembers Query.QueryClaimProofs
  Query.QueryHistorySpec Query.QueryHistory Query.QuerySound Claims.Queries
  Whole.DefinitionModel Whole.DefinitionProofs Members.MemberModel Members.MemberSpec Members.MemberProofs Members.MemberHistory Claims.Members
  Ide.ArgumentModel Ide.ArgumentSpec Members.SignatureModel Members.SignatureProofs.
Import ListNotations.
Open Scope list_scope.

Local Open Scope string_scope.
Local Open Scope list_scope.

(** ** C87 *)
Lemma described : forall title params, describes title params (hasParamToSignatureInformation title params).
Proof.
  intros title params. split; [|reflexivity]. cbn [sg_parameters hasParamToSignatureInformation]. induction params as [|p params IH]; cbn [map]; constructor; [|exact IH].
  unfold written_parameter, parameter_label. do 2 eexists. split; [reflexivity|]. split.
  - destruct (tc_IsEmpty (pa_type p)); auto.
  - destruct (str_eqb_spec (pa_value p) []) as [E|E]; auto.
Qed.
Lemma titled : forall m, method_title m (method_GetNameLabel m).
Proof.
  intros m. unfold method_title, method_GetNameLabel, visibility_ToString. do 2 eexists. split; [reflexivity|]. split; [|destruct (m_static m); auto].
  destruct (Z.eqb_spec (m_visibility m) Public); [auto|]. destruct (Z.eqb_spec (m_visibility m) Private); [auto|]. destruct (Z.eqb_spec (m_visibility m) Protected); [auto|].
  right. right. right. split; [|reflexivity]. cbn. intuition.
Qed.
Lemma described_method : forall m, describes_method m (hasParamToSignatureInformation (method_GetNameLabel m) (m_params m)).
Proof. intros m. exists (method_GetNameLabel m). split; [apply titled|apply described]. Qed.
(** what [signatures] makes of [l1 ++ rest] *)
Lemma signatures_split : forall (found : option (query method * list (with_scope method))) q l1 rest sigs,
  found = Some (q, l1 ++ rest) -> signatures found = Some sigs ->
  exists s1 s2, sigs = s1 ++ s2 /\ Forall2 (fun y s => describes_method (ws_member y) s) l1 s1 /\ (rest = [] -> s2 = []).
Proof.
  intros found q l1 rest sigs -> E. injection E as <-. cbn [snd]. rewrite map_app. do 2 eexists. split; [reflexivity|]. split; [|intros ->; reflexivity].
  induction l1 as [|y l1 IH]; cbn [map]; constructor; [apply described_method|exact IH].
Qed.
Lemma signatures_some : forall found sigs, signatures found = Some sigs -> exists q l, found = Some (q, l).
Proof. intros [(q, l)|] sigs E; [eauto|discriminate E]. Qed.
Lemma signatures_In : forall q l sigs, signatures (Some (q, l)) = Some sigs -> forall s, In s sigs -> exists y, In y l /\ describes_method (ws_member y) s.
Proof. intros q l sigs E s S. injection E as <-. apply in_map_iff in S as (y & <- & Y). exists y. split; [exact Y|apply described_method]. Qed.

(** Whatever was asked before in the same request, whatever is declared twice,
    and however many types the receiver has: each signature shown in the
    arguments of [$x->name(...)] describes a method called [name] that a class or
    an interface among the receiver's types has and that can be accessed there. *)
Theorem C87_method_signatures : forall (T : Text) (X : XorFilter) root h st q cur ac name types fuel sigs,
  text_ok T -> Forall event_ok h -> run root h = Some st -> ~ In NUL name -> asked false true true (method_db st) q ->
  MethodAccess_signatures st fuel q cur ac name types = Some sigs ->
  forall s, In s sigs -> exists t m sc, In t types /\ has_member (workspace h (method_named h)) true false (ts_fqn t) name m sc
    /\ arrow_access cur ac m /\ describes_method m s.
Proof.
  intros T X root h st q cur ac name types fuel sigs TOK OK RUN NN A E s S. unfold MethodAccess_signatures in E.
  destruct (signatures_some _ _ E) as (q' & l & EL). rewrite EL in E. destruct (signatures_In _ _ _ E s S) as (y & Y & D).
  destruct (called_sound TOK root h st OK RUN name NN fuel (get_interface_method st fuel name) true (fun ms => ReduceAccess ms cur ac) q types q' l (fun _ => eq_refl) A EL y Y) as (t & r & It & Yr & RL & H).
  unfold ReduceAccess in Yr. rewrite RL in Yr. apply reduce_first in Yr as (l1 & x & l2 & Ex & -> & OX & _).
  assert (Ix : In x (ih_members r)) by (rewrite Ex; apply in_or_app; right; left; reflexivity).
  exists t, (ws_member x), (ws_scope x). split; [exact It|]. split; [exact (H x Ix)|]. split; [apply IsInherited_iff; exact OX|]. destruct (mb_static (ws_member x)); exact D.
Qed.
Print Assumptions C87_method_signatures.
(** The same for [X::name(...)], *)
Theorem C87_static_signatures : forall (T : Text) (X : XorFilter) root h st q cur ac name types fuel sigs,
  text_ok T -> Forall event_ok h -> run root h = Some st -> ~ In NUL name -> asked false true true (method_db st) q ->
  ScopedMethodAccess_signatures st fuel q cur ac name types = Some sigs ->
  forall s, In s sigs -> exists t m sc, In t types /\ has_member (workspace h (method_named h)) true false (ts_fqn t) name m sc
    /\ static_access cur ac m /\ describes_method m s.
Proof.
  intros T X root h st q cur ac name types fuel sigs TOK OK RUN NN A E s S. unfold ScopedMethodAccess_signatures in E.
  destruct (signatures_some _ _ E) as (q' & l & EL). rewrite EL in E. destruct (signatures_In _ _ _ E s S) as (y & Y & D).
  destruct (called_sound TOK root h st OK RUN name NN fuel (get_interface_method st fuel name) true (fun ms => ReduceStatic ms cur ac) q types q' l (fun _ => eq_refl) A EL y Y) as (t & r & It & Yr & RL & H).
  unfold ReduceStatic in Yr. rewrite RL in Yr. apply reduce_first in Yr as (l1 & x & l2 & Ex & -> & OX & _).
  assert (Ix : In x (ih_members r)) by (rewrite Ex; apply in_or_app; right; left; reflexivity).
  exists t, (ws_member x), (ws_scope x). split; [exact It|]. split; [exact (H x Ix)|]. split; [apply IsInheritedStatic_iff; exact OX|exact D].
Qed.
Print Assumptions C87_static_signatures.
(** and for [new X(...)]: a public constructor of one of the classes called X. *)
Theorem C87_new_signatures : forall (T : Text) (X : XorFilter) root h st q types fuel sigs,
  text_ok T -> Forall event_ok h -> run root h = Some st -> asked false true true (method_db st) q ->
  ClassTypeDesignator_signatures st fuel q types = Some sigs ->
  forall s, In s sigs -> exists t m sc, In t types /\ has_member (workspace h (method_named h)) false false (ts_fqn t) (B "__construct") m sc
    /\ m_visibility m = Public /\ describes_method m s.
Proof.
  intros T X root h st q types fuel sigs TOK OK RUN A E s S. unfold ClassTypeDesignator_signatures in E.
  destruct (signatures_some _ _ E) as (q' & l & EL). rewrite EL in E. destruct (signatures_In _ _ _ E s S) as (y & Y & D).
  assert (NN : ~ In NUL (B "__construct")) by (vm_compute; intuition discriminate).
  destruct (called_sound TOK root h st OK RUN (B "__construct") NN fuel no_interfaces false constructor q types q' l (fun F => False_ind _ (Bool.diff_false_true F)) A EL y Y) as (t & r & It & Yr & RL & H).
  unfold constructor, ReduceFirst in Yr. destruct (find _ (ih_members r)) as [x|] eqn:F; [|destruct Yr]. destruct Yr as [<-|[]]. apply find_some in F as (Ix & V). apply Z.eqb_eq in V.
  exists t, (ws_member x), (ws_scope x). split; [exact It|]. split; [exact (H x Ix)|]. split; [exact V|exact D].
Qed.
Print Assumptions C87_new_signatures.

(** The signatures are found in every state of the query and for every store,
    also if classes extend each other. *)
Theorem C87_ends : forall (T : Text) (X : XorFilter) st q cur ac name types,
  (exists n sigs, forall fuel, (n <= fuel)%nat -> MethodAccess_signatures st fuel q cur ac name types = Some sigs)
  /\ (exists n sigs, forall fuel, (n <= fuel)%nat -> ScopedMethodAccess_signatures st fuel q cur ac name types = Some sigs)
  /\ (exists n sigs, forall fuel, (n <= fuel)%nat -> ClassTypeDesignator_signatures st fuel q types = Some sigs).
Proof.
  intros T X st q cur ac name types.
  assert (S : forall f : nat -> option (query method * list (with_scope method)), (exists n r, forall fuel, (n <= fuel)%nat -> f fuel = Some r) -> exists n sigs, forall fuel, (n <= fuel)%nat -> signatures (f fuel) = Some sigs).
  { intros f (n & r & H). exists n. eexists. intros fuel F. rewrite (H fuel F). reflexivity. }
  assert (EC : forall nm, ends_alone (fun fuel => get_method st fuel nm)) by (intros nm; exact (class_ends_alone false true true (method_db st) nm (store_db_finite _ st) (or_introl eq_refl))).
  assert (EI : forall nm, ends_alone (fun fuel => get_interface_method st fuel nm)) by (intros nm; exact (interface_ends_alone false (method_db st) nm (store_db_finite _ st))).
  split; [|split]; apply S.
  - exact (append_types_ends _ (fun fuel => get_method st fuel name) (fun fuel => get_interface_method st fuel name) (method_db st) true (EC name) (or_intror (EI name)) types q []).
  - exact (append_types_ends _ (fun fuel => get_method st fuel name) (fun fuel => get_interface_method st fuel name) (method_db st) true (EC name) (or_intror (EI name)) types q []).
  - exact (append_types_ends _ (fun fuel => get_method st fuel (B "__construct")) (fun _ => no_interfaces) (method_db st) false (EC (B "__construct")) (or_introl eq_refl) types q []).
Qed.
Print Assumptions C87_ends.

(** If no two class-likes share a name and no member of this name was asked for
    before in the request: in the arguments of [$x->name(...)], where the first
    type of [$x] is a class, the first signatures shown are those of the
    methods the class has: methods that belong to it, can be accessed and are
    overridden by no other accessible one, and for every name one; and no
    others if there is no other type.
    What is missing: all but the first type. *)
Theorem C87_method_of_class_partial : forall (T : Text) (X : XorFilter) root h st q cur ac name t ts c,
  text_ok T -> Forall event_ok h -> run root h = Some st -> unique_names h -> ~ In NUL name ->
  asked false true true (method_db st) q -> unasked q name -> class_named h (ts_fqn t) c ->
  exists n sigs others l, (forall fuel, (n <= fuel)%nat -> MethodAccess_signatures st fuel q cur ac name (t :: ts) = Some (sigs ++ others))
    /\ Forall2 (fun y s => describes_method (ws_member y) s) l sigs /\ (ts = [] -> others = [])
    /\ class_offers (workspace h (method_named h)) c name (arrow_access cur ac) l.
Proof.
  intros T X root h st q cur ac name t ts c TOK OK RUN UN NN A U C.
  destruct (C87_ends T X st q cur ac name (t :: ts)) as ((fuel & sigs & D) & _). assert (D0 := D fuel (le_n fuel)). unfold MethodAccess_signatures in D0. destruct (signatures_some _ _ D0) as (q' & l & EL).
  destruct (class_called TOK root h st OK RUN name NN UN (IsInherited cur ac) (fun x => if mb_static (ws_member x) then WithScope (ws_member x) (ws_scope x) (ws_score x - staticInAccessCost) else x)) with (may := fun m : method => arrow_access cur ac m)
    (fuel := fuel) (gi := get_interface_method st fuel name) (interfaces := true) (choose := fun ms : inherited method => ReduceAccess ms cur ac) (q := q) (t := t) (ts := ts) (c := c) (q' := q') (l := l) as (r & rest & E1 & R & _ & O); auto.
  - intros x. destruct (mb_static (ws_member x)); auto.
  - intros m. apply IsInherited_iff.
  - rewrite E1 in EL. destruct (signatures_split _ _ _ _ _ EL D0) as (s1 & s2 & -> & F & N). exists fuel, s1, s2, (ReduceAccess r cur ac). split; [exact D|]. split; [exact F|]. split; [intros ET; exact (N (R ET))|exact O].
Qed.
Print Assumptions C87_method_of_class_partial.
Theorem C87_method_of_interface_partial : forall (T : Text) (X : XorFilter) root h st q cur ac name t ts i,
  text_ok T -> Forall event_ok h -> run root h = Some st -> unique_names h -> ~ In NUL name ->
  asked false true true (method_db st) q -> unasked q name -> interface_named h (ts_fqn t) i ->
  exists n sigs others l, (forall fuel, (n <= fuel)%nat -> MethodAccess_signatures st fuel q cur ac name (t :: ts) = Some (sigs ++ others))
    /\ Forall2 (fun y s => describes_method (ws_member y) s) l sigs /\ (ts = [] -> others = [])
    /\ interface_offers (workspace h (method_named h)) i name (arrow_access cur ac) l.
Proof.
  intros T X root h st q cur ac name t ts i TOK OK RUN UN NN A U C.
  destruct (C87_ends T X st q cur ac name (t :: ts)) as ((fuel & sigs & D) & _). assert (D0 := D fuel (le_n fuel)). unfold MethodAccess_signatures in D0. destruct (signatures_some _ _ D0) as (q' & l & EL).
  destruct (interface_called TOK root h st OK RUN name NN UN (IsInherited cur ac) (fun x => if mb_static (ws_member x) then WithScope (ws_member x) (ws_scope x) (ws_score x - staticInAccessCost) else x)) with (may := fun m : method => arrow_access cur ac m)
    (fuel := fuel) (choose := fun ms : inherited method => ReduceAccess ms cur ac) (q := q) (t := t) (ts := ts) (i := i) (q' := q') (l := l) as (r & rest & E1 & R & _ & O); auto.
  - intros x. destruct (mb_static (ws_member x)); auto.
  - intros m. apply IsInherited_iff.
  - rewrite E1 in EL. destruct (signatures_split _ _ _ _ _ EL D0) as (s1 & s2 & -> & F & N). exists fuel, s1, s2, (ReduceAccess r cur ac). split; [exact D|]. split; [exact F|]. split; [intros ET; exact (N (R ET))|exact O].
Qed.
Print Assumptions C87_method_of_interface_partial.
(** The same for [X::name(...)] *)
Theorem C87_static_of_class_partial : forall (T : Text) (X : XorFilter) root h st q cur ac name t ts c,
  text_ok T -> Forall event_ok h -> run root h = Some st -> unique_names h -> ~ In NUL name ->
  asked false true true (method_db st) q -> unasked q name -> class_named h (ts_fqn t) c ->
  exists n sigs others l, (forall fuel, (n <= fuel)%nat -> ScopedMethodAccess_signatures st fuel q cur ac name (t :: ts) = Some (sigs ++ others))
    /\ Forall2 (fun y s => describes_method (ws_member y) s) l sigs /\ (ts = [] -> others = [])
    /\ class_offers (workspace h (method_named h)) c name (static_access cur ac) l.
Proof.
  intros T X root h st q cur ac name t ts c TOK OK RUN UN NN A U C.
  destruct (C87_ends T X st q cur ac name (t :: ts)) as (_ & (fuel & sigs & D) & _). assert (D0 := D fuel (le_n fuel)). unfold ScopedMethodAccess_signatures in D0. destruct (signatures_some _ _ D0) as (q' & l & EL).
  destruct (class_called TOK root h st OK RUN name NN UN (IsInheritedStatic cur ac) (fun x => x)) with (may := fun m : method => static_access cur ac m)
    (fuel := fuel) (gi := get_interface_method st fuel name) (interfaces := true) (choose := fun ms : inherited method => ReduceStatic ms cur ac) (q := q) (t := t) (ts := ts) (c := c) (q' := q') (l := l) as (r & rest & E1 & R & _ & O); auto.
  - intros m. apply IsInheritedStatic_iff.
  - rewrite E1 in EL. destruct (signatures_split _ _ _ _ _ EL D0) as (s1 & s2 & -> & F & N). exists fuel, s1, s2, (ReduceStatic r cur ac). split; [exact D|]. split; [exact F|]. split; [intros ET; exact (N (R ET))|exact O].
Qed.
Print Assumptions C87_static_of_class_partial.
(** and for [new X(...)]: the signature of a public constructor that belongs to
    the class and is overridden by no public one is shown, if there is one. *)
Theorem C87_new_of_class_partial : forall (T : Text) (X : XorFilter) root h st q t ts c,
  text_ok T -> Forall event_ok h -> run root h = Some st -> unique_names h ->
  asked false true true (method_db st) q -> unasked q (B "__construct") -> class_named h (ts_fqn t) c ->
  let w := workspace h (method_named h) in
  exists n sigs others, (forall fuel, (n <= fuel)%nat -> ClassTypeDesignator_signatures st fuel q (t :: ts) = Some (sigs ++ others))
    /\ (ts = [] -> others = [])
    /\ ((sigs = [] /\ forall m sc, belongs w c (B "__construct") m sc -> m_visibility m <> Public)
        \/ exists s m sc, sigs = [s] /\ describes_method m s /\ belongs w c (B "__construct") m sc /\ m_visibility m = Public
             /\ forall m' sc', belongs w c (B "__construct") m' sc' -> m_name m' = m_name m -> overrides w c sc' sc -> m_visibility m' <> Public).
Proof.
  intros T X root h st q t ts c TOK OK RUN UN A U C w. assert (NN : ~ In NUL (B "__construct")) by (vm_compute; intuition discriminate).
  destruct (C87_ends T X st q [] (Access [] []) [] (t :: ts)) as (_ & _ & (fuel & sigs & D)). assert (D0 := D fuel (le_n fuel)). unfold ClassTypeDesignator_signatures in D0. destruct (signatures_some _ _ D0) as (q' & l & EL).
  destruct (class_called TOK root h st OK RUN (B "__construct") NN UN (fun _ (m : method) => Z.eqb (mb_visibility m) Public) (fun x => x)) with (may := fun m : method => m_visibility m = Public)
    (fuel := fuel) (gi := @no_interfaces method) (interfaces := false) (choose := constructor) (q := q) (t := t) (ts := ts) (c := c) (q' := q') (l := l) as (r & rest & E1 & R & _ & O1 & O2); auto.
  { intros m. apply Z.eqb_eq. }
  rewrite E1 in EL. destruct (signatures_split _ _ _ _ _ EL D0) as (s1 & s2 & -> & F & N). exists fuel, s1, s2. split; [exact D|]. split; [intros ET; exact (N (R ET))|].
  rewrite constructor_first in F. destruct (reduce _ _ _ (ih_members r)) as [|y l']; cbn [firstn] in F.
  - left. inversion F. split; [reflexivity|]. intros m sc Bl V. destruct (O2 m sc Bl V) as (y & [] & _).
  - right. inversion F as [|? s ? ? Ds F' E2 E3]; subst. inversion F'; subst. destruct (O1 y (or_introl eq_refl)) as (B1 & B2 & B3). exists s, (ws_member y), (ws_scope y). auto 9.
Qed.
Print Assumptions C87_new_of_class_partial.

(** In the arguments of [name(...)], with the imports [uses] of the namespace
    [ns], exactly the functions are shown that PHP calls.
    What is missing: the conditions on the name of C32, and that [ns] and [uses]
    are those of the last namespace in the file, see C87_namespace_refuted. *)
Theorem C87_functions_partial : forall (T : Text) (X : XorFilter) root h st pos ns uses n declared,
  text_ok T -> Forall event_ok h -> run root h = Some st ->
  (forall f, declared f = true <-> exists x, current h x /\ wanted (QFunction f) x) ->
  Forall decl_ok uses -> valid n -> ~ builtin (text n) -> spelled_alike uses (first n) -> not_shadowed UseFunction uses n ->
  unambiguous declared ns n -> (rest n <> [] -> php_bound uses UseClass (first n) = None) ->
  exists sigs, FunctionCall_signatures st (imports pos ns uses) (text n) = Some sigs
    /\ (forall s, In s sigs -> exists f, current h (SFunction f) /\ wanted (QFunction (php_resolve UseFunction declared uses ns n)) (SFunction f) /\ describes_function f s)
    /\ (forall f, current h (SFunction f) -> wanted (QFunction (php_resolve UseFunction declared uses ns n)) (SFunction f) -> exists s, In s sigs /\ describes_function f s).
Proof.
  intros T X root h st pos ns uses n declared TOK OK RUN DE DO V NB SP SH UNA Q.
  set (known := fun f => any (GetFunctions st f)).
  assert (Kn : forall f, known f = declared f) by (intros f; apply eq_true_iff_eq; unfold known; rewrite DE; apply (any_function TOK root h st OK RUN)).
  destruct (C32_function_names_partial pos ns uses n known DO V NB SP SH) as (t & Nt & Po); [unfold unambiguous in *; destruct (rest n); rewrite !Kn; exact UNA|exact Q|].
  assert (Same : php_resolve UseFunction known uses ns n = php_resolve UseFunction declared uses ns n) by (unfold php_resolve; rewrite !Kn; reflexivity).
  rewrite Same in Po. set (fqn := php_resolve UseFunction declared uses ns n) in *.
  destruct (functions_exact TOK root h st OK RUN fqn) as (l & A & _ & E). cbn [ask] in A. destruct (GetFunctions st fqn) as [fs|] eqn:G; [|discriminate A]. injection A as <-.
  unfold FunctionCall_signatures, FunctionCall_called. rewrite Nt. fold known. rewrite Po, G. cbn [option_map]. eexists. split; [reflexivity|].
  assert (SD : forall f f', keep (SFunction f) = SFunction f' -> describes_function f (hasParamToSignatureInformation (function_GetNameLabel f') (f_params f'))).
  { intros f f' K. cbn [keep] in K. injection K as <-. unfold describes_function, function_GetNameLabel. cbn [f_name f_params].
    assert (PL : map parameter_label (map Codec.SymbolCodecProofs.forget_param (f_params f)) = map parameter_label (f_params f)) by (rewrite map_map; apply map_ext; reflexivity).
    unfold hasParamToSignatureInformation. rewrite PL. apply described. }
  split.
  - intros s S. apply in_map_iff in S as (f' & <- & F). apply (in_map SFunction) in F. apply E in F as (x & Cx & Wx & Kx). destruct x; try discriminate Kx.
    match type of Cx with current h (SFunction ?f) => exists f end. split; [exact Cx|]. split; [exact Wx|]. apply SD. symmetry. exact Kx.
  - intros f Cf Wf. assert (I : In (keep (SFunction f)) (map SFunction fs)) by (apply E; exists (SFunction f); auto). apply in_map_iff in I as (f' & K & F).
    eexists. split; [apply in_map; exact F|]. apply SD. symmetry. exact K.
Qed.
Print Assumptions C87_functions_partial.

(** *** Examples *)
Ltac here k := exists uri_a, family_doc; split; [reflexivity|]; split; [exact I|]; eexists (firstn k (d_symbols family_doc)), _; split; [reflexivity|];
  let s := fresh in let H := fresh in let SE := fresh in intros s H _ SE; cbn in H;
  repeat (destruct H as [<-|H]; [first [exact SE|vm_compute in SE; first [discriminate SE|intuition discriminate]|apply (same_class_name_iff ascii_text_ok) in SE; vm_compute in SE; discriminate SE]|]); destruct H.
Definition stored_constructor (scope : string) (visibility : Z) : method :=
  Method (at_line uri_a 3 5) zero_loc (B "__construct") [] [ty "\int"] [] (ty scope) visibility false NoClassModifier None.
(** [new A()] in the example: the constructor of A is private, so that of its
    parent is shown, which PHP does not call. *)
Theorem C87_private_constructor_refuted : let w := workspace family (method_named family) in exists st p m m' s,
  run root_uri family = Some st /\ ClassTypeDesignator_signatures st 9 NewQuery [ty "\A"] = Some [s] /\ describes_method m s /\ m_visibility m = Public
  /\ belongs w class_A (B "__construct") m (ScClass p)
  /\ belongs w class_A (B "__construct") m' (ScClass class_A) /\ m_visibility m' = Private /\ overrides w class_A (ScClass class_A) (ScClass p).
Proof.
  cbv zeta. destruct (run root_uri family) as [st|] eqn:R; [|vm_compute in R; discriminate R].
  exists st, (family_class "\P" "" [] []), (stored_constructor "\P" Public), (stored_constructor "\A" Private).
  exists (hasParamToSignatureInformation (method_GetNameLabel (stored_constructor "\P" Public)) []).
  split; [reflexivity|]. split; [vm_compute in R; injection R as <-; vm_compute; reflexivity|]. split; [apply described_method|]. split; [reflexivity|].
  assert (PA : parent (workspace family (method_named family)) class_A (family_class "\P" "" [] [])).
  { split; [reflexivity|]. split; [here 7%nat|]. right. exists [], (B "P"), (B "p"). repeat split; cbn; try reflexivity; intuition discriminate. }
  split; [|split; [|split]].
  - eapply own_member; [eapply ancestor_parent; [apply ancestor_self|exact PA]|]. split; [|split; [reflexivity|right; reflexivity]].
    exists (nth 10 (d_symbols family_doc) (a_trait "")). split; [here 10%nat|reflexivity].
  - eapply own_member; [apply ancestor_self|]. split; [|split; [reflexivity|right; reflexivity]].
    exists (nth 16 (d_symbols family_doc) (a_trait "")). split; [here 16%nat|reflexivity].
  - reflexivity.
  - exists 0%nat. split; [constructor|]. intros j G. destruct j; [inversion G|lia].
Qed.
Print Assumptions C87_private_constructor_refuted.
(** [$this->t()] inside the trait of the example: the methods of a trait are not
    looked up, so nothing is shown. *)
Theorem C87_trait_refuted : exists st t m, run root_uri family = Some st /\ trait_named family (B "\T") t /\ method_named family (B "\T") (B "t") m /\ m_visibility m = Public
  /\ MethodAccess_signatures st 9 NewQuery (B "\T") (Access (B "$this") [ty "\T"]) (B "t") [ty "\T"] = Some [].
Proof.
  destruct (run root_uri family) as [st|] eqn:R; [|vm_compute in R; discriminate R]. eexists st, _, (Method (at_line uri_a 3 5) zero_loc (B "t") [] [ty "\int"] [] (ty "\T") Public false NoClassModifier None). split; [reflexivity|].
  split; [split; [here 4%nat|reflexivity]|]. split; [split; [|split; [reflexivity|right; reflexivity]]; exists (nth 5 (d_symbols family_doc) (a_trait "")); split; [here 5%nat|reflexivity]|].
  split; [reflexivity|]. vm_compute in R. injection R as <-. vm_compute. reflexivity.
Qed.
Print Assumptions C87_trait_refuted.
(** The arguments of [$x->run()] and [new B()]. *)
Example C87_hypotheses_met : exists st, run root_uri family = Some st
  /\ unique_names family /\ class_named family (B "\A") class_A
  /\ asked false true true (method_db st) NewQuery /\ unasked (@NewQuery method) (B "run") /\ unasked (@NewQuery method) (B "__construct")
  /\ option_map (map sg_label) (MethodAccess_signatures st 9 NewQuery [] (Access (B "$x") [ty "\A"]) (B "run") [ty "\A"]) = Some [B "public run()"]
  /\ option_map (map sg_label) (ScopedMethodAccess_signatures st 9 NewQuery [] (Access (B "P") [ty "\P"]) (B "secret") [ty "\P"]) = Some [B "private static secret()"]
  /\ option_map (map sg_label) (ClassTypeDesignator_signatures st 9 NewQuery [ty "\B"]) = Some [B "public __construct()"].
Proof.
  destruct C37_hypotheses_met as (_ & _ & UN & CA & _).
  destruct (run root_uri family) as [st|] eqn:R; [|vm_compute in R; discriminate R]. exists st. split; [reflexivity|]. split; [exact UN|]. split; [split; [exact CA|left; reflexivity]|].
  split; [constructor|]. split; [split; [|split]; intros f i []|]. split; [split; [|split]; intros f i []|]. vm_compute in R. injection R as <-.
  split; [vm_compute; reflexivity|]. split; vm_compute; reflexivity.
Qed.
