(** Claims about what is reported about a file. *)
From Coq Require Import String.
From Coq Require Import List Bool ZArith Lia.
From Coq.Strings Require Import Byte.
From Verif Require Import Base.Bytes Base.BytesProofs Base.Protocol Claims.Queries Symbols.Symbols Symbols.KeysModel Text.TextModel Text.PositionModel
  Codec.CodecSpec Codec.SymbolCodecSpec
  Types.TypesModel Types.ImportModel Types.ImportSpec Types.ImportProofs Rpc.StreamModel Rpc.StreamSpec
  Query.QueryModel Query.QueryStoreModel Query.QuerySpec Query.QueryProofs Query.QueryHistorySpec Query.QueryHistory
  Analyse.SyntaxModel Analyse.AnalyseModel Analyse.AnalyseSpec Analyse.DeclareSpec Analyse.DeclareProofs Analyse.UseSpec Analyse.UseProofs Analyse.ResolveSpec Analyse.ResolveProofs
  Analyse.RefModel Analyse.Examples
  Storage.KvModel Store.FilterModel Store.StoreModel Store.StoreSpec Store.StoreProofs Store.LookupProofs Store.LookupKinds Store.Examples
  Whole.IndexSpec Whole.IndexProofs Whole.RefSpec Whole.RefProofs Whole.CursorModel Whole.CursorSpec Whole.CursorProofs
  Whole.DefinitionModel Whole.DefinitionSpec Whole.DefinitionProofs Whole.DiagnosticModel Whole.DiagnosticSpec Whole.DiagnosticProofs
  Claims.Imports Claims.Analyse Claims.Uses Claims.Resolve Claims.Store Claims.Whole Claims.References Claims.Cursor Claims.Definition.
Import ListNotations.
Open Scope list_scope.
Open Scope nat_scope.

(** ** C80 what is deprecated is marked where it is used *)
(** The name of a class or an interface is marked if, and only if, the class or the
    interface it stands for is declared as deprecated, and the hint says since when
    and why.  What is missing: the uses of members; traits cannot be deprecated. *)
Theorem C80_class_names_partial : forall {TX : Text} {TR : TrimSpace} {X : XorFilter} root h st d s p m n k name at_ pn declared l,
  opened root h st d s -> stands d p m -> reads_in d m n -> uses d n k name at_ -> names_class k name at_ ->
  named d at_ (text pn) -> valid pn -> ~ builtin (text pn) -> spelled_alike (snd p) (first pn) -> not_shadowed ImportModel.UseClass (snd p) pn ->
  k = AClassTypeDesignator \/ k = ATypeDeclaration \/ k = AClassAccess \/ k = AInterfaceAccess -> one_at (st_out s) (NodeRange d at_) ->
  DeprecatedDiagnostics st s = Some l ->
  hinted_at h (hinted k (php_resolve ImportModel.UseClass declared (snd p) (fst p) pn)) name (NodeRange d at_) l.
Proof.
  intros TX TR X root h st d s p m n k name at_ pn declared l (TOK & OK & RUN & E & Out) St R U Nc Nm V Nb Sp Sh Kk One D.
  destruct (class_symbol_of_use d s p m n k name at_ pn declared E Out St R U Nc Nm V Nb Sp Sh) as (a & t & Ia & Ka & Na & Sa & Ty & Ft).
  rewrite <- Na, <- Sa, <- Ft. rewrite <- Sa in One. apply (hints_at h st s l a); [exact D|exact (in_preorder _ _ Ia)|exact One|].
  unfold tag_for. rewrite Ka, Ty. decompose [or] Kk; subst; cbn [map flat_map app hinted].
  - rewrite H. cbn [hinted]. apply (tells_more h [_] []); [apply (class_tells TOK root h st OK RUN)|apply tells_nothing].
  - rewrite H0. cbn [hinted]. apply (tells_more h [_] [_]); [apply (class_tells TOK root h st OK RUN)|]. apply (tells_more h [_] []); [apply (interface_tells TOK root h st OK RUN)|apply tells_nothing].
  - rewrite H. cbn [hinted]. apply (tells_more h [_] [_]); [apply (class_tells TOK root h st OK RUN)|]. apply (tells_more h [_] []); [apply (interface_tells TOK root h st OK RUN)|apply tells_nothing].
  - rewrite H. cbn [hinted]. apply (tells_more h [_] []); [apply (interface_tells TOK root h st OK RUN)|apply tells_nothing].
Qed.
Print Assumptions C80_class_names_partial.

(** The name of a function, at the call that PHP makes to it *)
Theorem C80_functions_partial : forall {TX : Text} {TR : TrimSpace} {X : XorFilter} root h st d s before m after n at_ pn declared l,
  opened root h st d s -> between d before m after (r_start (NodeRange d at_)) -> reads_in d m n -> uses d n AFunctionCall (text pn) at_ ->
  let p := fold_left behind before ([], []) in
  valid pn -> ~ builtin (text pn) -> spelled_alike (snd p ++ uses_ahead after) (first pn) -> not_shadowed ImportModel.UseFunction (snd p) pn ->
  (rest pn <> [] -> php_bound (snd p) ImportModel.UseClass (first pn) = None) ->
  (forall k, php_bound (uses_ahead after) k (first pn) = None) ->
  (forall f, declared f = true <-> exists x, current h x /\ wanted (QFunction f) x) -> unambiguous declared (fst p) pn ->
  one_at (st_out s) (NodeRange d at_) -> DeprecatedDiagnostics st s = Some l ->
  hinted_at h [QFunction (php_resolve ImportModel.UseFunction declared (snd p) (fst p) pn)] (text pn) (NodeRange d at_) l.
Proof.
  intros TX TR X root h st d s before m after n at_ pn declared l (TOK & OK & RUN & E & Out) (It & Ns & Ord) R U p V Nb Sp Sh Q Later De Un One D.
  assert (Im : In (IStatement m) (items d)) by (rewrite It; apply in_or_app; right; left; reflexivity).
  destruct (call_symbol d s m n (text pn) at_ E Im R U) as (a & Ia & Ka & Na & Sa).
  destruct (table_at d s before m after _ E Out It Ns Ord) as (Dk & table & At & Sn). fold p in Dk, Sn.
  set (known := fun f => any (GetFunctions st f)).
  assert (Kn : forall f, known f = declared f).
  { intros f. apply eq_true_iff_eq. unfold known. rewrite De. apply (any_function TOK root h st OK RUN). }
  destruct (C32_function_names_partial zero_pos (fst p) (snd p ++ uses_ahead after) pn known Dk V Nb Sp) as (t & Nt & Po).
  { unfold not_shadowed in *. intros Ab. rewrite bound_app by apply Later. exact (Sh Ab). }
  { unfold unambiguous in *. destruct (rest pn); rewrite !Kn; exact Un. }
  { intros Nr. rewrite bound_app by apply Later. exact (Q Nr). }
  assert (Same : php_resolve ImportModel.UseFunction known (snd p ++ uses_ahead after) (fst p) pn = php_resolve ImportModel.UseFunction declared (snd p) (fst p) pn).
  { unfold php_resolve. rewrite !bound_app by apply Later. rewrite !Kn. reflexivity. }
  rewrite Same in Po. rewrite <- (same_function_resolution _ _ _ t Sn) in Po.
  rewrite <- Na at 1. rewrite <- Sa. rewrite <- Sa in One. apply (hints_at h st s l a); [exact D|exact (in_preorder _ _ Ia)|exact One|].
  unfold tag_for. rewrite Ka, Sa, At, Na, Nt. fold known. rewrite Po. apply (function_tells TOK root h st OK RUN).
Qed.
Print Assumptions C80_functions_partial.

(** The name of a constant, be it declared with [const] or with [define] *)
Theorem C80_constants_partial : forall {TX : Text} {TR : TrimSpace} {X : XorFilter} root h st d s before m after n at_ pn declared l,
  opened root h st d s -> between d before m after (r_start (NodeRange d at_)) -> reads_in d m n -> uses d n AConstantAccess (text pn) at_ ->
  let p := fold_left behind before ([], []) in
  valid pn -> ~ builtin (text pn) -> spelled_alike (snd p ++ uses_ahead after) (first pn) -> not_shadowed ImportModel.UseConst (snd p) pn ->
  (rest pn <> [] -> php_bound (snd p) ImportModel.UseClass (first pn) = None) ->
  (forall k, php_bound (uses_ahead after) k (first pn) = None) ->
  (forall f, declared f = true <-> exists x, current h x /\ (wanted (QConst f) x \/ wanted (QDefine f) x)) -> unambiguous declared (fst p) pn ->
  one_at (st_out s) (NodeRange d at_) -> DeprecatedDiagnostics st s = Some l ->
  let fqn := php_resolve ImportModel.UseConst declared (snd p) (fst p) pn in
  hinted_at h [QConst fqn; QDefine fqn] (text pn) (NodeRange d at_) l.
Proof.
  intros TX TR X root h st d s before m after n at_ pn declared l (TOK & OK & RUN & E & Out) (It & Ns & Ord) R U p V Nb Sp Sh Q Later De Un One D fqn.
  assert (Im : In (IStatement m) (items d)) by (rewrite It; apply in_or_app; right; left; reflexivity).
  assert (Ac : exists a, In a (flat_map symbols_in (st_out s)) /\ a_kind a = AConstantAccess /\ ts_original (a_name a) = text pn /\ sits_at d at_ a).
  { apply (uses_reported TX TR d s n AConstantAccess (text pn) at_ E); [|exact U]. destruct (item_read d m Im) as (k & Ik & Rk). exists k. split; [exact Ik|exact (reads_in_trans d _ _ _ Rk R)]. }
  destruct Ac as (a & Ia & Ka & Na & Sa).
  destruct (table_at d s before m after _ E Out It Ns Ord) as (Dk & table & At & Sn). fold p in Dk, Sn.
  set (is_const := fun f => any (GetConsts st f)). set (is_define := fun f => any (GetDefines st f)).
  assert (Kn : forall f, is_const f || is_define f = declared f).
  { intros f. apply eq_true_iff_eq. rewrite orb_true_iff, De. unfold is_const, is_define. rewrite (any_const TOK root h st OK RUN), (any_define TOK root h st OK RUN). split.
    - intros [(x & C & W)|(x & C & W)]; exists x; auto.
    - intros (x & C & [W|W]); [left|right]; exists x; auto. }
  destruct (C32_constant_names_partial zero_pos (fst p) (snd p ++ uses_ahead after) pn is_const is_define Dk V Nb Sp) as (t & Nt & Po).
  { unfold not_shadowed in *. intros Ab. rewrite bound_app by apply Later. exact (Sh Ab). }
  { unfold unambiguous in *. destruct (rest pn); rewrite !Kn; exact Un. }
  { intros Nr. rewrite bound_app by apply Later. exact (Q Nr). }
  assert (Same : php_resolve ImportModel.UseConst (fun f => is_const f || is_define f) (snd p ++ uses_ahead after) (fst p) pn = fqn).
  { unfold fqn, php_resolve. rewrite !bound_app by apply Later. rewrite !Kn. reflexivity. }
  rewrite Same in Po. rewrite <- (same_const_resolution _ _ _ _ t Sn) in Po.
  rewrite <- Na. rewrite <- Sa. rewrite <- Sa in One. apply (hints_at h st s l a); [exact D|exact (in_preorder _ _ Ia)|exact One|].
  unfold tag_for. rewrite Ka, Sa, At, Na, Nt. fold is_const. fold is_define. rewrite Po.
  apply (tells_more h [_] [_]); [apply (const_tells TOK root h st OK RUN)|]. apply (tells_more h [_] []); [apply (define_tells TOK root h st OK RUN)|apply tells_nothing].
Qed.
Print Assumptions C80_constants_partial.

(** Whatever the file, a hint is at a symbol of the file, and something the symbol is
    looked up as is declared as deprecated. *)
Theorem C80_nothing_else_partial : forall {TX : Text} {X : XorFilter} root h st s l dg,
  text_ok TX -> Forall event_ok h -> run root h = Some st -> DeprecatedDiagnostics st s = Some l -> In dg l ->
  exists a qs, In a (flat_map preorder (st_out s)) /\ dg_range dg = a_range a /\ asks a qs /\ hint_about h qs (ts_original (a_name a)) dg.
Proof.
  intros TX X root h st s l dg TOK OK RUN D I. apply (diagnostics_in st s l D) in I as (a & t & Ia & T & ->).
  destruct (tag_tells TOK root h st OK RUN _ _ _ T) as (qs & A & o & Eo & O). injection Eo as <-. exists a, qs. split; [exact Ia|]. split; [reflexivity|]. split; [exact A|].
  split; [reflexivity|]. split; [reflexivity|]. exists t. split; [exact O|apply description_says].
Qed.
Print Assumptions C80_nothing_else_partial.

(** The search for hints does not crash, whatever is declared: the names of the
    functions and constants that are used must not end in a bracket, which no name does. *)
Theorem C80_no_crash_partial : forall {TX : Text} {TR : TrimSpace} {X : XorFilter} root h st d s,
  text_ok TX -> Forall event_ok h -> run root h = Some st -> analyse d = Done tt s ->
  (forall a, In a (flat_map preorder (st_out s)) -> a_kind a = AFunctionCall \/ a_kind a = AConstantAccess -> hd_error (rev (ts_original (a_name a))) <> Some x5d) ->
  exists l, DeprecatedDiagnostics st s = Some l.
Proof.
  intros TX TR X root h st d s TOK OK RUN E N.
  assert (Tn : st_imports s <> []).
  { unfold analyse, Load in E. step E u s1 F. destruct u. step E i s2 F2. injection E as <-. unfold currImportTable in F2. step F2 x s3 F3. injection F3 as <- <-.
    destruct (st_imports s1) as [|t x] eqn:L.
    - unfold pushImportTable in F2. step F2 y s3 F3. injection F3 as <- <-. step F2 u s3 F3. injection F3 as _ <-. injection F2 as _ <-. cbn [st_imports]. rewrite L. discriminate.
    - injection F2 as _ <-. rewrite L. discriminate. }
  unfold DeprecatedDiagnostics. rewrite hint_walk_visits. destruct (fold_left _ _ _) as [l|] eqn:F; [exists l; reflexivity|]. exfalso.
  refine (visits_there st (st_imports s) _ [] _ F). intros a Ia. apply (tag_there TOK root h st OK RUN); [exact Tn|exact (N a Ia)].
Qed.
Print Assumptions C80_no_crash_partial.
(** the files of [trade], where [Basket] and [pay] are declared as deprecated *)
Definition old (s : symbol) : symbol :=
  match s with
  | SClass c => SClass (Symbols.Class (Symbols.c_description c) (Symbols.c_refloc c) (Symbols.c_location c) (Symbols.c_modifier c) (Symbols.c_name c) (Symbols.c_extends c) (Symbols.c_interfaces c) (Symbols.c_use c) (Some (deprecation (B "2.0") [])))
  | SFunction f => SFunction (Symbols.Function (f_location f) (f_refloc f) (f_name f) (f_params f) (f_return f) (f_description f) (Some (deprecation (B "2.0") (B "use charge"))))
  | s => s
  end.
Definition old_doc (d : doc) : doc := StoreModel.Doc (d_uri d) (d_hash d) (map old (d_symbols d)) (d_namespaces d) (d_refs d).
Definition old_baskets_doc : doc := Eval vm_compute in old_doc baskets_doc.
Definition old_payment_doc : doc := Eval vm_compute in old_doc payment_doc.
Definition old_trade : list event := [EvSync old_baskets_doc; EvSync old_payment_doc; EvRestart].
Lemma old_doc_ok : forall d, @doc_ok ascii_text d -> @doc_ok ascii_text (old_doc d).
Proof.
  intros d (U & L & F & R). split; [exact U|]. split; [unfold CodecSpec.go_len in *; cbn [old_doc d_symbols]; rewrite map_length; exact L|]. split; [|exact R]. cbn [old_doc d_symbols d_uri]. apply Forall_map.
  eapply Forall_impl; [|exact F]. intros x (O & H). destruct x; split; try exact H; try exact O; cbn [symbol_ok old] in *; unfold class_ok, function_ok in *; cbn; intuition; split; try reflexivity; split; vm_compute; reflexivity.
Qed.
Lemma old_opened : exists st s, @opened ascii_text ascii_trim_space maybe_filter root_uri old_trade st (file checkout) s.
Proof.
  destruct (C69_no_crash_partial (TX := ascii_text) (file checkout) ascii_trim_ok) as (s & E); [apply well_parsedb_ok; vm_compute; reflexivity|].
  eexists _, s. split; [exact ascii_text_ok|]. split; [|split; [vm_compute; reflexivity|split; [exact E|apply imports_outsideb_ok; vm_compute; reflexivity]]].
  constructor; [apply (old_doc_ok baskets_doc); unfold baskets_doc; ok|]. constructor; [apply (old_doc_ok payment_doc); unfold payment_doc; ok|]. constructor; [exact Logic.I|constructor].
Qed.
Definition old_symbols : list symbol := Eval vm_compute in d_symbols old_baskets_doc ++ d_symbols old_payment_doc.
Lemma old_current : forall x, current old_trade x -> In x old_symbols.
Proof.
  intros x (u & d & L & D). destruct D as (_ & b & a & E & _). assert (I : In x (d_symbols d)) by (rewrite E; apply in_or_app; right; left; reflexivity).
  apply latest_in in L as (L & _). vm_compute in L. destruct L as [<-|[<-|[]]]; vm_compute in I; repeat (destruct I as [<-|I]; [vm_compute; tauto|]); destruct I.
Qed.
Lemma old_pay_current : current old_trade (nth 2 old_symbols (SClass class_A)).
Proof. exists uri_a, old_payment_doc. split; [vm_compute; reflexivity|]. split; [|exists [], []; split; [vm_compute; reflexivity|intros s' []]]. vm_compute. repeat split; discriminate. Qed.
Lemma old_pay_declared : forall f, only_pay f = true <-> exists x, current old_trade x /\ @wanted ascii_text (QFunction f) x.
Proof.
  intros f. unfold only_pay. rewrite str_eqb_eq. split.
  - intros ->. exists (nth 2 old_symbols (SClass class_A)). split; [exact old_pay_current|reflexivity].
  - intros (x & C & W). apply old_current in C. vm_compute in C. repeat (destruct C as [<-|C]; [try (destruct W; fail)|]); [|destruct C]. symmetry. exact W.
Qed.
Definition position_dec : forall p q : position, {p = q} + {p <> q}.
Proof. decide equality; apply Z.eq_dec. Defined.
Definition range_dec : forall p q : range, {p = q} + {p <> q}.
Proof. decide equality; apply position_dec. Defined.
Definition all_at (r : range) (l : list adata) : list adata := List.filter (fun a => if range_dec (a_range a) r then true else false) l.
Lemma one_at_ok : forall syms r a, all_at r (flat_map preorder syms) = [a] -> one_at syms r.
Proof.
  intros syms r a F x y Ix Iy Rx Ry. assert (H : forall z, In z (flat_map preorder syms) -> a_range z = r -> z = a).
  { intros z Iz Rz. assert (J : In z [a]) by (rewrite <- F; apply filter_In; split; [exact Iz|destruct (range_dec (a_range z) r); [reflexivity|contradiction]]). destruct J as [->|[]]. reflexivity. }
  rewrite (H x Ix Rx), (H y Iy Ry). reflexivity.
Qed.
Lemma pay_between : between (file checkout) (firstn 6 (items (file checkout))) its_return (skipn 7 (items (file checkout))) (cursor 46).
Proof.
  destruct (checkout_between 47 (or_introl eq_refl)) as (It & Ns & _). split; [exact It|]. split; [exact Ns|]. split.
  - intros n [->|(nm & I)]; [vm_compute; reflexivity|]. vm_compute in I. repeat (destruct I as [I|I]; [try discriminate I; injection I as <- _; vm_compute; reflexivity|]). destruct I.
  - intros n nm I. vm_compute in I. destruct I.
Qed.
(** <?php namespace App; use Lib\Basket; … return pay(new Basket); both names are marked *)
Example C80_hypotheses_met : exists st s, let d := file checkout in
  let before := firstn 6 (items d) in let after := skipn 7 (items d) in let p := fold_left behind before ([], []) in
  @opened ascii_text ascii_trim_space maybe_filter root_uri old_trade st d s /\
  stands d p its_return /\ @reads_in ascii_text d its_return new_basket /\
  @uses ascii_text d new_basket AClassTypeDesignator (B "Basket") the_basket /\ named d the_basket (text Basket) /\
  php_resolve ImportModel.UseClass only_pay (snd p) (fst p) Basket = B "\Lib\Basket" /\ one_at (st_out s) (NodeRange d the_basket) /\
  between d before its_return after (r_start (NodeRange d the_pay)) /\ @reads_in ascii_text d its_return pay_call /\
  @uses ascii_text d pay_call AFunctionCall (text pay) the_pay /\
  (forall f, only_pay f = true <-> exists x, current old_trade x /\ @wanted ascii_text (QFunction f) x) /\ unambiguous only_pay (fst p) pay /\
  one_at (st_out s) (NodeRange d the_pay) /\
  (exists t, @outdated ascii_text old_trade [QFunction (B "\pay")] t) /\
  @DeprecatedDiagnostics ascii_text st s = Some
    [Diag (NodeRange d the_pay) (B "pay is deprecated: Since 2.0 - use charge") SeverityHint [Deprecated];
     Diag (NodeRange d the_basket) (B "Basket is deprecated: Since 2.0") SeverityHint [Deprecated]].
Proof.
  destruct old_opened as (st & s & Op). exists st, s. cbv zeta.
  assert (E : @analyse ascii_text ascii_trim_space (file checkout) = Done tt s) by (destruct Op as (_ & _ & _ & E & _); exact E).
  assert (R : @run ascii_text maybe_filter root_uri old_trade = Some st) by (destruct Op as (_ & _ & R & _); exact R).
  split; [exact Op|]. split; [exists (firstn 6 (items (file checkout))), (skipn 7 (items (file checkout))); split; [vm_compute; reflexivity|reflexivity]|]. split; [apply checkout_reads|].
  split; [eapply (uses_new _ _ _ (B "Basket")); [apply not_define; vm_compute; reflexivity|member|reflexivity|vm_compute; reflexivity|eexists; split; vm_compute; reflexivity]|].
  split; [vm_compute; reflexivity|]. split; [vm_compute; reflexivity|]. split; [rewrite (checkout_state s E); eapply one_at_ok; vm_compute; reflexivity|].
  split; [assert (Ec : r_start (NodeRange (file checkout) the_pay) = cursor 46) by (vm_compute; reflexivity); rewrite Ec; exact pay_between|]. split; [apply checkout_reads|].
  split; [apply (uses_function _ _ _ (B "pay")); [apply not_define; vm_compute; reflexivity|vm_compute; reflexivity]|].
  split; [exact old_pay_declared|]. split; [right; vm_compute; reflexivity|]. split; [rewrite (checkout_state s E); eapply one_at_ok; vm_compute; reflexivity|].
  split; [eexists _, (nth 2 old_symbols (SClass class_A)), _; split; [exact old_pay_current|split; [left; reflexivity|split; [reflexivity|vm_compute; reflexivity]]]|].
  assert (X : Done tt s = @analyse ascii_text ascii_trim_space (file checkout)) by (symmetry; exact E). vm_compute in X. injection X as Xs. vm_compute in R. injection R as Rs.
  rewrite Xs, <- Rs. vm_compute. reflexivity.
Qed.
