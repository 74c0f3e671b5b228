(** Claims about what is shown of the name under the cursor. *)
From Coq Require Import String.
From Coq Require Import List Bool ZArith Lia.
From Coq.Strings Require Import Byte.
From Verif Require Import Base.Bytes Base.BytesProofs Base.Protocol Claims.Queries Symbols.Symbols Symbols.KeysModel Text.TextModel Text.PositionModel
  Types.TypesModel Types.ImportModel Types.ImportSpec Types.ImportProofs Rpc.StreamModel Rpc.StreamSpec
  Query.QueryModel Query.QueryStoreModel Query.QuerySpec Query.QueryProofs Query.QueryHistorySpec Query.QueryHistory Query.QuerySound
  Analyse.SyntaxModel Analyse.AnalyseModel Analyse.AnalyseSpec Analyse.DeclareSpec Analyse.DeclareProofs Analyse.UseSpec Analyse.UseProofs Analyse.ResolveSpec Analyse.ResolveProofs
  Analyse.RefModel Analyse.Examples
  Storage.KvModel Store.FilterModel Store.StoreModel Store.StoreSpec Store.StoreProofs Store.LookupProofs Store.LookupKinds Store.Examples
  Whole.IndexSpec Whole.IndexProofs Whole.RefSpec Whole.RefProofs Whole.CursorModel Whole.CursorSpec Whole.CursorProofs
  Whole.DefinitionModel Whole.DefinitionSpec Whole.DefinitionProofs
  Claims.Imports Claims.Analyse Claims.Uses Claims.Resolve Claims.Store Claims.Whole Claims.References Claims.Cursor Claims.Definition
  Members.MemberModel Hover.HoverModel Hover.HoverSpec Hover.HoverProofs.
Import ListNotations.
Open Scope list_scope.
Open Scope nat_scope.

(** ** C88 what is shown of the name under the cursor *)
Lemma class_on : forall {TX : Text} {TR : TrimSpace} {X : XorFilter} root h st d s before m after n k name at_ pn declared pos,
  opened root h st d s -> between d before m after pos -> reads_in d m n -> uses d n k name at_ -> names_class k name at_ ->
  let p := fold_left behind before ([], []) in
  named d at_ (text pn) -> valid pn -> ~ builtin (text pn) -> spelled_alike (snd p) (first pn) -> not_shadowed ImportModel.UseClass (snd p) pn ->
  has_types k = true -> cursor_on d (st_out s) pos k at_ ->
  exists a t, HasTypesAtPos (st_out s) pos = Some a /\ a_kind a = k /\ a_types a = [t] /\ ts_fqn t = php_resolve ImportModel.UseClass declared (snd p) (fst p) pn /\ a_range a = NodeRange d at_.
Proof.
  intros TX TR X root h st d s before m after n k name at_ pn declared pos (TOK & OK & RUN & E & Out) (It & Ns & Ord) R U Nc p Nm V Nb Sp Sh Ht (Ne & Lo & Al).
  assert (St : stands d p m) by (exists before, after; auto).
  destruct (class_symbol_of_use d s p m n k name at_ pn declared E Out St R U Nc Nm V Nb Sp Sh) as (a & t & Ia & Ka & Na & Sa & Ty & Ft).
  exists a, t. split; [apply (found_here pos); auto; rewrite Ka; exact Ht|]. auto.
Qed.

(** Of the name of a class, an interface or a trait the declarations are shown
    that it stands for, each as code with its description, and nothing else;
    and the editor is told where the name is.  [markdown] is how a description is turned
    into Markdown. *)
Theorem C88_class_names_partial : forall {TX : Text} {TR : TrimSpace} {X : XorFilter} markdown root h st d s before m after n k name at_ pn declared pos fuel,
  opened root h st d s -> between d before m after pos -> reads_in d m n -> uses d n k name at_ -> names_class k name at_ ->
  let p := fold_left behind before ([], []) in
  named d at_ (text pn) -> valid pn -> ~ builtin (text pn) -> spelled_alike (snd p) (first pn) -> not_shadowed ImportModel.UseClass (snd p) pn ->
  k = AClassAccess \/ k = AInterfaceAccess \/ k = ATraitAccess \/ k = ATypeDeclaration -> cursor_on d (st_out s) pos k at_ ->
  exists shown, hover markdown fuel st s pos = Some (Some (Hover (NodeRange d at_) shown))
    /\ shows_all markdown h (stands_for k (php_resolve ImportModel.UseClass declared (snd p) (fst p) pn)) shown.
Proof.
  intros TX TR X markdown root h st d s before m after n k name at_ pn declared pos fuel Op Bt R U Nc p Nm V Nb Sp Sh Kk Cu.
  assert (Ht : has_types k = true) by (decompose [or] Kk; subst; reflexivity).
  destruct (class_on root h st d s before m after n k name at_ pn declared pos Op Bt R U Nc Nm V Nb Sp Sh Ht Cu) as (a & t & Ha & Ka & Ty & Ft & Ra).
  destruct Op as (TOK & OK & RUN & _). fold p in Ft. unfold hover. rewrite Ha, Ka, Ty, Ra, <- Ft. clear Ka.
  assert (Two : shown_for markdown h [QClass (ts_fqn t); QInterface (ts_fqn t)] (concat_opt [concat_opt (map (fun t => formatted (format_class markdown) (Query_GetClasses st (ts_fqn t))) [t]);
                    concat_opt (map (fun t => formatted (format_interface markdown) (GetInterfaces st (ts_fqn t))) [t])])).
  { apply (shown_more markdown h [_] [_]); [intros q1 q2 x [<-|[]] [<-|[]]; destruct x; cbn; tauto| |].
    - apply (shown_more markdown h [_] []); [intros q1 q2 x _ []|apply (class_shown markdown TOK root h st OK RUN)|apply shown_none].
    - apply (shown_more markdown h [_] []); [intros q1 q2 x _ []| |apply shown_none].
      apply (shown_more markdown h [_] []); [intros q1 q2 x _ []|apply (interface_shown markdown TOK root h st OK RUN)|apply shown_none]. }
  decompose [or] Kk; subst k; cbn [stands_for].
  - destruct Two as (text & -> & S). exists text. split; [reflexivity|exact S].
  - destruct (shown_more markdown h [QInterface (ts_fqn t)] [] (formatted (format_interface markdown) (GetInterfaces st (ts_fqn t))) []) as (text & E & S);
      [intros q1 q2 x _ []|apply (interface_shown markdown TOK root h st OK RUN)|apply shown_none|]. exists text. split; [|exact S]. apply (f_equal (option_map (fun text => Some (Hover (NodeRange d at_) text)))) in E. exact E.
  - destruct (shown_more markdown h [QTrait (ts_fqn t)] [] (formatted (format_trait markdown) (GetTraits st (ts_fqn t))) []) as (text & E & S);
      [intros q1 q2 x _ []|apply (trait_shown markdown TOK root h st OK RUN)|apply shown_none|]. exists text. split; [|exact S]. apply (f_equal (option_map (fun text => Some (Hover (NodeRange d at_) text)))) in E. exact E.
  - destruct Two as (text & -> & S). exists text. split; [reflexivity|exact S].
Qed.
Print Assumptions C88_class_names_partial.

(** Of the name of a function in a call the declarations of the function are
    shown that PHP calls. *)
Theorem C88_functions_partial : forall {TX : Text} {TR : TrimSpace} {X : XorFilter} markdown root h st d s before m after n at_ pn declared pos fuel,
  opened root h st d s -> between d before m after pos -> reads_in d m n -> uses d n AFunctionCall (text pn) at_ ->
  let p := fold_left behind before ([], []) in
  valid pn -> ~ builtin (text pn) -> spelled_alike (snd p ++ uses_ahead after) (first pn) -> not_shadowed ImportModel.UseFunction (snd p) pn ->
  (rest pn <> [] -> php_bound (snd p) ImportModel.UseClass (first pn) = None) ->
  (forall k, php_bound (uses_ahead after) k (first pn) = None) ->
  (forall f, declared f = true <-> exists x, current h x /\ wanted (QFunction f) x) -> unambiguous declared (fst p) pn ->
  cursor_on d (st_out s) pos AFunctionCall at_ ->
  exists shown, hover markdown fuel st s pos = Some (Some (Hover (NodeRange d at_) shown))
    /\ shows_all markdown h [QFunction (php_resolve ImportModel.UseFunction declared (snd p) (fst p) pn)] shown.
Proof.
  intros TX TR X markdown root h st d s before m after n at_ pn declared pos fuel (TOK & OK & RUN & E & Out) (It & Ns & Ord) R U p V Nb Sp Sh Q Later De Un (Ne & Lo & Al).
  assert (Im : In (IStatement m) (items d)) by (rewrite It; apply in_or_app; right; left; reflexivity).
  destruct (call_symbol d s m n (text pn) at_ E Im R U) as (a & Ia & Ka & Na & Sa).
  destruct (table_at d s before m after pos E Out It Ns Ord) as (D & table & At & Sn). fold p in D, Sn.
  set (known := fun f => any (GetFunctions st f)).
  assert (Kn : forall f, known f = declared f).
  { intros f. apply eq_true_iff_eq. unfold known. rewrite De. apply (any_function TOK root h st OK RUN). }
  destruct (C32_function_names_partial zero_pos (fst p) (snd p ++ uses_ahead after) pn known D V Nb Sp) as (t & Nt & Po).
  { unfold not_shadowed in *. intros Ab. rewrite bound_app by apply Later. exact (Sh Ab). }
  { unfold unambiguous in *. destruct (rest pn); rewrite !Kn; exact Un. }
  { intros Nr. rewrite bound_app by apply Later. exact (Q Nr). }
  assert (Same : php_resolve ImportModel.UseFunction known (snd p ++ uses_ahead after) (fst p) pn = php_resolve ImportModel.UseFunction declared (snd p) (fst p) pn).
  { unfold php_resolve. rewrite !bound_app by apply Later. rewrite !Kn. reflexivity. }
  rewrite Same in Po. rewrite <- (same_function_resolution _ _ _ t Sn) in Po.
  unfold hover. rewrite (found_here pos _ a Ne Lo (in_preorder _ _ Ia)) by (rewrite ?Ka; auto). rewrite At, Ka, Na, Nt, Sa. fold known. rewrite Po.
  destruct (function_shown markdown TOK root h st OK RUN (php_resolve ImportModel.UseFunction declared (snd p) (fst p) pn)) as (text & -> & S). exists text. split; [reflexivity|exact S].
Qed.
Print Assumptions C88_functions_partial.

(** Of the name of a constant the constant is shown that PHP takes it for. *)
Theorem C88_constants_partial : forall {TX : Text} {TR : TrimSpace} {X : XorFilter} markdown root h st d s before m after n at_ pn declared pos fuel,
  opened root h st d s -> between d before m after pos -> reads_in d m n -> uses d n AConstantAccess (text pn) at_ ->
  let p := fold_left behind before ([], []) in
  valid pn -> ~ builtin (text pn) -> spelled_alike (snd p ++ uses_ahead after) (first pn) -> not_shadowed ImportModel.UseConst (snd p) pn ->
  (rest pn <> [] -> php_bound (snd p) ImportModel.UseClass (first pn) = None) ->
  (forall k, php_bound (uses_ahead after) k (first pn) = None) ->
  (forall f, declared f = true <-> exists x, current h x /\ (wanted (QConst f) x \/ wanted (QDefine f) x)) -> unambiguous declared (fst p) pn ->
  cursor_on d (st_out s) pos AConstantAccess at_ ->
  let fqn := php_resolve ImportModel.UseConst declared (snd p) (fst p) pn in
  exists shown, hover markdown fuel st s pos = Some (Some (Hover (NodeRange d at_) shown)) /\ shows_all markdown h [QConst fqn; QDefine fqn] shown.
Proof.
  intros TX TR X markdown root h st d s before m after n at_ pn declared pos fuel (TOK & OK & RUN & E & Out) (It & Ns & Ord) R U p V Nb Sp Sh Q Later De Un (Ne & Lo & Al) fqn.
  assert (Im : In (IStatement m) (items d)) by (rewrite It; apply in_or_app; right; left; reflexivity).
  assert (Ac : exists a, In a (flat_map symbols_in (st_out s)) /\ a_kind a = AConstantAccess /\ ts_original (a_name a) = text pn /\ sits_at d at_ a).
  { apply (uses_reported TX TR d s n AConstantAccess (text pn) at_ E); [|exact U]. destruct (item_read d m Im) as (k & Ik & Rk). exists k. split; [exact Ik|exact (reads_in_trans d _ _ _ Rk R)]. }
  destruct Ac as (a & Ia & Ka & Na & Sa).
  destruct (table_at d s before m after pos E Out It Ns Ord) as (D & table & At & Sn). fold p in D, Sn.
  set (is_const := fun f => any (GetConsts st f)). set (is_define := fun f => any (GetDefines st f)).
  assert (Kn : forall f, is_const f || is_define f = declared f).
  { intros f. apply eq_true_iff_eq. rewrite orb_true_iff, De. unfold is_const, is_define. rewrite (any_const TOK root h st OK RUN), (any_define TOK root h st OK RUN). split.
    - intros [(x & C & W)|(x & C & W)]; exists x; auto.
    - intros (x & C & [W|W]); [left|right]; exists x; auto. }
  destruct (C32_constant_names_partial zero_pos (fst p) (snd p ++ uses_ahead after) pn is_const is_define D V Nb Sp) as (t & Nt & Po).
  { unfold not_shadowed in *. intros Ab. rewrite bound_app by apply Later. exact (Sh Ab). }
  { unfold unambiguous in *. destruct (rest pn); rewrite !Kn; exact Un. }
  { intros Nr. rewrite bound_app by apply Later. exact (Q Nr). }
  assert (Same : php_resolve ImportModel.UseConst (fun f => is_const f || is_define f) (snd p ++ uses_ahead after) (fst p) pn = fqn).
  { unfold fqn, php_resolve. rewrite !bound_app by apply Later. rewrite !Kn. reflexivity. }
  rewrite Same in Po. rewrite <- (same_const_resolution _ _ _ _ t Sn) in Po.
  unfold hover. rewrite (found_here pos _ a Ne Lo (in_preorder _ _ Ia)) by (rewrite ?Ka; auto). rewrite At, Ka, Na, Nt, Sa. fold is_const. fold is_define. rewrite Po.
  destruct (shown_more markdown h [QConst fqn] [QDefine fqn] (formatted (format_const markdown) (GetConsts st fqn)) [formatted (format_define markdown) (GetDefines st fqn)]) as (text & Et & S).
  - intros q1 q2 x [<-|[]] [<-|[]]; destruct x; cbn; tauto.
  - apply (const_shown markdown TOK root h st OK RUN).
  - apply (shown_more markdown h [_] []); [intros q1 q2 x _ []|apply (define_shown markdown TOK root h st OK RUN)|apply shown_none].
  - cbv zeta. rewrite Et. exists text. split; [reflexivity|exact S].
Qed.
Print Assumptions C88_constants_partial.

(** Of [new X] the constructor is shown with the class that declares it or, if
    there is none that is public, the class.  What is missing: two class-likes
    with the same name. *)
Theorem C88_new_partial : forall {TX : Text} {TR : TrimSpace} {X : XorFilter} markdown root h st d s before m after n name at_ pn declared pos,
  opened root h st d s -> unique_names h -> between d before m after pos -> reads_in d m n -> uses d n AClassTypeDesignator name at_ -> names_class AClassTypeDesignator name at_ ->
  let p := fold_left behind before ([], []) in
  let fqn := php_resolve ImportModel.UseClass declared (snd p) (fst p) pn in
  let w := QueryHistorySpec.workspace h (method_named h) in
  named d at_ (text pn) -> valid pn -> ~ builtin (text pn) -> spelled_alike (snd p) (first pn) -> not_shadowed ImportModel.UseClass (snd p) pn ->
  cursor_on d (st_out s) pos AClassTypeDesignator at_ ->
  exists enough shown, (forall fuel, enough <= fuel -> hover markdown fuel st s pos = Some (Some (Hover (NodeRange d at_) shown))) /\
    ((forall c, ~ class_named h fqn c) -> shown = []) /\
    forall c, class_named h fqn c ->
      (exists m sc, belongs w c (B "__construct") m sc /\ m_visibility m = Public
        /\ (forall m' sc', belongs w c (B "__construct") m' sc' -> overrides w c sc' sc -> m_visibility m' <> Public) /\ shows_member markdown (method_head m) sc shown)
      \/ ((forall m sc, belongs w c (B "__construct") m sc -> m_visibility m <> Public) /\ shows markdown (head (SClass c)) shown).
Proof.
  intros TX TR X markdown root h st d s before m after n name at_ pn declared pos Op Un Bt R U Nc p fqn w Nm V Nb Sp Sh Cu.
  destruct (class_on root h st d s before m after n _ name at_ pn declared pos Op Bt R U Nc Nm V Nb Sp Sh eq_refl Cu) as (a & t & Ha & Ka & Ty & Ft & Ra).
  destruct Op as (TOK & OK & RUN & _). fold p in Ft. fold fqn in Ft.
  assert (Cs : exists cs, Query_GetClasses st fqn = Some cs /\ NoDup cs /\ forall c, In c cs <-> class_named h fqn c).
  { destruct (classes_exact TOK root h st OK RUN fqn) as (l & A & E). cbn [ask] in A. pose proof (db_class TOK root h st OK RUN (fun _ _ => @nil Symbols.method) fqn) as Dc.
    pose proof (db_classes_nodup TOK root h st OK RUN (fun _ _ => @nil Symbols.method) fqn) as Nd. cbn [store_db db_classes] in Dc, Nd. destruct (Query_GetClasses st fqn) as [cs|]; [|discriminate A].
    exists cs. split; [reflexivity|]. split; [exact Nd|exact Dc]. }
  destruct Cs as (cs & Gc & Nd & Ic).
  assert (One : cs = [] \/ exists c, cs = [c]).
  { destruct cs as [|c [|c' cs]]; [left; reflexivity|right; exists c; reflexivity|exfalso]. inversion Nd as [|? ? Nc' _]; subst. apply Nc'. left.
    destruct (proj1 (Ic c)) as (C1 & N1); [left; reflexivity|]. destruct (proj1 (Ic c')) as (C2 & N2); [right; left; reflexivity|]. apply (u_class h Un); auto.
    apply (same_class_name_iff TOK). apply (same_class_name_iff TOK) in N1, N2. congruence. }
  assert (Hv : forall fuel, hover markdown fuel st s pos = option_map (fun text => Some (Hover (NodeRange d at_) text))
    (match all_constructors fuel st NewQuery cs with None => None | Some [] => Some (concat (map (format_class markdown) cs)) | Some l => Some (concat (map (format_with (format_method markdown)) l)) end)).
  { intros fuel. unfold hover. rewrite Ha, Ka, Ty, Ra. unfold all_classes. cbn [map concat_opt]. rewrite Ft, Gc. cbn [concat_opt]. rewrite app_nil_r. reflexivity. }
  destruct One as [->|(c & ->)].
  - exists 0, []. split; [intros fuel _; rewrite Hv; reflexivity|]. split; [reflexivity|]. intros c Hc. apply Ic in Hc. destruct Hc.
  - destruct (proj1 (Ic c) (or_introl eq_refl)) as (Cc & Nc'). destruct (C38_constructor_partial TX X root h st c TOK OK RUN Un Cc) as (enough & q & r & G & S). fold w in S.
    destruct (ReduceFirst r) as [x|] eqn:Rf.
    + exists enough. eexists. split; [intros fuel L; rewrite Hv; cbn [all_constructors]; rewrite (G fuel L), Rf; reflexivity|]. split; [intros N; exfalso; apply (N c); split; assumption|].
      intros c' Hc. apply Ic in Hc as [<-|[]]. left. destruct S as (Bx & Vx & Ov). exists (ws_member x), (ws_scope x). split; [exact Bx|]. split; [exact Vx|]. split; [exact Ov|].
      cbn [map concat]. rewrite app_nil_r. apply method_formatted.
    + exists enough. eexists. split; [intros fuel L; rewrite Hv; cbn [all_constructors]; rewrite (G fuel L), Rf; reflexivity|]. split; [intros N; exfalso; apply (N c); split; assumption|].
      intros c' Hc. apply Ic in Hc as [<-|[]]. right. split; [exact S|]. cbn [map concat]. rewrite app_nil_r. apply class_formatted.
Qed.
Print Assumptions C88_new_partial.

(** Whatever is under the cursor, each part of what is shown shows a declaration
    of the workspace, and there is a symbol under the cursor, of which the editor
    is told where it is.  What is missing: the uses of members (below) and variables. *)
Definition shows_declared {TX : Text} (markdown : gostr -> gostr) (h : list event) (part : gostr) : Prop :=
  (exists x, current h x /\ shows markdown (head x) part) \/ (exists m sc, current h (SMethod m) /\ shows_member markdown (method_head m) sc part).
Section Nothing_else.
Context {TX : Text} {X : XorFilter}.
Variable markdown : gostr -> gostr.
Variables (root : gostr) (h : list event) (st : store).
Hypothesis TOK : text_ok TX.
Hypothesis OK : Forall event_ok h.
Hypothesis RUN : run root h = Some st.
Definition in_parts (text : gostr) : Prop := exists parts, text = concat parts /\ Forall (shows_declared markdown h) parts.
Lemma parts_of : forall qs found text, shown_for markdown h qs found -> found = Some text -> in_parts text.
Proof.
  intros qs found text (text' & -> & xs & ts & -> & F & _ & So & _) E. injection E as <-. exists ts. split; [reflexivity|].
  assert (C : Forall (current h) xs) by (apply Forall_forall; intros x I; exact (proj1 (So x I))). clear So. induction F as [|x t xs ts S F IH]; constructor.
  - left. exists x. inversion C; subst. auto.
  - apply IH. inversion C; assumption.
Qed.
Lemma parts_concat : forall ls text, concat_opt ls = Some text -> (forall o text, In o ls -> o = Some text -> in_parts text) -> in_parts text.
Proof.
  induction ls as [|o ls IH]; intros text E H; [injection E as <-; exists []; split; [reflexivity|constructor]|]. cbn [concat_opt] in E.
  destruct o as [x|]; [|discriminate E]. destruct (concat_opt ls) as [y|]; [|discriminate E]. injection E as <-.
  destruct (H (Some x) x (or_introl eq_refl) eq_refl) as (p1 & -> & F1). destruct (IH y eq_refl) as (p2 & -> & F2); [intros o t I; apply H; right; exact I|].
  exists (p1 ++ p2). split; [rewrite concat_app; reflexivity|apply Forall_app; auto].
Qed.
Definition kept_method (m : Symbols.method) : Prop := exists y, current h (SMethod y) /\ keep (SMethod y) = SMethod m.
Lemma method_head_kept : forall y m code description, keep (SMethod y) = SMethod m -> method_head m code description -> method_head y code description.
Proof.
  intros y m code description E (v & static & call & Ec & V & S & C & D). injection E as <-. exists v, static, call. split; [exact Ec|]. split; [exact V|]. split; [exact S|]. split; [|exact D].
  apply callable_kept. exact C.
Qed.
Lemma all_constructors_sound : forall fuel cs q l, clean (B "__construct") kept_method q -> Forall (fun c => current h (SClass c)) cs -> all_constructors fuel st q cs = Some l ->
  Forall (fun x => kept_method (ws_member x)) l.
Proof.
  intros fuel. induction cs as [|c cs IH]; intros q l Sq C E; cbn [all_constructors] in E; [injection E as <-; constructor|]. inversion C as [|c0 cs0 C0 Cs]; subst.
  destruct (GetClassMethods _ _ _ _ _ _) as [(q1, r)|] eqn:G; [|discriminate E].
  assert (SW : same_world no_nul (B "__construct") (method_db st) (QueryHistorySpec.workspace h (method_named h))).
  { apply (store_world TOK root h st OK RUN). intros scope m NS. apply (db_method TOK root h st OK RUN); [assumption|vm_compute; intuition discriminate]. }
  destruct SW as (_ & _ & _ & Mm & Oc & Oi & Ot).
  assert (NC : ~ In NUL (ts_fqn (Symbols.c_name c))) by (apply (current_names TOK _ _ OK C0); left; reflexivity).
  apply (class_clean false true true (method_db st) (B "__construct") no_nul kept_method) in G as (C1 & Cr); [|exact Oc|exact Oi|exact Ot| |exact NC|exact Sq].
  - destruct (all_constructors fuel st q1 cs) as [l'|] eqn:E1; [|discriminate E]. injection E as <-. specialize (IH _ _ C1 Cs E1).
    destruct (ReduceFirst r) as [x|] eqn:Rf; [|exact IH]. constructor; [|exact IH]. unfold ReduceFirst in Rf. apply find_some in Rf as (Ix & _). unfold clean_members in Cr. rewrite Forall_forall in Cr. exact (Cr x Ix).
  - intros sc m O I. apply (Mm sc m O) in I as ((y & Cy & Ky) & _). destruct y; try discriminate Ky. exists s. split; [exact Cy|symmetry; exact Ky].
Qed.
End Nothing_else.
Theorem C88_nothing_else_partial : forall {TX : Text} {X : XorFilter} markdown root h st s pos fuel r shown,
  text_ok TX -> Forall event_ok h -> run root h = Some st -> hover markdown fuel st s pos = Some (Some (Hover r shown)) ->
  (exists a, In a (flat_map preorder (st_out s)) /\ has_types (a_kind a) = true /\ touches pos (a_range a) /\ r = a_range a)
  /\ exists parts, shown = concat parts /\ Forall (shows_declared markdown h) parts.
Proof.
  intros TX X markdown root h st s pos fuel r shown TOK OK RUN D. unfold hover in D. destruct (HasTypesAtPos (st_out s) pos) as [a|] eqn:Ha; [|discriminate D]. apply found_sound in Ha as (Ia & Ta & Oa).
  match type of D with option_map _ ?o = _ => destruct o as [text|] eqn:E end; [|discriminate D]. injection D as <- <-. split; [exists a; auto|].
  change (in_parts markdown h text).
  assert (Cl : forall n o text, o = formatted (format_class markdown) (Query_GetClasses st n) -> o = Some text -> in_parts markdown h text) by (intros n o x -> H; exact (parts_of markdown h _ _ _ (class_shown markdown TOK root h st OK RUN n) H)).
  assert (It : forall n o text, o = formatted (format_interface markdown) (GetInterfaces st n) -> o = Some text -> in_parts markdown h text) by (intros n o x -> H; exact (parts_of markdown h _ _ _ (interface_shown markdown TOK root h st OK RUN n) H)).
  assert (Tw : forall types, concat_opt [concat_opt (map (fun t => formatted (format_class markdown) (Query_GetClasses st (ts_fqn t))) types);
                    concat_opt (map (fun t => formatted (format_interface markdown) (GetInterfaces st (ts_fqn t))) types)] = Some text -> in_parts markdown h text).
  { intros types H. apply (parts_concat _ _ _ _ H). intros o x [<-|[<-|[]]] Eo; apply (parts_concat _ _ _ _ Eo); intros o' x' Io Eo'; apply in_map_iff in Io as (t & <- & _); eauto. }
  assert (None_ : in_parts markdown h []) by (exists []; split; [reflexivity|constructor]).
  destruct (a_kind a); try discriminate E; try (injection E as <-; exact None_); try exact (Tw _ E).
  all: try (destruct (ImportTableAtPos (st_imports s) pos) as [table|]; [|discriminate E]; destruct (NewTypeString (ts_original (a_name a))) as [nm|]; [|discriminate E]).
  all: try exact (parts_of markdown h _ _ _ (function_shown markdown TOK root h st OK RUN _) E).
  all: try (apply (parts_concat _ _ _ _ E); intros o x Io Eo; apply in_map_iff in Io as (t & <- & _)).
  all: try exact (It _ _ _ eq_refl Eo). all: try exact (parts_of markdown h _ _ _ (trait_shown markdown TOK root h st OK RUN _) Eo).
  - destruct (all_classes st (a_types a)) as [cs|] eqn:Ec; [|discriminate E].
    assert (Cc : Forall (fun c => current h (SClass c)) cs).
    { clear E. unfold all_classes in Ec. revert cs Ec. induction (a_types a) as [|t types IH]; intros cs Ec; [injection Ec as <-; constructor|]. cbn [map concat_opt] in Ec.
      pose proof (db_class TOK root h st OK RUN (fun _ _ => @nil Symbols.method) (ts_fqn t)) as Dc. cbn [store_db db_classes] in Dc.
      destruct (Query_GetClasses st (ts_fqn t)) as [c1|]; [|discriminate Ec]. destruct (concat_opt _) as [c2|]; [|discriminate Ec]. injection Ec as <-. apply Forall_app. split; [|exact (IH _ eq_refl)].
      apply Forall_forall. intros c I. apply (proj1 (Dc c)) in I. exact (proj1 I). }
    destruct (all_constructors fuel st NewQuery cs) as [l|] eqn:El; [|discriminate E].
    pose proof (all_constructors_sound markdown root h st TOK OK RUN fuel cs NewQuery l (clean_new _ _) Cc El) as Fl.
    destruct l as [|x l].
    + injection E as <-. exists (map (format_class markdown) cs). split; [reflexivity|]. apply Forall_map. revert Cc. apply Forall_impl. intros c C. left. exists (SClass c). split; [exact C|apply class_formatted].
    + injection E as <-. exists (map (format_with (format_method markdown)) (x :: l)). split; [reflexivity|]. apply Forall_map. revert Fl. apply Forall_impl. intros y (m & Cm & Km). right. exists m, (ws_scope y). split; [exact Cm|].
      unfold format_with. destruct (method_formatted markdown (ws_member y) (ws_scope y)) as (code & description & more & Hh & R). exists code, description, more. split; [exact (method_head_kept _ _ _ _ Km Hh)|exact R].
  - apply (parts_concat _ _ _ _ E). intros o x [<-|[<-|[]]] Eo; [exact (parts_of markdown h _ _ _ (const_shown markdown TOK root h st OK RUN _) Eo)|exact (parts_of markdown h _ _ _ (define_shown markdown TOK root h st OK RUN _) Eo)].
Qed.
Print Assumptions C88_nothing_else_partial.

(** *** An example: [new Basket] and [pay()] of C79 *)
Example C88_hypotheses_met : exists st s, let d := file checkout in
  let before := firstn 6 (items d) in let after := skipn 7 (items d) in let p := fold_left behind before ([], []) in
  @opened ascii_text ascii_trim_space maybe_filter root_uri trade st d s /\ @unique_names ascii_text trade /\
  between d before its_return after (cursor 57) /\ @reads_in ascii_text d its_return new_basket /\
  @uses ascii_text d new_basket AClassTypeDesignator (B "Basket") the_basket /\ named d the_basket (text Basket) /\
  php_resolve ImportModel.UseClass only_pay (snd p) (fst p) Basket = B "\Lib\Basket" /\
  cursor_on d (st_out s) (cursor 57) AClassTypeDesignator the_basket /\
  @hover (fun s => s) ascii_text 9 st s (cursor 57) = Some (Some (Hover (NodeRange d the_basket) (B "```php
<?php
public function __construct()
```

____

`class \Lib\Basket`
____
"))) /\
  between d before its_return after (cursor 47) /\ @reads_in ascii_text d its_return pay_call /\
  @uses ascii_text d pay_call AFunctionCall (text pay) the_pay /\
  cursor_on d (st_out s) (cursor 47) AFunctionCall the_pay /\
  @hover (fun s => s) ascii_text 9 st s (cursor 47) = Some (Some (Hover (NodeRange d the_pay) (B "```php
<?php
function pay()
```

____
"))).
Proof.
  destruct C79_hypotheses_met as (st & s & Op & Un & B1 & R1 & U1 & N1 & _ & _ & _ & _ & _ & P1 & C1 & _ & B2 & R2 & U2 & _ & _ & _ & _ & _ & _ & C2 & _). exists st, s. cbv zeta.
  assert (E : @analyse ascii_text ascii_trim_space (file checkout) = Done tt s) by (destruct Op as (_ & _ & _ & E & _); exact E).
  assert (R : @run ascii_text maybe_filter root_uri trade = Some st) by (destruct Op as (_ & _ & R & _); exact R).
  repeat (split; [assumption|]).
  assert (Y : Done tt s = @analyse ascii_text ascii_trim_space (file checkout)) by (symmetry; exact E). vm_compute in Y. injection Y as Ys. vm_compute in R. injection R as Rs.
  split; [rewrite Ys, <- Rs; vm_compute; reflexivity|]. repeat (split; [assumption|]). rewrite Ys, <- Rs. vm_compute. reflexivity.
Qed.
