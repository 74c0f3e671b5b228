(** Claims about "go to definition". *)
From Coq Require Import String.
From Coq Require Import List Bool ZArith Lia.
From Coq.Strings Require Import Byte.
From Verif Require Import Base.Bytes Base.BytesProofs Base.Protocol Claims.Queries Symbols.Symbols Symbols.KeysModel Text.TextModel Text.PositionModel
  Types.TypesModel Types.ImportModel Types.ImportSpec Types.ImportProofs Rpc.StreamModel Rpc.StreamSpec
  Query.QueryModel Query.QueryStoreModel Query.QuerySpec Query.QueryProofs Query.QueryHistorySpec Query.QueryHistory Query.QuerySound
  Analyse.SyntaxModel Analyse.AnalyseModel Analyse.AnalyseSpec Analyse.DeclareSpec Analyse.DeclareProofs Analyse.UseSpec Analyse.UseProofs Analyse.ResolveSpec Analyse.ResolveProofs
  Analyse.RefModel Analyse.Examples
  Storage.KvModel Store.FilterModel Store.StoreModel Store.StoreSpec Store.StoreProofs Store.LookupProofs Store.LookupKinds Store.Examples
  Whole.IndexSpec Whole.IndexProofs Whole.RefSpec Whole.RefProofs Whole.CursorModel Whole.CursorSpec Whole.CursorProofs
  Whole.DefinitionModel Whole.DefinitionSpec Whole.DefinitionProofs
  Claims.Imports Claims.Analyse Claims.Uses Claims.Resolve Claims.Store Claims.Whole Claims.References Claims.Cursor.
Import ListNotations.
Open Scope list_scope.
Open Scope nat_scope.

(** ** C79 go to definition leads to what the name under the cursor means *)
(** the file is opened in a workspace with the history [h]; [m] is a statement of
    the file, [before] and [after] are the namespaces, imports and statements
    around it, and [p] the namespace and the imports in front of it *)
Definition opened {TX : Text} {TR : TrimSpace} {X : XorFilter} (root : gostr) (h : list event) (st : store) (d : document) (s : state) : Prop :=
  text_ok TX /\ Forall event_ok h /\ run root h = Some st /\ analyse d = Done tt s /\ imports_outside d.
Definition between (d : document) (before : list item) (m : node) (after : list item) (pos : position) : Prop :=
  items d = before ++ IStatement m :: after /\ (~ no_namespace before \/ no_namespace after) /\ in_order d before pos after.

Lemma in_preorder : forall l a, In a (flat_map symbols_in l) -> In a (flat_map preorder l).
Proof. intros l a H. exact H. Qed.
Lemma class_found : forall {TX : Text} {TR : TrimSpace} {X : XorFilter} root h st d s before m after n k name at_ pn declared pos,
  opened root h st d s -> between d before m after pos -> reads_in d m n -> uses d n k name at_ -> names_class k name at_ ->
  let p := fold_left behind before ([], []) in
  let fqn := php_resolve ImportModel.UseClass declared (snd p) (fst p) pn in
  named d at_ (text pn) -> valid pn -> ~ builtin (text pn) -> spelled_alike (snd p) (first pn) -> not_shadowed ImportModel.UseClass (snd p) pn ->
  has_types k = true -> cursor_on d (st_out s) pos k at_ ->
  exists a t table, HasTypesAtPos (st_out s) pos = Some a /\ a_kind a = k /\ a_types a = [t] /\ ts_fqn t = fqn /\ ImportTableAtPos (st_imports s) pos = Some table /\
    (not_renamed (snd p ++ uses_ahead after) fqn -> fst (GetClassReferenceFQN table t) = fqn).
Proof.
  intros TX TR X root h st d s before m after n k name at_ pn declared pos (TOK & OK & RUN & E & Out) (It & Ns & Ord) R U Nc p fqn Nm V Nb Sp Sh Ht (Ne & Lo & Al).
  assert (St : stands d p m) by (exists before, after; auto).
  destruct (class_symbol_of_use d s p m n k name at_ pn declared E Out St R U Nc Nm V Nb Sp Sh) as (a & t & Ia & Ka & Na & Sa & Ty & Ft).
  destruct (table_at d s before m after pos E Out It Ns Ord) as (D & table & At & Sn). fold p in D, Sn.
  exists a, t, table. split; [apply (found_here pos); auto; rewrite Ka; exact Ht|]. repeat (split; [assumption|]).
  intros Nr. destruct (resolve_full declared (snd p) (fst p) pn V) as (r & Er). fold fqn in Er, Ft. rewrite Er in *. exact (stays _ _ _ _ _ D Sn Ft Nr).
Qed.

(** The name of a class, an interface or a trait leads to all declarations of that
    class, that interface or that trait, and to nothing else.  What is missing: a
    name in front of [::] is only looked up among the classes, see also below for
    the imports that get in the way. *)
Theorem C79_class_names_partial : forall {TX : Text} {TR : TrimSpace} {X : XorFilter} root h st d s before m after n k name at_ pn declared pos fuel,
  opened root h st d s -> between d before m after pos -> reads_in d m n -> uses d n k name at_ -> names_class k name at_ ->
  let p := fold_left behind before ([], []) in
  let fqn := php_resolve ImportModel.UseClass declared (snd p) (fst p) pn in
  named d at_ (text pn) -> valid pn -> ~ builtin (text pn) -> spelled_alike (snd p) (first pn) -> not_shadowed ImportModel.UseClass (snd p) pn ->
  (k = AClassAccess \/ k = AInterfaceAccess -> not_renamed (snd p ++ uses_ahead after) fqn) ->
  k = AClassAccess \/ k = AInterfaceAccess \/ k = ATraitAccess \/ k = ATypeDeclaration -> cursor_on d (st_out s) pos k at_ ->
  leads_to h (meant k fqn) (definition fuel st s pos).
Proof.
  intros TX TR X root h st d s before m after n k name at_ pn declared pos fuel Op Bt R U Nc p fqn Nm V Nb Sp Sh Nr Kk Cu.
  assert (Ht : has_types k = true) by (decompose [or] Kk; subst; reflexivity).
  destruct (class_found root h st d s before m after n k name at_ pn declared pos Op Bt R U Nc Nm V Nb Sp Sh Ht Cu) as (a & t & table & Ha & Ka & Ty & Ft & At & St).
  destruct Op as (TOK & OK & RUN & _). fold p in Ft, St. fold fqn in Ft, St.
  unfold definition. rewrite Ha, At, Ka, Ty. apply led. clear Ka. decompose [or] Kk; subst k; cbn [meant map flat_map app].
  - rewrite St by (apply Nr; auto). apply (more_places h [_] []); [apply (class_places TOK root h st OK RUN)|apply no_places].
  - rewrite St by (apply Nr; auto). apply (more_places h [_] []); [apply (interface_places TOK root h st OK RUN)|apply no_places].
  - rewrite Ft. apply (more_places h [_] []); [apply (trait_places TOK root h st OK RUN)|apply no_places].
  - rewrite Ft. apply (more_places h [_] [_]); [apply (class_places TOK root h st OK RUN)|]. apply (more_places h [_] []); [apply (interface_places TOK root h st OK RUN)|apply no_places].
Qed.
Print Assumptions C79_class_names_partial.

(** The name of a function leads to the function PHP calls. *)
Theorem C79_functions_partial : forall {TX : Text} {TR : TrimSpace} {X : XorFilter} root h st d s before m after n at_ pn declared pos fuel,
  opened root h st d s -> between d before m after pos -> reads_in d m n -> uses d n AFunctionCall (text pn) at_ ->
  let p := fold_left behind before ([], []) in
  valid pn -> ~ builtin (text pn) -> spelled_alike (snd p ++ uses_ahead after) (first pn) -> not_shadowed ImportModel.UseFunction (snd p) pn ->
  (rest pn <> [] -> php_bound (snd p) ImportModel.UseClass (first pn) = None) ->
  (forall k, php_bound (uses_ahead after) k (first pn) = None) ->
  (forall f, declared f = true <-> exists x, current h x /\ wanted (QFunction f) x) -> unambiguous declared (fst p) pn ->
  cursor_on d (st_out s) pos AFunctionCall at_ ->
  leads_to h [QFunction (php_resolve ImportModel.UseFunction declared (snd p) (fst p) pn)] (definition fuel st s pos).
Proof.
  intros TX TR X root h st d s before m after n at_ pn declared pos fuel (TOK & OK & RUN & E & Out) (It & Ns & Ord) R U p V Nb Sp Sh Q Later De Un (Ne & Lo & Al).
  assert (Im : In (IStatement m) (items d)) by (rewrite It; apply in_or_app; right; left; reflexivity).
  destruct (call_symbol d s m n (text pn) at_ E Im R U) as (a & Ia & Ka & Na & Sa).
  destruct (table_at d s before m after pos E Out It Ns Ord) as (D & table & At & Sn). fold p in D, Sn.
  set (known := fun f => any (GetFunctions st f)).
  assert (Kn : forall f, known f = declared f).
  { intros f. apply eq_true_iff_eq. unfold known. rewrite De. apply (any_function TOK root h st OK RUN). }
  destruct (C32_function_names_partial zero_pos (fst p) (snd p ++ uses_ahead after) pn known D V Nb Sp) as (t & Nt & Po).
  { unfold not_shadowed in *. intros Ab. rewrite bound_app by apply Later. exact (Sh Ab). }
  { unfold unambiguous in *. destruct (rest pn); rewrite !Kn; exact Un. }
  { intros Nr. rewrite bound_app by apply Later. exact (Q Nr). }
  assert (Same : php_resolve ImportModel.UseFunction known (snd p ++ uses_ahead after) (fst p) pn = php_resolve ImportModel.UseFunction declared (snd p) (fst p) pn).
  { unfold php_resolve. rewrite !bound_app by apply Later. rewrite !Kn. reflexivity. }
  rewrite Same in Po. rewrite <- (same_function_resolution _ _ _ t Sn) in Po.
  unfold definition. rewrite (found_here pos _ a Ne Lo (in_preorder _ _ Ia)) by (rewrite ?Ka; auto). rewrite At, Ka, Na, Nt. apply led. fold known. rewrite Po.
  apply (function_places TOK root h st OK RUN).
Qed.
Print Assumptions C79_functions_partial.

(** The name of a constant leads to the constant PHP takes it for. *)
Theorem C79_constants_partial : forall {TX : Text} {TR : TrimSpace} {X : XorFilter} root h st d s before m after n at_ pn declared pos fuel,
  opened root h st d s -> between d before m after pos -> reads_in d m n -> uses d n AConstantAccess (text pn) at_ ->
  let p := fold_left behind before ([], []) in
  valid pn -> ~ builtin (text pn) -> spelled_alike (snd p ++ uses_ahead after) (first pn) -> not_shadowed ImportModel.UseConst (snd p) pn ->
  (rest pn <> [] -> php_bound (snd p) ImportModel.UseClass (first pn) = None) ->
  (forall k, php_bound (uses_ahead after) k (first pn) = None) ->
  (forall f, declared f = true <-> exists x, current h x /\ (wanted (QConst f) x \/ wanted (QDefine f) x)) -> unambiguous declared (fst p) pn ->
  cursor_on d (st_out s) pos AConstantAccess at_ ->
  let fqn := php_resolve ImportModel.UseConst declared (snd p) (fst p) pn in
  leads_to h [QConst fqn; QDefine fqn] (definition fuel st s pos).
Proof.
  intros TX TR X root h st d s before m after n at_ pn declared pos fuel (TOK & OK & RUN & E & Out) (It & Ns & Ord) R U p V Nb Sp Sh Q Later De Un (Ne & Lo & Al) fqn.
  assert (Im : In (IStatement m) (items d)) by (rewrite It; apply in_or_app; right; left; reflexivity).
  assert (Ac : exists a, In a (flat_map symbols_in (st_out s)) /\ a_kind a = AConstantAccess /\ ts_original (a_name a) = text pn /\ sits_at d at_ a).
  { apply (uses_reported TX TR d s n AConstantAccess (text pn) at_ E); [|exact U]. destruct (item_read d m Im) as (k & Ik & Rk). exists k. split; [exact Ik|exact (reads_in_trans d _ _ _ Rk R)]. }
  destruct Ac as (a & Ia & Ka & Na & Sa).
  destruct (table_at d s before m after pos E Out It Ns Ord) as (D & table & At & Sn). fold p in D, Sn.
  set (is_const := fun f => any (GetConsts st f)). set (is_define := fun f => any (GetDefines st f)).
  assert (Kn : forall f, is_const f || is_define f = declared f).
  { intros f. apply eq_true_iff_eq. rewrite orb_true_iff, De. unfold is_const, is_define. rewrite (any_const TOK root h st OK RUN), (any_define TOK root h st OK RUN). split.
    - intros [(x & C & W)|(x & C & W)]; exists x; auto.
    - intros (x & C & [W|W]); [left|right]; exists x; auto. }
  destruct (C32_constant_names_partial zero_pos (fst p) (snd p ++ uses_ahead after) pn is_const is_define D V Nb Sp) as (t & Nt & Po).
  { unfold not_shadowed in *. intros Ab. rewrite bound_app by apply Later. exact (Sh Ab). }
  { unfold unambiguous in *. destruct (rest pn); rewrite !Kn; exact Un. }
  { intros Nr. rewrite bound_app by apply Later. exact (Q Nr). }
  assert (Same : php_resolve ImportModel.UseConst (fun f => is_const f || is_define f) (snd p ++ uses_ahead after) (fst p) pn = fqn).
  { unfold fqn, php_resolve. rewrite !bound_app by apply Later. rewrite !Kn. reflexivity. }
  rewrite Same in Po. rewrite <- (same_const_resolution _ _ _ _ t Sn) in Po.
  unfold definition. rewrite (found_here pos _ a Ne Lo (in_preorder _ _ Ia)) by (rewrite ?Ka; auto). rewrite At, Ka, Na, Nt. apply led. fold is_const. fold is_define. rewrite Po.
  apply (more_places h [_] [_]); [apply (const_places TOK root h st OK RUN)|]. apply (more_places h [_] []); [apply (define_places TOK root h st OK RUN)|apply no_places].
Qed.
Print Assumptions C79_constants_partial.

(** [new] leads to the constructor of the class or, if it has none that is public,
    to the class. *)
Lemma ancestors_current : forall {TX : Text} h c d, current h (SClass c) -> ancestor (QueryHistorySpec.workspace h (method_named h)) c d -> current h (SClass d).
Proof. intros TX h c d C A. destruct A as [|d p _ (_ & P)]; [exact C|]. exact (proj1 P). Qed.
Lemma self_nearer : forall {TX : Text} h c d, text_ok TX -> unique_names h -> current h (SClass c) -> ancestor (QueryHistorySpec.workspace h (method_named h)) c d ->
  d = c \/ nearer (QueryHistorySpec.workspace h (method_named h)) c c d.
Proof.
  intros TX h c d TOK Un C A. destruct (str_eqb (ts_fqn (Symbols.c_name d)) (ts_fqn (Symbols.c_name c))) eqn:E.
  - left. apply str_eqb_eq in E. apply (u_class h Un); [exact (ancestors_current h c d C A)|exact C|]. rewrite E. left. reflexivity.
  - right. exists 0. split; [constructor|]. intros j G. destruct j; [|lia]. inversion G; subst. rewrite str_eqb_refl in E. discriminate E.
Qed.
Lemma constructor_found : forall {TX : Text} {X : XorFilter} root h st c, text_ok TX -> Forall event_ok h -> run root h = Some st -> unique_names h -> current h (SClass c) ->
  exists n q loc, (forall fuel, n <= fuel -> constructor_or_class fuel st NewQuery c = Some (q, loc)) /\ constructed_at h c loc.
Proof.
  intros TX X root h st c TOK OK RUN Un C. destruct (C38_constructor_partial TX X root h st c TOK OK RUN Un C) as (n & q & r & G & S).
  set (w := QueryHistorySpec.workspace h (method_named h)) in *.
  eexists n, q, _. split; [intros fuel L; unfold constructor_or_class; rewrite (G fuel L); reflexivity|]. cbv beta.
  assert (Own : forall m, constructor h c m -> exists m', belongs w c (B "__construct") m' (ScClass c) /\ m_visibility m' = Public).
  { intros m (Cm & Sm & Nm & Vm). eexists. split; [apply own_member; [constructor|]; split; [exists (SMethod m); split; [exact Cm|reflexivity]|]; split; [exact Sm|right; exact Nm]|exact Vm]. }
  destruct (ReduceFirst r) as [x|].
  - destruct S as (Bx & Vx & Ov). destruct (str_eqb (ts_fqn (m_scope (ws_member x))) (ts_fqn (Symbols.c_name c))) eqn:E.
    + left. apply str_eqb_eq in E. assert (Ix : exists sc, method_named h sc (B "__construct") (ws_member x)) by (destruct Bx as [d mx A Mx|d t mx A Ut Mx|d i j mx A Im Si Mx]; eexists; exact Mx).
      destruct Ix as (sc & (s & Cs & Ks) & _ & Nx). destruct s; try discriminate Ks. cbn in Ks. injection Ks as Ks. rewrite Ks in *. exists s. split; [|reflexivity].
      split; [exact Cs|]. split; [exact E|]. split; [|exact Vx]. destruct Nx as [Nx|Nx]; [discriminate Nx|exact Nx].
    + right. split; [|reflexivity]. intros m Cm. destruct (Own m Cm) as (m' & Bm & Vm). refine (Ov m' (ScClass c) Bm _ Vm).
      destruct Bx as [d mx A Mx|d t mx A Ut Mx|d i j mx A Im Si Mx]; cbn [overrides].
      * destruct (self_nearer h c d TOK Un C A) as [->|Nr]; [|exact Nr]. destruct Mx as (_ & Mx & _). rewrite Mx, str_eqb_refl in E. discriminate E.
      * split; [constructor|]. intros d' A' _. exact (self_nearer h c d' TOK Un C A').
      * constructor.
  - right. split; [|reflexivity]. intros m Cm. destruct (Own m Cm) as (m' & Bm & Vm). exact (S m' (ScClass c) Bm Vm).
Qed.
Theorem C79_new_partial : forall {TX : Text} {TR : TrimSpace} {X : XorFilter} root h st d s before m after n name at_ pn declared pos,
  opened root h st d s -> unique_names h -> between d before m after pos -> reads_in d m n -> uses d n AClassTypeDesignator name at_ -> names_class AClassTypeDesignator name at_ ->
  let p := fold_left behind before ([], []) in
  let fqn := php_resolve ImportModel.UseClass declared (snd p) (fst p) pn in
  named d at_ (text pn) -> valid pn -> ~ builtin (text pn) -> spelled_alike (snd p) (first pn) -> not_shadowed ImportModel.UseClass (snd p) pn ->
  not_renamed (snd p ++ uses_ahead after) fqn -> cursor_on d (st_out s) pos AClassTypeDesignator at_ ->
  exists enough l, (forall fuel, enough <= fuel -> definition fuel st s pos = Some l) /\
    (forall loc, In loc l -> can_open loc /\ exists c, class_named h fqn c /\ constructed_at h c loc) /\
    (forall c, class_named h fqn c -> exists loc, constructed_at h c loc /\ (can_open loc -> In loc l)).
Proof.
  intros TX TR X root h st d s before m after n name at_ pn declared pos Op Un Bt R U Nc p fqn Nm V Nb Sp Sh Nr Cu.
  destruct (class_found root h st d s before m after n _ name at_ pn declared pos Op Bt R U Nc Nm V Nb Sp Sh eq_refl Cu) as (a & t & table & Ha & Ka & Ty & Ft & At & St).
  destruct Op as (TOK & OK & RUN & _). fold p in St. fold fqn in St. specialize (St Nr).
  assert (Cs : exists cs, Query_GetClasses st fqn = Some cs /\ NoDup cs /\ forall c, In c cs <-> class_named h fqn c).
  { destruct (classes_exact TOK root h st OK RUN fqn) as (l & A & E). cbn [ask] in A. pose proof (db_class TOK root h st OK RUN (fun _ _ => @nil Symbols.method) fqn) as Dc.
    pose proof (db_classes_nodup TOK root h st OK RUN (fun _ _ => @nil Symbols.method) fqn) as Nd. cbn [store_db db_classes] in Dc, Nd. destruct (Query_GetClasses st fqn) as [cs|]; [|discriminate A].
    exists cs. split; [reflexivity|]. split; [exact Nd|exact Dc]. }
  destruct Cs as (cs & Gc & Nd & Ic).
  assert (One : cs = [] \/ exists c, cs = [c]).
  { destruct cs as [|c [|c' cs]]; [left; reflexivity|right; exists c; reflexivity|exfalso]. inversion Nd as [|? ? Nc' _]; subst. apply Nc'. left.
    destruct (proj1 (Ic c)) as (C1 & N1); [left; reflexivity|]. destruct (proj1 (Ic c')) as (C2 & N2); [right; left; reflexivity|]. apply (u_class h Un); auto.
    apply (same_class_name_iff TOK). apply (same_class_name_iff TOK) in N1, N2. congruence. }
  assert (Def : forall fuel, definition fuel st s pos = option_map (List.filter (fun loc => IsURINavigatable (l_uri loc)))
    (match constructors_or_classes fuel st NewQuery cs with None => None | Some (_, locs) => Some (locs ++ []) end)).
  { intros fuel. unfold definition. rewrite Ha, At, Ka, Ty. cbn [designated]. rewrite St, Gc. destruct (constructors_or_classes fuel st NewQuery cs) as [(q, locs)|]; reflexivity. }
  destruct One as [->|(c & ->)].
  - exists 0, []. split; [intros fuel _; rewrite Def; reflexivity|]. split; [intros loc []|]. intros c Hc. apply Ic in Hc. destruct Hc.
  - destruct (proj1 (Ic c) (or_introl eq_refl)) as (Cc & Nc'). destruct (constructor_found root h st c TOK OK RUN Un Cc) as (enough & q & loc & Fc & Co).
    exists enough, (List.filter (fun loc => IsURINavigatable (l_uri loc)) [loc]). split; [intros fuel L; rewrite Def; cbn [constructors_or_classes]; rewrite (Fc fuel L); reflexivity|]. split.
    + intros loc' I. apply filter_In in I as ([<-|[]] & Nv). split; [apply can_open_iff; exact Nv|]. exists c. split; [split; assumption|exact Co].
    + intros c' Hc. apply Ic in Hc as [<-|[]]. exists loc. split; [exact Co|]. intros O. apply filter_In. split; [left; reflexivity|apply can_open_iff; exact O].
Qed.
Print Assumptions C79_new_partial.

(** Whatever is under the cursor, an answer is the place of a declaration of the
    workspace that an editor can open, and there is a symbol under the cursor.
    What is missing: the uses of members. *)
Definition declared_place {TX : Text} (h : list event) (loc : location) : Prop := exists x, current h x /\ location_of x = loc.
Lemma placed_all : forall {TX : Text} h qs found l, at_places h qs found -> found = Some l -> Forall (declared_place h) l.
Proof.
  intros TX h qs found l (l' & -> & E) H. injection H as ->. apply Forall_forall. intros loc I. apply E in I as (q & _ & x & C & _ & L). exists x. auto.
Qed.
Lemma concat_all : forall (P : location -> Prop) ls l, concat_opt ls = Some l -> (forall o l, In o ls -> o = Some l -> Forall P l) -> Forall P l.
Proof.
  intros P. induction ls as [|o ls IH]; intros l E H; [injection E as <-; constructor|]. cbn [concat_opt] in E.
  destruct o as [x|]; [|discriminate E]. destruct (concat_opt ls) as [y|]; [|discriminate E]. injection E as <-. apply Forall_app. split.
  - exact (H (Some x) x (or_introl eq_refl) eq_refl).
  - apply (IH y eq_refl). intros o l I. exact (H o l (or_intror I)).
Qed.
Section Nothing_else.
Context {TX : Text} {X : XorFilter}.
Variables (root : gostr) (h : list event) (st : store).
Hypothesis TOK : text_ok TX.
Hypothesis OK : Forall event_ok h.
Hypothesis RUN : run root h = Some st.
Definition is_method (m : Symbols.method) : Prop := declared_place h (m_location m).
Definition sound_query : QueryModel.query Symbols.method -> Prop := clean (B "__construct") is_method.
Lemma constructor_sound : forall fuel q c q' loc, sound_query q -> current h (SClass c) -> constructor_or_class fuel st q c = Some (q', loc) -> sound_query q' /\ declared_place h loc.
Proof.
  intros fuel q c q' loc Sq C E. unfold constructor_or_class in E. destruct (GetClassMethods _ _ _ _ _ _) as [(q1, r)|] eqn:G; [|discriminate E]. injection E as <- <-.
  assert (SW : same_world no_nul (B "__construct") (method_db st) (QueryHistorySpec.workspace h (method_named h))).
  { apply (store_world TOK root h st OK RUN). intros scope m NS. apply (db_method TOK root h st OK RUN); [assumption|vm_compute; intuition discriminate]. }
  destruct SW as (_ & _ & _ & Mm & Oc & Oi & Ot).
  assert (NC : ~ In NUL (ts_fqn (Symbols.c_name c))) by (apply (current_names TOK _ _ OK C); left; reflexivity).
  apply (class_clean false true true (method_db st) (B "__construct") no_nul is_method) in G as (C1 & Cr); [|exact Oc|exact Oi|exact Ot| |exact NC|exact Sq].
  - split; [exact C1|]. assert (Hc : declared_place h (c_location c)) by (exists (SClass c); auto). destruct (ReduceFirst r) as [x|] eqn:Rf; [|exact Hc]. destruct (str_eqb _ _); [|exact Hc].
    unfold ReduceFirst in Rf. apply find_some in Rf as (Ix & _). unfold clean_members in Cr. rewrite Forall_forall in Cr. exact (Cr x Ix).
  - intros sc m O I. apply (Mm sc m O) in I as ((y & Cy & Ky) & _). exists y. split; [exact Cy|]. destruct y; try discriminate Ky. cbn in Ky. injection Ky as ->. reflexivity.
Qed.
Lemma constructors_sound : forall fuel cs q q' locs, sound_query q -> Forall (fun c => current h (SClass c)) cs -> constructors_or_classes fuel st q cs = Some (q', locs) ->
  sound_query q' /\ Forall (declared_place h) locs.
Proof.
  intros fuel. induction cs as [|c cs IH]; intros q q' locs Sq C E; cbn [constructors_or_classes] in E; [injection E as <- <-; auto|]. inversion C; subst.
  destruct (constructor_or_class fuel st q c) as [(q1, loc)|] eqn:E1; [|discriminate E]. destruct (constructor_sound _ _ _ _ _ Sq H1 E1) as (S1 & L1).
  destruct (constructors_or_classes fuel st q1 cs) as [(q2, locs2)|] eqn:E2; [|discriminate E]. destruct (IH _ _ _ S1 H2 E2) as (S2 & L2). injection E as <- <-. auto.
Qed.
Lemma designated_sound : forall fuel table types q l, sound_query q -> designated fuel st table q types = Some l -> Forall (declared_place h) l.
Proof.
  intros fuel table. induction types as [|t types IH]; intros q l Sq E; cbn [designated] in E; [injection E as <-; constructor|].
  set (n := fst (GetClassReferenceFQN table t)) in E. pose proof (db_class TOK root h st OK RUN (fun _ _ => @nil Symbols.method) n) as Dc. cbn [store_db db_classes] in Dc.
  destruct (Query_GetClasses st n) as [cs|]; [|discriminate E]. destruct (constructors_or_classes fuel st q cs) as [(q1, locs)|] eqn:E1; [|discriminate E].
  destruct (constructors_sound fuel cs q q1 locs Sq) as (S1 & L1); [apply Forall_forall; intros c I; apply (proj1 (Dc c)) in I; exact (proj1 I)|exact E1|].
  destruct (designated fuel st table q1 types) as [more|] eqn:E2; [|discriminate E]. injection E as <-. apply Forall_app. split; [exact L1|exact (IH _ _ S1 E2)].
Qed.
End Nothing_else.
Theorem C79_nothing_else_partial : forall {TX : Text} {X : XorFilter} root h st s pos fuel l loc,
  text_ok TX -> Forall event_ok h -> run root h = Some st -> definition fuel st s pos = Some l -> In loc l ->
  can_open loc /\ (exists x, current h x /\ location_of x = loc) /\
  exists a, In a (flat_map preorder (st_out s)) /\ has_types (a_kind a) = true /\ touches pos (a_range a).
Proof.
  intros TX X root h st s pos fuel l loc TOK OK RUN D I. unfold definition in D.
  match type of D with option_map _ ?o = _ => destruct o as [l1|] eqn:E end; [|discriminate D]. injection D as <-. apply filter_In in I as (I & Nv).
  split; [apply can_open_iff; exact Nv|]. destruct (HasTypesAtPos (st_out s) pos) as [a|] eqn:Ha; [|injection E as <-; destruct I]. apply found_sound in Ha as Fa.
  split; [|exists a; exact Fa]. destruct (ImportTableAtPos (st_imports s) pos) as [table|]; [|discriminate E].
  enough (F : Forall (declared_place h) l1) by (rewrite Forall_forall in F; exact (F loc I)).
  assert (Cl : forall n o l, o = locations c_location (Query_GetClasses st n) -> o = Some l -> Forall (declared_place h) l) by (intros n o x -> H; exact (placed_all h _ _ _ (class_places TOK root h st OK RUN n) H)).
  assert (It : forall n o l, o = locations i_location (GetInterfaces st n) -> o = Some l -> Forall (declared_place h) l) by (intros n o x -> H; exact (placed_all h _ _ _ (interface_places TOK root h st OK RUN n) H)).
  destruct (a_kind a); try discriminate E; try (injection E as <-; constructor).
  all: try (apply (concat_all _ _ _ E); intros o x Io Eo; apply in_map_iff in Io as (t & <- & _)).
  all: try (destruct (NewTypeString (ts_original (a_name a))) as [nm|]; [|discriminate E]).
  all: try exact (designated_sound root h st TOK OK RUN fuel table (a_types a) NewQuery l1 (clean_new _ _) E).
  all: try exact (placed_all h _ _ _ (function_places TOK root h st OK RUN _) E).
  all: try exact (Cl _ _ _ eq_refl Eo). all: try exact (It _ _ _ eq_refl Eo). all: try exact (placed_all h _ _ _ (trait_places TOK root h st OK RUN _) Eo).
  - apply (concat_all _ _ _ E). intros o x [<-|[<-|[]]] Eo; [exact (placed_all h _ _ _ (const_places TOK root h st OK RUN _) Eo)|exact (placed_all h _ _ _ (define_places TOK root h st OK RUN _) Eo)].
  - apply (concat_all _ _ _ E). intros o x Io Eo. apply in_flat_map in Io as (t & _ & [<-|[<-|[]]]); [exact (Cl _ _ _ eq_refl Eo)|exact (It _ _ _ eq_refl Eo)].
Qed.
Print Assumptions C79_nothing_else_partial.

(** *** An example *)
Definition touchesb (pos : position) (r : range) : bool := ((IsInRange pos r =? 0) || (ComparePos pos (r_end r) =? 0))%Z.
Lemma touchesb_iff : forall pos r, touchesb pos r = true <-> touches pos r.
Proof. intros pos r. unfold touchesb, touches. rewrite orb_true_iff, !Z.eqb_eq. reflexivity. Qed.
Fixpoint nestedb (pos : position) (s : asym) : bool :=
  match s with
  | ASym a kids => (touchesb pos (a_range a) || forallb (fun b => negb (touchesb pos (a_range b))) (flat_map preorder kids)) &&
                   (fix all (l : list asym) : bool := match l with [] => true | k :: l => nestedb pos k && all l end) kids
  end.
Lemma nestedb_ok : forall pos s, nestedb pos s = true -> nested_at pos s.
Proof.
  intros pos. apply (asym_ind' (fun s => nestedb pos s = true -> nested_at pos s)). intros a kids IH H. cbn [nestedb] in H. apply andb_true_iff in H as (H1 & H2). cbn [nested_at]. split.
  - intros b Ib Tb. apply orb_true_iff in H1 as [H1|H1]; [apply touchesb_iff; exact H1|]. rewrite forallb_forall in H1. specialize (H1 b Ib). apply negb_true_iff in H1.
    apply touchesb_iff in Tb. congruence.
  - clear H1. induction IH as [|k ks Hk F IHf]; [exact Logic.I|]. apply andb_true_iff in H2 as (Hk2 & H2). split; [exact (Hk Hk2)|exact (IHf H2)].
Qed.
Fixpoint listed_in_orderb (pos : position) (l : list adata) : bool :=
  match l with
  | [] => true
  | b :: after => implb (existsb (fun c => touchesb pos (a_range c)) (b :: after)) (0 <=? IsInRange pos (a_range b))%Z && listed_in_orderb pos after
  end.
Lemma listed_in_orderb_ok : forall pos syms, listed_in_orderb pos (flat_map preorder syms) = true -> listed_in_order pos syms.
Proof.
  intros pos syms H before b after c E. rewrite E in H. clear E. induction before as [|x before IH]; cbn [app listed_in_orderb] in H; apply andb_true_iff in H as (H1 & H2); [|exact (IH H2)].
  intros Ic Tc. apply Z.leb_le. rewrite <- H1. replace (existsb _ _) with true; [reflexivity|]. symmetry. apply existsb_exists. exists c. split; [exact Ic|apply touchesb_iff; exact Tc].
Qed.
Lemma cursor_onb_ok : forall d syms pos k at_ x, forallb (nestedb pos) syms = true -> listed_in_orderb pos (flat_map preorder syms) = true -> has_types k = true ->
  List.filter (fun b => has_types (a_kind b) && touchesb pos (a_range b)) (flat_map preorder syms) = [x] -> touchesb pos (NodeRange d at_) = true -> cursor_on d syms pos k at_.
Proof.
  intros d syms pos k at_ x H1 H2 H3 H4 H5. split; [|split; [exact (listed_in_orderb_ok pos syms H2)|]].
  - apply Forall_forall. intros s I. rewrite forallb_forall in H1. exact (nestedb_ok pos s (H1 s I)).
  - assert (One : forall b, In b (flat_map preorder syms) -> has_types (a_kind b) = true -> touches pos (a_range b) -> b = x).
    { intros b Ib Hb Tb. assert (I : In b [x]) by (rewrite <- H4; apply filter_In; split; [exact Ib|apply andb_true_iff; split; [exact Hb|apply touchesb_iff; exact Tb]]).
      destruct I as [->|[]]. reflexivity. }
    intros a Ia Ka Sa. assert (Ta : touches pos (a_range a)) by (rewrite Sa; apply touchesb_iff; exact H5). split; [exact Ta|]. intros b Ib Hb Tb.
    rewrite (One b Ib Hb Tb). symmetry. apply One; [exact Ia|rewrite Ka; exact H3|exact Ta].
Qed.
(** <?php namespace Lib; class Basket { function __construct() { } } *)
Definition baskets : src := php [namespace "Lib"; sp; class "Basket" [method "__construct" []]].
(** <?php function pay() {} *)
Definition payment : src := php [function_ "pay"].
Definition baskets_doc : doc := Eval vm_compute in made uri_b (B "hash-baskets") (file baskets) [B "\Lib"].
Definition payment_doc : doc := Eval vm_compute in made uri_a (B "hash-payment") (file payment) [].
Definition trade : list event := [EvSync baskets_doc; EvSync payment_doc; EvRestart].
Lemma trade_opened : exists st s, @opened ascii_text ascii_trim_space maybe_filter root_uri trade st (file checkout) s.
Proof.
  destruct (C69_no_crash_partial (TX := ascii_text) (file checkout) ascii_trim_ok) as (s & E); [apply well_parsedb_ok; vm_compute; reflexivity|].
  eexists _, s. split; [exact ascii_text_ok|]. split; [|split; [vm_compute; reflexivity|split; [exact E|apply imports_outsideb_ok; vm_compute; reflexivity]]].
  constructor; [cbn [event_ok]; unfold baskets_doc; ok|]. constructor; [cbn [event_ok]; unfold payment_doc; ok|]. constructor; [exact Logic.I|constructor].
Qed.
Lemma checkout_between : forall c, In c [47; 57] -> between (file checkout) (firstn 6 (items (file checkout))) its_return (skipn 7 (items (file checkout))) (cursor c).
Proof.
  intros c Hc. split; [vm_compute; reflexivity|]. split.
  - left. intros N. refine (N _ (B "App") _). right. right. left. vm_compute. reflexivity.
  - split.
    + intros n [->|(nm & I)]; [repeat (destruct Hc as [<-|Hc]; [vm_compute; reflexivity|]); destruct Hc|].
      vm_compute in I. repeat (destruct I as [I|I]; [try discriminate I; injection I as <- _; repeat (destruct Hc as [<-|Hc]; [vm_compute; reflexivity|]); destruct Hc|]). destruct I.
    + intros n nm I. vm_compute in I. destruct I.
Qed.
Lemma checkout_state : forall s, @analyse ascii_text ascii_trim_space (file checkout) = Done tt s -> st_out s = found (@analyse ascii_text ascii_trim_space (file checkout)).
Proof. intros s ->. reflexivity. Qed.
Definition the_basket : node := nth 2 (node_kids new_basket) (Err None).
Definition the_pay : node := nth 0 (node_kids pay_call) (Err None).
Definition Basket : pname := Name false (B "Basket") [].
Definition pay : pname := Name false (B "pay") [].
Lemma checkout_cursors : forall s, @analyse ascii_text ascii_trim_space (file checkout) = Done tt s ->
  cursor_on (file checkout) (st_out s) (cursor 57) AClassTypeDesignator the_basket /\ cursor_on (file checkout) (st_out s) (cursor 47) AFunctionCall the_pay.
Proof.
  intros s E. rewrite (checkout_state s E). split; (eapply cursor_onb_ok; [vm_compute; reflexivity|vm_compute; reflexivity|reflexivity|vm_compute; reflexivity|vm_compute; reflexivity]).
Qed.
(** all symbols of the files *)
Definition trade_symbols : list symbol := Eval vm_compute in d_symbols baskets_doc ++ d_symbols payment_doc.
Lemma trade_current : forall x, current trade x -> In x trade_symbols.
Proof.
  intros x (u & d & L & D). destruct D as (_ & b & a & E & _). assert (I : In x (d_symbols d)) by (rewrite E; apply in_or_app; right; left; reflexivity).
  apply latest_in in L as (L & _). vm_compute in L. destruct L as [<-|[<-|[]]]; vm_compute in I; repeat (destruct I as [<-|I]; [vm_compute; tauto|]); destruct I.
Qed.
Lemma trade_unique : @unique_names ascii_text trade.
Proof.
  assert (K : forall x, current trade x -> match x with SInterface _ | STrait _ => False | SClass c => SClass c = nth 0 trade_symbols (SClass c) | _ => True end).
  { intros x C. apply trade_current in C. vm_compute in C. repeat (destruct C as [<-|C]; [vm_compute; tauto|]). destruct C. }
  split.
  - intros c d C D _. apply K in C. apply K in D. vm_compute in C, D. congruence.
  - intros i j C. apply K in C. destruct C.
  - intros i j C. apply K in C. destruct C.
  - intros c i _ C. apply K in C. destruct C.
Qed.
(** exactly the function [\pay] is declared *)
Definition only_pay (f : gostr) : bool := str_eqb f (B "\pay").
Lemma only_pay_declared : forall f, only_pay f = true <-> exists x, current trade x /\ @wanted ascii_text (QFunction f) x.
Proof.
  intros f. unfold only_pay. rewrite str_eqb_eq. split.
  - intros ->. exists (nth 2 trade_symbols (nth 0 trade_symbols (SClass class_A))). split; [|reflexivity].
    exists uri_a, payment_doc. split; [vm_compute; reflexivity|]. split; [|exists [], []; split; [vm_compute; reflexivity|intros s' []]]. vm_compute. repeat split; discriminate.
  - intros (x & C & W). apply trade_current in C. vm_compute in C. repeat (destruct C as [<-|C]; [try (destruct W; fail)|]); [|destruct C]. symmetry. exact W.
Qed.
Example C79_hypotheses_met : exists st s, let d := file checkout in
  let before := firstn 6 (items d) in let after := skipn 7 (items d) in let p := fold_left behind before ([], []) in
  @opened ascii_text ascii_trim_space maybe_filter root_uri trade st d s /\ @unique_names ascii_text trade /\
  between d before its_return after (cursor 57) /\ @reads_in ascii_text d its_return new_basket /\
  @uses ascii_text d new_basket AClassTypeDesignator (B "Basket") the_basket /\ named d the_basket (text Basket) /\ valid Basket /\ ~ builtin (text Basket) /\
  spelled_alike (snd p) (first Basket) /\ not_shadowed ImportModel.UseClass (snd p) Basket /\ not_renamed (snd p ++ uses_ahead after) (B "\Lib\Basket") /\
  php_resolve ImportModel.UseClass only_pay (snd p) (fst p) Basket = B "\Lib\Basket" /\
  cursor_on d (st_out s) (cursor 57) AClassTypeDesignator the_basket /\
  @definition ascii_text 9 st s (cursor 57) = Some [Loc uri_b (Rng (Pos 0 36) (Pos 0 63))] /\
  between d before its_return after (cursor 47) /\ @reads_in ascii_text d its_return pay_call /\
  @uses ascii_text d pay_call AFunctionCall (text pay) the_pay /\ valid pay /\ ~ builtin (text pay) /\
  spelled_alike (snd p ++ uses_ahead after) (first pay) /\ (forall k, php_bound (uses_ahead after) k (first pay) = None) /\
  (forall f, only_pay f = true <-> exists x, current trade x /\ @wanted ascii_text (QFunction f) x) /\ unambiguous only_pay (fst p) pay /\
  cursor_on d (st_out s) (cursor 47) AFunctionCall the_pay /\
  @definition ascii_text 9 st s (cursor 47) = Some [Loc uri_a (Rng (Pos 0 6) (Pos 0 23))].
Proof.
  destruct trade_opened as (st & s & Op). exists st, s. cbv zeta.
  assert (E : @analyse ascii_text ascii_trim_space (file checkout) = Done tt s) by (destruct Op as (_ & _ & _ & E & _); exact E).
  assert (R : @run ascii_text maybe_filter root_uri trade = Some st) by (destruct Op as (_ & _ & R & _); exact R).
  split; [exact Op|]. split; [exact trade_unique|]. split; [apply checkout_between; right; left; reflexivity|]. split; [apply checkout_reads|].
  split; [eapply (uses_new _ _ _ (B "Basket")); [apply not_define; vm_compute; reflexivity|member|reflexivity|vm_compute; reflexivity|eexists; split; vm_compute; reflexivity]|].
  split; [vm_compute; reflexivity|]. split; [split; [apply identifierb_ok; vm_compute; reflexivity|intros p []]|]. split; [apply builtinb_ok; vm_compute; reflexivity|].
  split; [intros u I H; vm_compute in I; destruct I as [<-|[]]; reflexivity|]. split; [intros X; discriminate X|].
  split; [intros u I _ H; vm_compute in I; destruct I as [<-|[]]; vm_compute in H; destruct H as [H|(r & H)]; discriminate H|]. split; [vm_compute; reflexivity|].
  split; [apply checkout_cursors; exact E|].
  assert (X : Done tt s = @analyse ascii_text ascii_trim_space (file checkout)) by (symmetry; exact E). vm_compute in X. injection X as Xs. vm_compute in R. injection R as Rs.
  split; [rewrite Xs, <- Rs; vm_compute; reflexivity|]. split; [apply checkout_between; left; reflexivity|]. split; [apply checkout_reads|].
  split; [apply (uses_function _ _ _ (B "pay")); [apply not_define; vm_compute; reflexivity|vm_compute; reflexivity]|].
  split; [split; [apply identifierb_ok; vm_compute; reflexivity|intros p []]|]. split; [apply builtinb_ok; vm_compute; reflexivity|].
  split; [intros u I H; vm_compute in I; destruct I as [<-|[]]; vm_compute in H; discriminate H|]. split; [intros k; reflexivity|].
  split; [exact only_pay_declared|]. split; [right; vm_compute; reflexivity|]. split; [apply checkout_cursors; exact E|]. rewrite Xs, <- Rs. vm_compute. reflexivity.
Qed.

(** *** Where the full statement is false *)
(** <?php namespace App; use Lib\{App}; new Basket; *)
Definition renamed : src := php [namespace "App"; sp; use_group "Lib" [P PhNamespaceUseGroupClause [P PhNamespaceName [T TkName "App"]]]; sp; statement (new (Examples.name "Basket"))].
(** <?php namespace App; class Basket { } *)
Definition app_basket : src := php [namespace "App"; sp; class "Basket" []].
Definition app_basket_doc : doc := Eval vm_compute in made uri_b (B "hash-app") (file app_basket) [B "\App"].
(** The full name of the class begins with the name of an import: the class is looked
    up under another name. *)
Theorem C79_renamed_refuted : exists st s p c, let d := file renamed in
  @opened ascii_text ascii_trim_space maybe_filter root_uri [EvSync app_basket_doc] st d s /\
  stands d p (nth 6 (node_kids (d_root d)) (Err None)) /\
  php_resolve ImportModel.UseClass (fun _ => false) (snd p) (fst p) Basket = B "\App\Basket" /\
  @class_named ascii_text [EvSync app_basket_doc] (B "\App\Basket") c /\ can_open (c_location c) /\
  cursor_on d (st_out s) (cursor 42) AClassTypeDesignator (at_way (d_root d) [6; 0; 2]) /\ named d (at_way (d_root d) [6; 0; 2]) (text Basket) /\
  @definition ascii_text 9 st s (cursor 42) = Some [].
Proof.
  destruct (C69_no_crash_partial (TX := ascii_text) (file renamed) ascii_trim_ok) as (s & E); [apply well_parsedb_ok; vm_compute; reflexivity|].
  eexists _, s, (B "App", [Use ImportModel.UseClass (B "Lib\App") None _]), (match nth 0 (d_symbols app_basket_doc) (SClass class_A) with SClass c => c | _ => class_A end). cbv zeta. split.
  { split; [exact ascii_text_ok|]. split; [|split; [vm_compute; reflexivity|split; [exact E|apply imports_outsideb_ok; vm_compute; reflexivity]]].
    constructor; [cbn [event_ok]; unfold app_basket_doc; ok|constructor]. }
  split; [stand 6|]. split; [vm_compute; reflexivity|]. split.
  { split; [|left; reflexivity]. exists uri_b, app_basket_doc. split; [vm_compute; reflexivity|]. split; [vm_compute; repeat split; discriminate|].
    exists [], []. split; [vm_compute; reflexivity|intros s' []]. }
  split; [eexists (B "/w/b.php"); reflexivity|].
  assert (X : Done tt s = @analyse ascii_text ascii_trim_space (file renamed)) by (symmetry; exact E). vm_compute in X. injection X as ->.
  split; [eapply cursor_onb_ok; vm_compute; reflexivity|]. split; vm_compute; reflexivity.
Qed.
Print Assumptions C79_renamed_refuted.

(** <?php interface Basket { } *)
Definition interface_doc : doc := Eval vm_compute in
  StoreModel.Doc uri_b (B "hash-interface") [SInterface (Interface (Loc uri_b (Rng (Pos 0 6) (Pos 0 26))) (Loc uri_b (Rng (Pos 0 16) (Pos 0 22))) [] None (TS (B "\Basket") (B "Basket") 0) [])] [] [].
Definition basket_access : node := at_way (d_root (file shopping)) [2; 0; 0].
(** [Basket::MAX], where [Basket] is an interface, leads nowhere. *)
Theorem C79_interface_access_refuted : exists st s p i, let d := file shopping in
  @opened ascii_text ascii_trim_space maybe_filter root_uri [EvSync interface_doc] st d s /\
  stands d p (at_way (d_root d) [2]) /\ php_resolve ImportModel.UseClass (fun _ => false) (snd p) (fst p) Basket = B "\Basket" /\
  @current ascii_text [EvSync interface_doc] (SInterface i) /\ @wanted ascii_text (QInterface (B "\Basket")) (SInterface i) /\ can_open (i_location i) /\
  named d basket_access (text Basket) /\ cursor_on d (st_out s) (cursor 8) AClassAccess basket_access /\
  @definition ascii_text 9 st s (cursor 8) = Some [].
Proof.
  destruct (C69_no_crash_partial (TX := ascii_text) (file shopping) ascii_trim_ok) as (s & E); [apply well_parsedb_ok; vm_compute; reflexivity|].
  eexists _, s, ([], []), (match nth 0 (d_symbols interface_doc) (SClass class_A) with SInterface i => i | _ => interface_I end). cbv zeta. split.
  { split; [exact ascii_text_ok|]. split; [|split; [vm_compute; reflexivity|split; [exact E|apply imports_outsideb_ok; vm_compute; reflexivity]]].
    constructor; [cbn [event_ok]; unfold interface_doc; ok|constructor]. }
  split; [stand 2|]. split; [vm_compute; reflexivity|]. split.
  { exists uri_b, interface_doc. split; [vm_compute; reflexivity|]. split; [vm_compute; repeat split; discriminate|].
    exists [], []. split; [vm_compute; reflexivity|intros s' []]. }
  split; [vm_compute; reflexivity|]. split; [eexists (B "/w/b.php"); reflexivity|]. split; [vm_compute; reflexivity|].
  assert (X : Done tt s = @analyse ascii_text ascii_trim_space (file shopping)) by (symmetry; exact E). vm_compute in X. injection X as ->.
  split; [eapply cursor_onb_ok; vm_compute; reflexivity|]. vm_compute; reflexivity.
Qed.
Print Assumptions C79_interface_access_refuted.

(** <?php namespace App; function pay() {} *)
Definition app_payment : src := php [namespace "App"; sp; function_ "pay"].
Definition app_payment_doc : doc := Eval vm_compute in made uri_b (B "hash-app-payment") (file app_payment) [B "\App"].
Definition two_payments : list event := [EvSync payment_doc; EvSync app_payment_doc].
(** Of [\App\pay] and [\pay], the call of [pay()] in the namespace [App] leads to the
    second, though PHP calls the first. *)
Theorem C79_hidden_function_refuted : exists st s p f, let d := file checkout in
  @opened ascii_text ascii_trim_space maybe_filter root_uri two_payments st d s /\
  stands d p its_return /\ (forall declared, declared (B "\App\pay") = true -> php_resolve ImportModel.UseFunction declared (snd p) (fst p) pay = B "\App\pay") /\
  @current ascii_text two_payments (SFunction f) /\ @wanted ascii_text (QFunction (B "\App\pay")) (SFunction f) /\ can_open (f_location f) /\
  cursor_on d (st_out s) (cursor 47) AFunctionCall the_pay /\
  exists l, @definition ascii_text 9 st s (cursor 47) = Some l /\ ~ In (f_location f) l /\ length l = 1.
Proof.
  destruct (C69_no_crash_partial (TX := ascii_text) (file checkout) ascii_trim_ok) as (s & E); [apply well_parsedb_ok; vm_compute; reflexivity|].
  eexists _, s, (B "App", [Use ImportModel.UseClass (B "Lib\Basket") None _]), (match nth 0 (d_symbols app_payment_doc) (SClass class_A) with SFunction f => f | _ => Function zero_loc zero_loc (TS [] [] 0) [] [] [] None end). cbv zeta. split.
  { split; [exact ascii_text_ok|]. split; [|split; [vm_compute; reflexivity|split; [exact E|apply imports_outsideb_ok; vm_compute; reflexivity]]].
    constructor; [cbn [event_ok]; unfold payment_doc; ok|]. constructor; [cbn [event_ok]; unfold app_payment_doc; ok|constructor]. }
  split; [stand 6|]. split.
  { intros declared D. vm_compute in D |- *. rewrite D. reflexivity. }
  split.
  { exists uri_b, app_payment_doc. split; [vm_compute; reflexivity|]. split; [vm_compute; repeat split; discriminate|].
    exists [], []. split; [vm_compute; reflexivity|intros s' []]. }
  split; [vm_compute; reflexivity|]. split; [eexists (B "/w/b.php"); reflexivity|]. split; [apply checkout_cursors; exact E|].
  assert (X : Done tt s = @analyse ascii_text ascii_trim_space (file checkout)) by (symmetry; exact E). vm_compute in X. injection X as ->.
  eexists. split; [vm_compute; reflexivity|]. split; [|reflexivity]. vm_compute. intros [H|[]]. discriminate H.
Qed.
Print Assumptions C79_hidden_function_refuted.
