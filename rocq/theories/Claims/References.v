(** Claims about "find references": from the text of files to its answer. *)
From Coq Require Import String.
From Coq Require Import List Bool ZArith Lia.
From Coq.Strings Require Import Byte.
From Verif Require Import Base.Bytes Base.BytesProofs Base.Utf8 Base.Protocol Symbols.Symbols Symbols.KeysModel Text.TextModel Text.PositionModel
  Types.TypesModel Types.ImportModel Types.ImportSpec Types.ImportProofs Rpc.StreamModel Rpc.StreamSpec
  Analyse.SyntaxModel Analyse.AnalyseModel Analyse.AnalyseSpec Analyse.DeclareSpec Analyse.DeclareProofs Analyse.UseSpec Analyse.UseProofs Analyse.ResolveSpec Analyse.ResolveProofs
  Analyse.RefModel Analyse.Examples
  Storage.KvModel Store.FilterModel Store.StoreModel Store.StoreSpec Store.StoreProofs Store.LookupProofs Store.Examples
  Whole.IndexSpec Whole.IndexProofs Whole.RefSpec Whole.RefProofs Claims.Imports Claims.Analyse Claims.Uses Claims.Resolve Claims.Store Claims.Whole.
Import ListNotations.
Open Scope list_scope.
Open Scope nat_scope.

(** ** C77 every use that is read is found again *)
(** the index of the workspace is the outcome of the history [h]; in it [sd] is
    the latest version of the document [u], made from the file [f] *)
Definition indexed {TX : Text} {TR : TrimSpace} {X : XorFilter} (root : gostr) (h : list event) (st : store) (u : gostr) (sd : doc) (f : document) (s : state) : Prop :=
  xor_ok X /\ populates X /\ Forall event_ok h /\ Forall (event_in root) h /\ run root h = Some st /\
  latest h u = Some sd /\ handed sd f s /\ haveReferences u = true.
Definition found_at (st : store) (ref : gostr) (u : gostr) (r : range) {X : XorFilter} : Prop :=
  exists l, GetReferences st ref = Some l /\ In (Loc u r) l.
Lemma found_entered : forall {TX : Text} {TR : TrimSpace} {X : XorFilter} root h st u sd f s a refs ref at_, indexed root h st u sd f s ->
  In a (flat_map symbols_in (st_out s)) -> sits_at f at_ a -> SymToRefs (st_imports s) a = Some refs -> In ref refs -> found_at st ref u (NodeRange f at_).
Proof.
  intros TX TR X root h st u sd f s a refs ref at_ (XOK & Pop & OK & Inr & R & L & H & HR) Ia Sa Sy Ir.
  destruct (C23_references_exact_partial TX X root h st ref XOK Pop OK Inr R) as (l & G & Ex). exists l. split; [exact G|]. apply Ex. rewrite <- Sa.
  exact (entered h u sd f s a refs ref L H HR Ia Sy Ir).
Qed.

(** a class, under the name PHP takes it for *)
Theorem C77_class_references_partial : forall {TX : Text} {TR : TrimSpace} {X : XorFilter} root h st u sd f s p m n k name at_ pn declared,
  indexed root h st u sd f s -> imports_outside f ->
  stands f p m -> reads_in f m n -> uses f n k name at_ -> names_class k name at_ ->
  named f at_ (text pn) -> valid pn -> ~ builtin (text pn) -> spelled_alike (snd p) (first pn) -> not_shadowed ImportModel.UseClass (snd p) pn ->
  found_at st (php_resolve ImportModel.UseClass declared (snd p) (fst p) pn) u (NodeRange f at_).
Proof.
  intros TX TR X root h st u sd f s p m n k name at_ pn declared Ix Out St R U Nc Nm V Nb Sp Ns.
  assert (E : analyse f = Done tt s) by (destruct Ix as (_ & _ & _ & _ & _ & _ & (E & _) & _); exact E).
  destruct (class_symbol_of_use f s p m n k name at_ pn declared E Out St R U Nc Nm V Nb Sp Ns) as (a & t & Ia & Ka & Na & Sa & Ty & Ft).
  assert (Sy : SymToRefs (st_imports s) a = Some [php_resolve ImportModel.UseClass declared (snd p) (fst p) pn]).
  { unfold SymToRefs. rewrite Ka, Ty. cbn [map]. rewrite Ft. destruct k; try (destruct Nc; fail); try reflexivity. destruct Nc as (_ & Rel & _). rewrite Na, Rel. reflexivity. }
  exact (found_entered root h st u sd f s a _ _ at_ Ix Ia Sa Sy (or_introl eq_refl)).
Qed.
Print Assumptions C77_class_references_partial.

(** a method, a property or a class constant, under its name *)
Theorem C77_member_references_partial : forall {TX : Text} {TR : TrimSpace} {X : XorFilter} root h st u sd f s n k name at_ ref,
  indexed root h st u sd f s -> is_read f n -> uses f n k name at_ -> member_use k name ref -> found_at st ref u (NodeRange f at_).
Proof.
  intros TX TR X root h st u sd f s n k name at_ ref Ix R U M.
  assert (E : analyse f = Done tt s) by (destruct Ix as (_ & _ & _ & _ & _ & _ & (E & _) & _); exact E).
  destruct (C75_uses_found_partial f s n k name at_ E R U) as (a & Ia & Ka & Na & Sa).
  exact (found_entered root h st u sd f s a _ _ at_ Ix Ia Sa (member_refs (st_imports s) a k name ref Ka Na M) (or_introl eq_refl)).
Qed.
Print Assumptions C77_member_references_partial.

(** a function, under the name PHP takes it for, whatever is declared. The name
    is looked up when the whole file is read, in the imports of the namespace: none
    behind the call may be for the same name. *)
Theorem C77_function_references_partial : forall {TX : Text} {TR : TrimSpace} {X : XorFilter} root h st u sd f s before m after n at_ pn declared,
  indexed root h st u sd f s -> imports_outside f -> items f = before ++ IStatement m :: after ->
  ~ no_namespace before \/ no_namespace after -> in_order f before (r_start (NodeRange f at_)) after ->
  reads_in f m n -> uses f n AFunctionCall (text pn) at_ ->
  let p := fold_left behind before ([], []) in
  valid pn -> ~ builtin (text pn) -> spelled_alike (snd p ++ uses_ahead after) (first pn) -> not_shadowed ImportModel.UseFunction (snd p) pn ->
  (rest pn <> [] -> php_bound (snd p) ImportModel.UseClass (first pn) = None) ->
  (forall k, php_bound (uses_ahead after) k (first pn) = None) ->
  found_at st (php_resolve ImportModel.UseFunction declared (snd p) (fst p) pn ++ B "()") u (NodeRange f at_).
Proof.
  intros TX TR X root h st u sd f s before m after n at_ pn declared Ix Out It Ns Ord R U p V Nb Sp Sh Q Later.
  assert (E : analyse f = Done tt s) by (destruct Ix as (_ & _ & _ & _ & _ & _ & (E & _) & _); exact E).
  assert (Im : In (IStatement m) (items f)) by (rewrite It; apply in_or_app; right; left; reflexivity).
  destruct (call_symbol f s m n (text pn) at_ E Im R U) as (a & Ia & Ka & Na & Sa).
  destruct (table_at f s before m after (r_start (NodeRange f at_)) E Out It Ns Ord) as (D & table & At & Sn). fold p in D, Sn.
  destruct (C32_possible_function_names_partial zero_pos (fst p) (snd p ++ uses_ahead after) pn declared D V Nb Sp) as (t & Nt & Po).
  { unfold not_shadowed in *. intros Ab. rewrite bound_app by apply Later. exact (Sh Ab). }
  { intros Ne. rewrite bound_app by apply Later. exact (Q Ne). }
  assert (Same : php_resolve ImportModel.UseFunction declared (snd p ++ uses_ahead after) (fst p) pn = php_resolve ImportModel.UseFunction declared (snd p) (fst p) pn).
  { unfold php_resolve. rewrite !bound_app by apply Later. reflexivity. }
  rewrite Same in Po. rewrite <- (same_functions _ _ t Sn) in Po.
  assert (Sy : SymToRefs (st_imports s) a = Some (map (fun fqn => fqn ++ B "()") (FunctionPossibleFQNs table t))).
  { unfold SymToRefs. rewrite Ka, Sa, At, Na, Nt. reflexivity. }
  refine (found_entered root h st u sd f s a _ _ at_ Ix Ia Sa Sy _). apply in_map_iff. eexists. split; [reflexivity|exact Po].
Qed.
Print Assumptions C77_function_references_partial.

(** Nothing else is returned: a location is at a symbol of its file that declares
    or uses what was asked for, and the symbol is written in the file. *)
Theorem C77_nothing_else_partial : forall {TX : Text} {TR : TrimSpace} {X : XorFilter} root h st ref l loc sd f s,
  trim_ok TR -> xor_ok X -> Forall event_ok h -> Forall (event_in root) h -> run root h = Some st ->
  GetReferences st ref = Some l -> In loc l -> latest h (l_uri loc) = Some sd -> handed sd f s ->
  exists a, (declares_ref a ref \/ l_range loc = a_range a /\ uses_ref a ref) /\
    ((exists n, below n (d_root f) /\ says f a n) \/ declared_by_comment f a).
Proof.
  intros TX TR X root h st ref l loc sd f s ROK XOK OK Inr R G Il L H.
  destruct (C23_references_sound TX X root h st ref XOK OK Inr R) as (l' & G' & So). rewrite G in G'. injection G' as <-.
  destruct (entered_by h ref loc sd f s L H (So loc Il)) as (_ & a & Ia & W). exists a. split.
  - destruct W as [W|(W & refs & Sy & Ir)]; [left; exact (declares_for a ref W)|right; split; [exact W|exact (refs_for _ a refs ref Sy Ir)]].
  - destruct H as (E & _). apply in_flat_map in Ia as (y & Iy & Ia). pose proof (C70_symbols_come_from_the_file f s ROK E) as Fc. rewrite Forall_forall in Fc.
    exact (preorder_written f y (d_root f) a (Fc y Iy) Ia).
Qed.
Print Assumptions C77_nothing_else_partial.

(** *** An example *)
Definition args (l : list src) : src := P PhArgumentExpressionList (T TkOpenParenthesis "(" :: l ++ [T TkCloseParenthesis ")"]).
(** <?php namespace App; use Lib\{Basket}; return pay(new Basket)->total(); *)
Definition checkout : src := php
  [namespace "App"; sp; use_group "Lib" [P PhNamespaceUseGroupClause [P PhNamespaceName [T TkName "Basket"]]]; sp;
   P PhReturnStatement [word "return"; sp;
     P PhMethodCallExpression [call "pay" [new (Examples.name "Basket")]; T TkArrow "->"; P PhMemberName [T TkName "total"]; args []]; word ";"]].
(** the entries of the symbols, with declarations entered at their whole range *)
Definition entries_of (u : gostr) (tables : list ImportTable) (a : adata) : list entry_info :=
  (match ReferenceFQN a with Some ref => [EntryInfo ref (a_range a)] | None => [] end) ++
  (match SymToRefs tables a with Some refs => map (fun ref => EntryInfo ref (a_range a)) refs | None => [] end).
Definition entries_in (u : gostr) (f : document) : list entry_info :=
  match @analyse ascii_text ascii_trim_space f with Done _ s => concat (map (entries_of u (st_imports s)) (flat_map preorder (st_out s))) | _ => [] end.
Definition made (u : gostr) (hash : gostr) (f : document) (namespaces : list gostr) : doc :=
  StoreModel.Doc u hash (flat_map (record_of u) (kept_symbols (found (@analyse ascii_text ascii_trim_space f)))) namespaces (entries_in u f).
Definition total_refs (tables : list ImportTable) (a : adata) : bool := match SymToRefs tables a with Some _ => true | None => false end.
Lemma entries_enter : forall u tables l, haveReferences u = true -> forallb (total_refs tables) l = true -> Forall2 (enters u tables) l (map (entries_of u tables) l).
Proof.
  intros u tables l HR. induction l as [|a l IH]; intros H; [constructor|]. cbn [forallb] in H. apply andb_true_iff in H as (Ha & H). cbn [map]. constructor; [|exact (IH H)].
  unfold total_refs in Ha. destruct (SymToRefs tables a) as [refs|] eqn:S; [|discriminate Ha]. eexists _, _, refs. split; [unfold entries_of; rewrite S; reflexivity|].
  split; [destruct (ReferenceFQN a); [eexists; reflexivity|reflexivity]|]. split; [exact S|]. rewrite HR. reflexivity.
Qed.
Lemma handed_made : forall u hash f namespaces s, @analyse ascii_text ascii_trim_space f = Done tt s -> haveReferences u = true ->
  forallb (total_refs (st_imports s)) (flat_map preorder (st_out s)) = true ->
  Forall2 (hands_over u) (kept_symbols (st_out s)) (flat_map (record_of u) (kept_symbols (st_out s))) -> handed (made u hash f namespaces) f s.
Proof.
  intros u hash f namespaces s E HR T F. split; [exact E|]. unfold made, entries_in. cbn [d_uri d_symbols d_refs]. rewrite E. split; [exact F|].
  eexists. split; [reflexivity|]. apply entries_enter; assumption.
Qed.
Definition checkout_doc : doc := Eval vm_compute in made uri_a (B "hash-checkout") (file checkout) [B "\App"].
Lemma checkout_doc_ok : doc_ok checkout_doc.
Proof. unfold checkout_doc. ok. Qed.
Definition checkout_history : list event := [EvSync doc_b; EvSync checkout_doc; EvRestart].
Definition its_return : node := nth 6 (node_kids (d_root (file checkout))) (Err None).
Definition total_call : node := nth 2 (node_kids its_return) (Err None).
Definition pay_call : node := nth 0 (node_kids total_call) (Err None).
Definition new_basket : node := nth 1 (node_kids (nth 1 (node_kids pay_call) (Err None))) (Err None).
Lemma checkout_reads : let d := file checkout in
  @reads_in ascii_text d its_return total_call /\ @reads_in ascii_text d its_return pay_call /\ @reads_in ascii_text d its_return new_basket.
Proof.
  cbv zeta. assert (R1 : @reads_in ascii_text (file checkout) its_return total_call).
  { eapply reads_more; [apply reads_it|]. apply (reads_part _ PhReturnStatement _ total_call); [reflexivity|member]. }
  assert (R2 : @reads_in ascii_text (file checkout) its_return pay_call).
  { eapply reads_more; [exact R1|]. apply (reads_receiver _ PhMethodCallExpression pay_call); [apply not_define; vm_compute; reflexivity|left; reflexivity|reflexivity]. }
  split; [exact R1|]. split; [exact R2|]. eapply reads_more; [exact R2|].
  eapply (reads_call _ _ _ new_basket); [vm_compute; reflexivity|member|discriminate].
Qed.
Example C77_hypotheses_met : exists st s, let d := file checkout in
  @indexed ascii_text ascii_trim_space maybe_filter root_uri checkout_history st uri_a checkout_doc d s /\ imports_outside d /\
  (exists before after, items d = before ++ IStatement its_return :: after /\ ~ no_namespace before /\
     in_order d before (r_start (NodeRange d (nth 0 (node_kids pay_call) (Err None)))) after /\
     fst (fold_left behind before ([], [])) = B "App" /\ map u_name (snd (fold_left behind before ([], []))) = [B "Lib\Basket"] /\ uses_ahead after = []) /\
  @uses ascii_text d pay_call AFunctionCall (text (Name false (B "pay") [])) (nth 0 (node_kids pay_call) (Err None)) /\
  @uses ascii_text d total_call AMethodAccess (B "total") (nth 2 (node_kids total_call) (Err None)) /\
  @uses ascii_text d new_basket AClassTypeDesignator (B "Basket") (nth 2 (node_kids new_basket) (Err None)) /\
  @GetReferences maybe_filter st (B "\Lib\Basket") = Some [Loc uri_a (Rng (Pos 0 54) (Pos 0 60))] /\
  @GetReferences maybe_filter st (B "\App\pay()") = Some [Loc uri_a (Rng (Pos 0 46) (Pos 0 49))] /\
  @GetReferences maybe_filter st (B ".total()") = Some [Loc uri_a (Rng (Pos 0 63) (Pos 0 68))].
Proof.
  destruct (C69_no_crash_partial (TX := ascii_text) (file checkout) ascii_trim_ok) as (s & E); [apply well_parsedb_ok; vm_compute; reflexivity|].
  eexists _, s. cbv zeta. split.
  { split; [exact maybe_filter_ok|]. split; [exact maybe_filter_populates|]. split; [|split; [|split; [vm_compute; reflexivity|split; [vm_compute; reflexivity|split; [|reflexivity]]]]].
    - constructor; [exact doc_b_ok|constructor; [exact checkout_doc_ok|constructor; [exact Logic.I|constructor]]].
    - constructor; [intros _; exists (B "/b.php"); split; reflexivity|]. constructor; [intros _; exists (B "/a.php"); split; reflexivity|]. constructor; [exact Logic.I|constructor].
    - replace checkout_doc with (made uri_a (B "hash-checkout") (file checkout) [B "\App"]) by (vm_compute; reflexivity).
      assert (X : Done tt s = @analyse ascii_text ascii_trim_space (file checkout)) by (symmetry; exact E). vm_compute in X. injection X as ->.
      apply handed_made; [exact E|reflexivity|vm_compute; reflexivity|]. vm_compute. constructor. }
  split; [apply imports_outsideb_ok; vm_compute; reflexivity|]. split.
  { exists (firstn 6 (items (file checkout))), (skipn 7 (items (file checkout))). split; [vm_compute; reflexivity|]. split.
    - intros N. refine (N _ (B "App") _). right. right. left. vm_compute. reflexivity.
    - split; [|split; [vm_compute; reflexivity|split; vm_compute; reflexivity]]. split.
      + intros n [->|(nm & I)]; [vm_compute; reflexivity|]. vm_compute in I. repeat (destruct I as [I|I]; [try discriminate I; injection I as <- _; vm_compute; reflexivity|]). destruct I.
      + intros n nm I. vm_compute in I. destruct I. }
  split; [apply (uses_function _ _ _ (B "pay")); [apply not_define; vm_compute; reflexivity|vm_compute; reflexivity]|].
  split.
  { apply (uses_method _ (node_kids total_call) (nth 2 (node_kids total_call) (Err None)) (skipn 3 (node_kids total_call))); [apply not_define; vm_compute; reflexivity| |].
    - exists pay_call, [nth 1 (node_kids total_call) (Err None)]. split; [vm_compute; reflexivity|]. split; [discriminate|]. split.
      + constructor; [|constructor]. eexists. split; [vm_compute; reflexivity|left; reflexivity].
      + intros (t & X & _). vm_compute in X. discriminate X.
    - eexists. split; [|split; [right; vm_compute; reflexivity|vm_compute; reflexivity]]. reflexivity. }
  split.
  { eapply (uses_new _ _ _ (B "Basket")); [apply not_define; vm_compute; reflexivity|member|reflexivity|vm_compute; reflexivity|].
    eexists. split; vm_compute; reflexivity. }
  compute_all.
Qed.

(** *** Where the full statement is false *)
(** a property whose name is in Latin-1: its uses are entered under another name
    than its declaration *)
Definition cafe : string := ("caf" ++ String (Ascii.ascii_of_nat 233) "")%string.
(** <?php class A { public $cafe; } $a->cafe; with an accent on the "e" *)
Definition latin1 : src := php
  [P PhClassDeclaration
     [P PhClassDeclarationHeader [word "class"; sp; T TkName "A"]; sp;
      P PhClassDeclarationBody [word "{"; sp; P PhClassMemberDeclarationList
        [P PhPropertyDeclaration [P PhMemberModifierList [T TkPublic "public"]; sp; P PhPropertyElementList [P PhPropertyElement [T TkVariableName ("$" ++ cafe)%string]]; word ";"]]; sp; word "}"]]; sp;
   statement (P PhPropertyAccessExpression [var "$a"; T TkArrow "->"; P PhMemberName [T TkName cafe]])].
Theorem C77_latin1_refuted : exists s declared used ref ref',
  @analyse ascii_text ascii_trim_space (file latin1) = Done tt s /\
  In declared (flat_map preorder (st_out s)) /\ In used (flat_map preorder (st_out s)) /\ a_kind used = APropertyAccess /\
  ts_fqn (a_name declared) = B "$" ++ ts_original (a_name used) /\
  ReferenceFQN declared = Some ref /\ SymToRefs (st_imports s) used = Some [ref'] /\ ref <> ref'.
Proof.
  eexists _, _, _, _, _. split; [vm_compute; reflexivity|].
  split; [vm_compute; right; left; reflexivity|]. split; [vm_compute; do 3 right; left; reflexivity|]. split; [reflexivity|].
  split; [vm_compute; reflexivity|]. split; [vm_compute; reflexivity|]. split; [vm_compute; reflexivity|discriminate].
Qed.
Print Assumptions C77_latin1_refuted.

(** a function that is imported further down in the file *)
Definition use_function (f : string) : src := P PhNamespaceUseDeclaration
  [word "use"; sp; T TkFunction "function"; sp; P PhNamespaceUseClauseList [P PhNamespaceUseClause [P PhNamespaceName [T TkName f]]]; word ";"].
(** <?php f(); use function A\f; *)
Definition later : src := php [statement (call "f" []); sp; use_function "A\f"].
Definition later_doc : doc := Eval vm_compute in made uri_a (B "hash-later") (file later) [].
Definition f_call : node := nth 0 (node_kids (nth 2 (node_kids (d_root (file later))) (Err None))) (Err None).
Theorem C77_later_import_refuted : exists st s p m, let f := Name false (B "f") [] in
  @indexed ascii_text ascii_trim_space maybe_filter root_uri [EvSync later_doc] st uri_a later_doc (file later) s /\
  stands (file later) p m /\ @reads_in ascii_text (file later) m f_call /\
  @uses ascii_text (file later) f_call AFunctionCall (text f) (nth 0 (node_kids f_call) (Err None)) /\
  php_resolve ImportModel.UseFunction (fun _ => true) (snd p) (fst p) f = B "\f" /\ @GetReferences maybe_filter st (B "\f()") = Some [].
Proof.
  destruct (C69_no_crash_partial (TX := ascii_text) (file later) ascii_trim_ok) as (s & E); [apply well_parsedb_ok; vm_compute; reflexivity|].
  eexists _, s, ([], []), (nth 2 (node_kids (d_root (file later))) (Err None)). cbv zeta. split.
  { split; [exact maybe_filter_ok|]. split; [exact maybe_filter_populates|]. split; [|split; [|split; [vm_compute; reflexivity|split; [vm_compute; reflexivity|split; [|reflexivity]]]]].
    - constructor; [|constructor]. cbn [event_ok]. unfold later_doc. ok.
    - constructor; [|constructor]. intros _. exists (B "/a.php"). split; reflexivity.
    - replace later_doc with (made uri_a (B "hash-later") (file later) []) by (vm_compute; reflexivity).
      assert (X : Done tt s = @analyse ascii_text ascii_trim_space (file later)) by (symmetry; exact E). vm_compute in X. injection X as ->.
      apply handed_made; [exact E|reflexivity|vm_compute; reflexivity|]. vm_compute. constructor. }
  split; [stand 2|]. split.
  { eapply reads_more; [apply reads_it|]. apply (reads_part _ PhExpressionStatement _ f_call); [reflexivity|member]. }
  split; [apply (uses_function _ _ _ (B "f")); [apply not_define; vm_compute; reflexivity|vm_compute; reflexivity]|].
  split; vm_compute; reflexivity.
Qed.
Print Assumptions C77_later_import_refuted.
