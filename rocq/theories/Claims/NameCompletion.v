(** Claims about the completion of names at the cursor. *)
From Coq Require Import String.
From Coq Require Import List Bool NArith ZArith Lia.
From Coq.Strings Require Import Byte.
From Verif Require Import Base.Bytes Base.BytesProofs Base.Protocol Symbols.Symbols Symbols.KeysModel Text.TextModel Text.TextSpec Text.PositionModel
  Rpc.StreamModel Words.TokeniserSpec Store.FilterModel Store.StoreModel Store.StoreSpec Store.SearchModel Store.SearchSpec Store.NamespaceProofs Store.Examples Types.TypesModel
  Analyse.SyntaxModel Analyse.AnalyseModel Analyse.AnalyseSpec Analyse.DeclareSpec Analyse.UseSpec Analyse.UseProofs Analyse.Examples
  Whole.CursorModel Whole.CursorSpec Whole.CursorProofs Whole.DefinitionSpec Whole.DefinitionProofs
  Completion.CompletionModel Completion.CompletionSpec Completion.CompletionProofs
  Completion.VarCompletionModel Completion.VarCompletionSpec Completion.VarCompletionProofs Completion.NameCompletionModel Completion.NameCompletionSpec Completion.NameCompletionProofs
  Claims.Completion Claims.Rename Claims.VarCompletion.
From Verif Require Store.LookupKinds Claims.Uses Claims.Text Claims.Cursor Claims.Definition Claims.References Claims.Resolve.
Import ListNotations.
Open Scope list_scope.
Open Scope nat_scope.

(** ** C93 completing a name *)
(** [st] is the index after the history [h] *)
Definition indexed {TX : Text} {XF : XorFilter} (root : gostr) (h : list event) (st : store) : Prop :=
  text_ok TX /\ Forall event_ok h /\ run root h = Some st /\ clean_names h /\ clean_namespaces h.

Section Claims.
Context {TX : Text} {TR : TrimSpace} {XF : XorFilter}.
Lemma list_offers : forall root h st c word, indexed root h st -> ~ In NUL word -> well_encoded word ->
  exists cl, complete c st word = Some cl /\ offers h c word cl.
Proof.
  intros root h st c word (TOK & OK & RUN & CL & CN) N W. destruct (C64_proposals_partial TX XF root h st c word TOK OK RUN CL CN N W) as (cl & E & P1 & _ & P2).
  exists cl. split; [exact E|]. split; [exact P1|exact P2].
Qed.

(** In a name in an expression, behind "implements" and behind the "use" of a
    class, the list offers what may stand there (in an expression classes,
    interfaces, constants and functions; then interfaces; then traits) and matches
    the word in front of the cursor. *)
Theorem C93_place_partial : forall root h st text d s q c pos, indexed root h st -> d_text d = SetText text -> no_lone_cr text -> tokens_apart d ->
  stands_at d q c -> in_name d q pos -> no_class_name s pos ->
  exists o l w cl, OffsetAtPosition (d_text d) pos = Some (Z.of_nat o) /\ line_before text o l /\ last_word l w /\
    completionAt st d s pos = Some (NameList cl) /\ offers h c w cl.
Proof.
  intros root h st text d s q c pos Ix T NC Ap St Nm NCl. destruct (Claims.Text.C27_in_document text pos) as (o' & Eo & Bo).
  destruct (Z_of_nat_complete o') as (o & ->); [lia|]. destruct (word_at text pos o NC Eo ltac:(lia)) as (l & w & Ew & Hl & Hw).
  destruct (word_plain l w Hw) as (N & W). destruct (list_offers root h st c w Ix N W) as (cl & E & Of). exists o, l, w, cl.
  rewrite <- T in Eo, Ew. split; [exact Eo|]. split; [exact Hl|]. split; [exact Hw|]. split; [|exact Of].
  unfold completionAt. rewrite Ew, Eo, (place_chosen st d q c pos _ w Ap St Nm Eo), E. cbn [option_map]. unfold by_symbol.
  destruct (HasTypesAtPos (st_out s) pos) as [a|] eqn:H; [|reflexivity]. destruct (NCl a H) as (X & Y & Z). destruct (a_kind a); try reflexivity; congruence.
Qed.

(** Where the cursor is on the name of a class behind "new", behind the "extends"
    of a class, "instanceof" or "catch", in front of "::" or as the type of a
    parameter, the list offers classes, and but for "new" interfaces as well,
    which match this name. *)
Theorem C93_class_partial : forall root h st text d s n k name at_ c pos, indexed root h st -> d_text d = SetText text -> no_lone_cr text ->
  analyse d = Done tt s -> is_read d n -> uses d n k name at_ -> wanted_for k = Some c -> cursor_on d (st_out s) pos k at_ -> ~ In NUL name -> well_encoded name ->
  exists cl, completionAt st d s pos = Some (NameList cl) /\ offers h c name cl.
Proof.
  intros root h st text d s n k name at_ c pos Ix T NC A R U Wk (Ne & Lo & Al) N W.
  destruct (uses_reported TX TR d s n k name at_ A R U) as (a & Ia & Ka & Na & Sa). apply Claims.Definition.in_preorder in Ia.
  assert (Ht : has_types (a_kind a) = true) by (rewrite Ka; destruct k; try discriminate Wk; reflexivity).
  pose proof (found_here pos (st_out s) a Ne Lo Ia Ht (Al a Ia Ka Sa)) as H.
  destruct (Claims.Text.C27_in_document text pos) as (o' & Eo & Bo). destruct (Z_of_nat_complete o') as (o & ->); [lia|].
  destruct (word_at text pos o NC Eo ltac:(lia)) as (l & w & Ew & Hl & Hw). destruct (word_plain l w Hw) as (N' & W').
  destruct (place_total st (match NodeSpineAt d (Z.of_nat o) with Some (above, _) => above | None => [] end) w) as (b & Eb).
  { intros c'. destruct (list_offers root h st c' w Ix N' W') as (cl & E & _). eauto. }
  destruct (list_offers root h st c name Ix N W) as (cl & E & Of). exists cl. split; [|exact Of].
  rewrite <- T in Eo, Ew. unfold completionAt. rewrite Ew, Eo, Eb, H. unfold by_symbol. rewrite Ka, Na.
  destruct k; try discriminate Wk; injection Wk as <-; cbn [complete] in E; unfold names; rewrite E; reflexivity.
Qed.
(** So it is in the names that the analysis reads as constants, interfaces and
    traits, if nothing else that it found is at the cursor. *)
Theorem C93_use_partial : forall root h st text d s n k name at_ q c pos, indexed root h st -> d_text d = SetText text -> no_lone_cr text -> tokens_apart d ->
  analyse d = Done tt s -> is_read d n -> uses d n k name at_ -> k = AConstantAccess \/ k = AInterfaceAccess \/ k = ATraitAccess -> cursor_on d (st_out s) pos k at_ ->
  stands_at d q c -> in_name d q pos ->
  exists o l w cl, OffsetAtPosition (d_text d) pos = Some (Z.of_nat o) /\ line_before text o l /\ last_word l w /\
    completionAt st d s pos = Some (NameList cl) /\ offers h c w cl.
Proof.
  intros root h st text d s n k name at_ q c pos Ix T NC Ap A R U Kk (Ne & Lo & Al) St Nm. apply (C93_place_partial root h st text d s q c pos Ix T NC Ap St Nm).
  destruct (uses_reported TX TR d s n k name at_ A R U) as (a & Ia & Ka & Na & Sa). apply Claims.Definition.in_preorder in Ia.
  assert (Ht : has_types (a_kind a) = true) by (rewrite Ka; destruct Kk as [->|[->| ->]]; reflexivity).
  pose proof (found_here pos (st_out s) a Ne Lo Ia Ht (Al a Ia Ka Sa)) as H. intros b Hb. rewrite H in Hb. injection Hb as <-.
  rewrite Ka. destruct Kk as [->|[->| ->]]; repeat split; discriminate.
Qed.
(** Variables are offered in the places of C92, and there only. *)
Theorem C93_variables : forall st d s pos,
  completionAt st d s pos = Some VariableList <-> exists labels, VarCompletionModel.completion d s pos = Some (Variables labels).
Proof. intros st d s pos. destruct (same_choice st d s pos) as (P & Q). split; [exact P|]. intros (labels & H). exact (Q labels H). Qed.
End Claims.
Print Assumptions C93_use_partial.
Print Assumptions C93_variables.
Print Assumptions C93_place_partial.
Print Assumptions C93_class_partial.

(** <?php interface Baz {} *)
Definition interface_src (n : string) (base : list src) : src := P PhInterfaceDeclaration
  [P PhInterfaceDeclarationHeader ([word "interface"; sp; T TkName n] ++ base); sp; P PhInterfaceDeclarationBody [word "{"; word "}"]].
(** a file with the class Bar, the interface Baz and the function pay *)
Definition stock_doc : doc := StoreModel.Doc uri_b (B "hash-stock")
  [SClass (Class [] (at_line uri_b 1 1) (at_line uri_b 1 9) NoClassModifier (TS (B "\Bar") (B "Bar") 0) (TS [] [] 0) [] [] None);
   SInterface (Interface (at_line uri_b 2 9) (at_line uri_b 2 1) [] None (TS (B "\Baz") (B "Baz") 0) []);
   SFunction (Function (at_line uri_b 3 3) (at_line uri_b 3 3) (TS (B "\pay") (B "pay") 0) [] [] [] None)] [] [].
Definition stock : list event := [EvSync stock_doc; EvRestart].
Definition stock_symbol (i : nat) : symbol := nth i (d_symbols stock_doc) (Store.Examples.a_class uri_b EmptyString).
Lemma stock_indexed : exists st, @indexed ascii_text maybe_filter root_uri stock st /\ @run ascii_text maybe_filter root_uri stock = Some st.
Proof.
  eexists. split; [split; [exact ascii_text_ok|split; [|split; [vm_compute; reflexivity|split]]]|vm_compute; reflexivity].
  - constructor; [cbn [event_ok]; unfold stock_doc; ok|]. constructor; [exact Logic.I|constructor].
  - intros d s I J. destruct I as [<-|[]]. vm_compute in J. repeat (destruct J as [<-|J]; [not_in|]); destruct J.
  - intros d ns I J. destruct I as [<-|[]]. destruct J.
Qed.
Lemma stock_current : forall i, i < 3 -> current stock (stock_symbol i).
Proof.
  intros i Hi. exists uri_b, stock_doc. split; [vm_compute; reflexivity|].
  destruct i as [|[|[|i]]]; [| | |lia]; (split; [vm_compute; repeat split; discriminate|]).
  - exists [], [stock_symbol 1; stock_symbol 2]. split; [reflexivity|]. intros s' [<-|[<-|[]]]; vm_compute; intuition discriminate.
  - exists [stock_symbol 0], [stock_symbol 2]. split; [reflexivity|]. intros s' [<-|[]]; vm_compute; intuition discriminate.
  - exists [stock_symbol 0; stock_symbol 1], []. split; [reflexivity|]. intros s' [].
Qed.
Lemma stock_wanted : forall c i word, i < 3 ->
  (In c [InExpression; InNew; InType] /\ i = 0 /\ word = B "Ba") \/ (In c [InExpression; InType; InImplements] /\ i = 1 /\ word = B "Ba") \/ (c = InExpression /\ i = 2 /\ word = B "pa") ->
  @wanted_at ascii_text c word (stock_symbol i).
Proof.
  intros c i word _ [(Ic & -> & ->)|[(Ic & -> & ->)|(-> & -> & ->)]].
  - exists (FindClasses (B "Ba")). split; [destruct Ic as [<-|[<-|[<-|[]]]]; left; reflexivity|]. split; [reflexivity|]. exists [], (B "Ba").
    split; [left; split; [not_in|split; [discriminate|split; reflexivity]]|]. left. split; [reflexivity|]. exists (B "Ba"), (B "Bar").
    split; [|split; [|vm_compute; reflexivity]]; (eexists; split; [vm_compute; reflexivity|]); cbn; tauto.
  - exists (FindInterfaces (B "Ba")). split; [destruct Ic as [<-|[<-|[<-|[]]]]; cbn; tauto|]. split; [reflexivity|]. exists [], (B "Ba").
    split; [left; split; [not_in|split; [discriminate|split; reflexivity]]|]. split; [|left; reflexivity]. exists (B "Ba"), (B "Baz").
    split; [|split; [|vm_compute; reflexivity]]; (eexists; split; [vm_compute; reflexivity|]); cbn; tauto.
  - exists (FindFunctions (B "pa")). split; [cbn; tauto|]. split; [reflexivity|]. exists [], (B "pa").
    split; [left; split; [not_in|split; [discriminate|split; reflexivity]]|]. split; [|left; reflexivity]. exists (B "pa"), (B "pay").
    split; [|split; [|vm_compute; reflexivity]]; (eexists; split; [vm_compute; reflexivity|]); cbn; tauto.
Qed.

Definition class_src (n : string) (base : list src) : src := P PhClassDeclaration
  [P PhClassDeclarationHeader ([word "class"; sp; T TkName n] ++ base); sp; P PhClassDeclarationBody [word "{"; word "}"]].
(** <?php class A implements Ba {} *)
Definition implementing : src := php [class_src "A" [sp; P PhClassInterfaceClause [word "implements"; sp; P PhQualifiedNameList [name "Ba"]]]].
(** <?php new Ba; *)
Definition creating : src := php [statement (Claims.Resolve.new (name "Ba"))].
Ltac in_the_name d l := 
  match eval vm_compute in (way d l) with Ph ?ty ?ks => match eval vm_compute in (way d (l ++ [0])) with Ph _ [Tk ?t] =>
    exists ty, ks, [Tk t], t; split; [vm_compute; reflexivity|]; split; [vm_compute; tauto|]; split; [left; reflexivity|]; eexists; split; [vm_compute; reflexivity|cbn; lia] end end.
Example C93_hypotheses_met : exists st s, @indexed ascii_text maybe_filter root_uri stock st /\ let d := file implementing in
  @analyse ascii_text ascii_trim_space d = Done tt s /\ text_of d = B "<?php class A implements Ba {}" /\
  no_lone_cr (text_of d) /\ tokens_apart d /\ stands_at d (way d [2; 0; 4; 2; 0]) InImplements /\ in_name d (way d [2; 0; 4; 2; 0]) (col 27) /\ no_class_name s (col 27) /\
  @completionAt ascii_text st d s (col 27) = Some (NameList (CompletionList [PSymbol (Store.LookupKinds.keep (stock_symbol 1))] false)).
Proof.
  destruct stock_indexed as (st & Ix & R). exists st. vm_compute in R. injection R as <-. eexists. split; [exact Ix|]. cbv zeta.
  split; [vm_compute; reflexivity|]. split; [vm_compute; reflexivity|]. split; [apply Claims.Text.no_lone_check; vm_compute; reflexivity|].
  split; [apply apart; vm_compute; reflexivity|].
  split; [eapply (at_implements _ _ (node_kids (way (file implementing) [2; 0; 4])) (node_kids (way (file implementing) [2; 0; 4; 2])));
    [exact (Claims.Cursor.at_way_below [2; 0; 4] (d_root (file implementing)))|vm_compute; tauto|vm_compute; tauto]|].
  split; [in_the_name (file implementing) [2; 0; 4; 2; 0]|]. split; [intros a H; vm_compute in H; injection H as <-; repeat split; discriminate|vm_compute; reflexivity].
Qed.
(** <?php Ba; *)
Definition constant_src : src := php [statement (P PhConstantAccessExpression [name "Ba"])].
Example C93_use_hypotheses_met : exists st s, @indexed ascii_text maybe_filter root_uri stock st /\ let d := file constant_src in
  @analyse ascii_text ascii_trim_space d = Done tt s /\ text_of d = B "<?php Ba;" /\ no_lone_cr (text_of d) /\ tokens_apart d /\ @is_read ascii_text d (way d [2; 0]) /\
  @uses ascii_text d (way d [2; 0]) AConstantAccess (B "Ba") (way d [2; 0]) /\ cursor_on d (st_out s) (col 8) AConstantAccess (way d [2; 0]) /\
  stands_at d (way d [2; 0; 0]) InExpression /\ in_name d (way d [2; 0; 0]) (col 8) /\
  @completionAt ascii_text st d s (col 8) = Some (NameList (CompletionList [PSymbol (Store.LookupKinds.keep (stock_symbol 0)); PSymbol (Store.LookupKinds.keep (stock_symbol 1))] false)).
Proof.
  destruct stock_indexed as (st & Ix & R). exists st. vm_compute in R. injection R as <-. eexists. split; [exact Ix|]. cbv zeta.
  split; [vm_compute; reflexivity|]. split; [vm_compute; reflexivity|]. split; [apply Claims.Text.no_lone_check; vm_compute; reflexivity|]. split; [apply apart; vm_compute; reflexivity|].
  split; [exists (way (file constant_src) [2]); split; [vm_compute; tauto|]; eapply reads_more; [apply reads_it|]; apply (reads_part _ PhExpressionStatement _ (way (file constant_src) [2; 0])); [reflexivity|vm_compute; tauto]|].
  split; [apply (uses_constant _ (node_kids (way (file constant_src) [2; 0])) (B "Ba")); [apply Claims.Uses.not_define; vm_compute; reflexivity|vm_compute; reflexivity]|].
  split; [eapply Claims.Definition.cursor_onb_ok; [vm_compute; reflexivity|vm_compute; reflexivity|reflexivity|vm_compute; reflexivity|vm_compute; reflexivity]|].
  split; [eapply (at_constant _ _ (node_kids (way (file constant_src) [2; 0]))); [exact (Claims.Cursor.at_way_below [2; 0] (d_root (file constant_src)))|vm_compute; tauto]|].
  split; [in_the_name (file constant_src) [2; 0; 0]|vm_compute; reflexivity].
Qed.
Example C93_class_hypotheses_met : exists st s, @indexed ascii_text maybe_filter root_uri stock st /\ let d := file creating in
  @analyse ascii_text ascii_trim_space d = Done tt s /\ text_of d = B "<?php new Ba;" /\ no_lone_cr (text_of d) /\ @is_read ascii_text d (way d [2; 0]) /\
  @uses ascii_text d (way d [2; 0]) AClassTypeDesignator (B "Ba") (way d [2; 0; 2]) /\ wanted_for AClassTypeDesignator = Some InNew /\
  cursor_on d (st_out s) (col 12) AClassTypeDesignator (way d [2; 0; 2]) /\ ~ In NUL (B "Ba") /\ well_encoded (B "Ba") /\
  @completionAt ascii_text st d s (col 12) = Some (NameList (CompletionList [PSymbol (Store.LookupKinds.keep (stock_symbol 0))] false)).
Proof.
  destruct stock_indexed as (st & Ix & R). exists st. vm_compute in R. injection R as <-. eexists. split; [exact Ix|]. cbv zeta.
  split; [vm_compute; reflexivity|]. split; [vm_compute; reflexivity|]. split; [apply Claims.Text.no_lone_check; vm_compute; reflexivity|].
  split; [exists (way (file creating) [2]); split; [vm_compute; tauto|]; eapply reads_more; [apply reads_it|]; apply (reads_part _ PhExpressionStatement _ (way (file creating) [2; 0])); [reflexivity|vm_compute; tauto]|].
  split; [eapply (uses_new _ _ _ (B "Ba")); [apply Claims.Uses.not_define; vm_compute; reflexivity|vm_compute; tauto|reflexivity|vm_compute; reflexivity|eexists; split; vm_compute; reflexivity]|].
  split; [reflexivity|]. split; [eapply Claims.Definition.cursor_onb_ok; [vm_compute; reflexivity|vm_compute; reflexivity|reflexivity|vm_compute; reflexivity|vm_compute; reflexivity]|].
  split; [not_in|]. split; [intros i r H; vm_compute in H; repeat (destruct H as [H|H]; [injection H as <- <-; discriminate|]); destruct H|vm_compute; reflexivity].
Qed.

(** *** Where the full statement is false *)
(** Full statement: in a name exactly the declarations of the kinds that may stand
    there are offered that match what is typed in front of the cursor.
    Behind the "extends" of a class interfaces are offered too. *)
Definition extending : src := php [class_src "A" [sp; P PhClassBaseClause [word "extends"; sp; name "Ba"]]].
Theorem C93_extends_refuted : exists st d s cl, @indexed ascii_text maybe_filter root_uri stock st /\ @analyse ascii_text ascii_trim_space d = Done tt s /\
  text_of d = B "<?php class A extends Ba {}" /\ @completionAt ascii_text st d s (col 24) = Some (NameList cl) /\
  map kind_of (symbols cl) = [KClass; KInterface].
Proof.
  destruct stock_indexed as (st & Ix & R). exists st, (file extending). vm_compute in R. injection R as <-. eexists _, _. split; [exact Ix|].
  split; [vm_compute; reflexivity|]. split; [vm_compute; reflexivity|]. split; [vm_compute; reflexivity|vm_compute; reflexivity].
Qed.
Print Assumptions C93_extends_refuted.
(** Behind the "extends" of an interface nothing is offered. *)
Definition interface_extending : src := php [interface_src "I" [sp; P PhInterfaceBaseClause [word "extends"; sp; P PhQualifiedNameList [name "Ba"]]]].
Theorem C93_interface_extends_refuted : exists st d s i, @indexed ascii_text maybe_filter root_uri stock st /\ @analyse ascii_text ascii_trim_space d = Done tt s /\
  text_of d = B "<?php interface I extends Ba {}" /\ in_name d (way d [2; 0; 4; 2; 0]) (col 28) /\
  current stock (SInterface i) /\ wanted_at InImplements (B "Ba") (SInterface i) /\ @completionAt ascii_text st d s (col 28) = Some NoList.
Proof.
  destruct stock_indexed as (st & Ix & R). exists st, (file interface_extending). vm_compute in R. injection R as <-. eexists _, _. split; [exact Ix|].
  split; [vm_compute; reflexivity|]. split; [vm_compute; reflexivity|]. split; [in_the_name (file interface_extending) [2; 0; 4; 2; 0]|].
  split; [exact (stock_current 1 ltac:(lia))|]. split; [apply (stock_wanted InImplements 1); [lia|]; right; left; cbn; tauto|vm_compute; reflexivity].
Qed.
Print Assumptions C93_interface_extends_refuted.
(** In the name of a function that is called nothing is offered. *)
Definition calling : src := php [statement (call "pa" [])].
Theorem C93_call_refuted : exists st d s f, @indexed ascii_text maybe_filter root_uri stock st /\ @analyse ascii_text ascii_trim_space d = Done tt s /\
  text_of d = B "<?php pa();" /\ in_name d (way d [2; 0; 0]) (col 8) /\
  current stock (SFunction f) /\ wanted_at InExpression (B "pa") (SFunction f) /\ @completionAt ascii_text st d s (col 8) = Some NoList.
Proof.
  destruct stock_indexed as (st & Ix & R). exists st, (file calling). vm_compute in R. injection R as <-. eexists _, _. split; [exact Ix|].
  split; [vm_compute; reflexivity|]. split; [vm_compute; reflexivity|]. split; [in_the_name (file calling) [2; 0; 0]|].
  split; [exact (stock_current 2 ltac:(lia))|]. split; [apply (stock_wanted InExpression 2); [lia|]; right; right; auto|vm_compute; reflexivity].
Qed.
Print Assumptions C93_call_refuted.
(** Inside the name of a class, what stands behind the cursor counts too: behind
    "Ba" in "Bazaar" the class Bar is not offered. *)
Definition inside_name : src := php [statement (Claims.Resolve.new (name "Bazaar"))].
Theorem C93_inside_refuted : exists st d s c, @indexed ascii_text maybe_filter root_uri stock st /\ @analyse ascii_text ascii_trim_space d = Done tt s /\
  text_of d = B "<?php new Bazaar;" /\ in_name d (way d [2; 0; 2; 0]) (col 12) /\ WordAtPos (d_text d) (col 12) = Some (B "Ba") /\
  current stock (SClass c) /\ wanted_at InNew (B "Ba") (SClass c) /\ @completionAt ascii_text st d s (col 12) = Some (NameList (CompletionList [] false)).
Proof.
  destruct stock_indexed as (st & Ix & R). exists st, (file inside_name). vm_compute in R. injection R as <-. eexists _, _. split; [exact Ix|].
  split; [vm_compute; reflexivity|]. split; [vm_compute; reflexivity|]. split; [in_the_name (file inside_name) [2; 0; 2; 0]|]. split; [vm_compute; reflexivity|].
  split; [exact (stock_current 0 ltac:(lia))|]. split; [apply (stock_wanted InNew 0); [lia|]; left; cbn; tauto|vm_compute; reflexivity].
Qed.
Print Assumptions C93_inside_refuted.
