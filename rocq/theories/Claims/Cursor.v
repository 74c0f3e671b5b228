(** Claims about "find references" at a place in a document. *)
From Coq Require Import String.
From Coq Require Import List Bool ZArith Lia Sorting.Sorted.
From Coq.Strings Require Import Byte.
From Verif Require Import Base.Bytes Base.BytesProofs Base.Utf8 Base.Protocol Symbols.Symbols Symbols.KeysModel Text.TextModel Text.PositionModel
  Types.TypesModel Types.ImportModel Types.ImportSpec Types.ImportProofs Rpc.StreamModel Rpc.StreamSpec
  Analyse.SyntaxModel Analyse.AnalyseModel Analyse.AnalyseSpec Analyse.DeclareSpec Analyse.DeclareProofs Analyse.UseSpec Analyse.UseProofs Analyse.ResolveSpec Analyse.ResolveProofs
  Analyse.RefModel Analyse.Examples
  Storage.KvModel Store.FilterModel Store.StoreModel Store.StoreSpec Store.StoreProofs Store.LookupProofs Store.Examples
  Whole.IndexSpec Whole.IndexProofs Whole.RefSpec Whole.RefProofs Whole.CursorModel Whole.CursorSpec Whole.CursorProofs
  Claims.Imports Claims.Analyse Claims.Uses Claims.Resolve Claims.Store Claims.Whole Claims.References.
Import ListNotations.
Open Scope list_scope.
Open Scope nat_scope.

(** ** C78 the references of the declaration under the cursor *)
(** the index is the outcome of the history [h] *)
Definition workspace {TX : Text} {X : XorFilter} (root : gostr) (h : list event) (st : store) : Prop :=
  xor_ok X /\ populates X /\ Forall event_ok h /\ Forall (event_in root) h /\ run root h = Some st.
Lemma asked : forall {TX : Text} {X : XorFilter} root h st ref, workspace root h st -> answers h [ref] (GetReferences st ref).
Proof.
  intros TX X root h st ref (XOK & P & OK & Inr & R). destruct (C23_references_exact_partial TX X root h st ref XOK P OK Inr R) as (l & G & Ex). exists l. split; [exact G|].
  intros loc. rewrite Ex. split; [intros H; exists ref; split; [left; reflexivity|exact H]|]. intros (r & [<-|[]] & H). exact H.
Qed.
Lemma asked_all : forall {TX : Text} {X : XorFilter} root h st refs, workspace root h st -> answers h refs (ask_all st refs).
Proof.
  intros TX X root h st refs W. induction refs as [|ref refs (l & G & Ex)].
  - exists []. split; [reflexivity|]. intros loc. split; [intros []|intros (r & [] & _)].
  - destruct (asked root h st ref W) as (l0 & G0 & Ex0). unfold ask_all in *. cbn [map concat_opt]. rewrite G0, G. exists (l0 ++ l). split; [reflexivity|].
    intros loc. rewrite in_app_iff, Ex0, Ex. split.
    + intros [(r & [<-|[]] & H)|(r & I & H)]; [exists ref; split; [left; reflexivity|exact H]|exists r; split; [right; exact I|exact H]].
    + intros (r & [<-|I] & H); [left; exists ref; split; [left; reflexivity|exact H]|right; exists r; split; [exact I|exact H]].
Qed.
Lemma one_token : forall d ty t, GetNodeText d (Ph ty [Tk t]) = getTokenText d t.
Proof. reflexivity. Qed.

(** a method *)
Theorem C78_method_partial : forall {TX : Text} {X : XorFilter} root h st d s pos header t name, workspace root h st ->
  tokens_apart d -> below (Ph PhMethodDeclarationHeader header) (d_root d) -> In (Ph PhIdentifier [Tk t]) header -> in_word d t pos -> getTokenText d t = Some name ->
  answers h [method_ref name] (references st d s pos).
Proof.
  intros TX X root h st d s pos header t name W Ap Be I (o & Ho & Hr) Tx. destruct (spine_in_in d _ _ _ _ t o Ap Be I (or_introl eq_refl) Hr) as (above & Sp).
  unfold references. rewrite Ho, Sp, one_token, Tx. exact (asked root h st _ W).
Qed.
Print Assumptions C78_method_partial.
(** a class constant *)
Theorem C78_class_constant_partial : forall {TX : Text} {X : XorFilter} root h st d s pos element t name, workspace root h st ->
  tokens_apart d -> below (Ph PhClassConstElement element) (d_root d) -> In (Ph PhIdentifier [Tk t]) element -> in_word d t pos -> getTokenText d t = Some name ->
  answers h [constant_ref name] (references st d s pos).
Proof.
  intros TX X root h st d s pos element t name W Ap Be I (o & Ho & Hr) Tx. destruct (spine_in_in d _ _ _ _ t o Ap Be I (or_introl eq_refl) Hr) as (above & Sp).
  unfold references. rewrite Ho, Sp, one_token, Tx. exact (asked root h st _ W).
Qed.
Print Assumptions C78_class_constant_partial.
(** a property without an initial value *)
Theorem C78_property_partial : forall {TX : Text} {X : XorFilter} root h st d s pos t name, workspace root h st ->
  tokens_apart d -> below (Ph PhPropertyElement [Tk t]) (d_root d) -> in_word d t pos -> getTokenText d t = Some (B "$" ++ name) ->
  answers h [property_ref name] (references st d s pos).
Proof.
  intros TX X root h st d s pos t name W Ap Be (o & Ho & Hr) Tx. destruct (spine_in d _ _ t o Ap Be (or_introl eq_refl) Hr) as (above & Sp).
  unfold references. rewrite Ho, Sp, one_token, Tx. exact (asked root h st _ W).
Qed.
Print Assumptions C78_property_partial.
(** a class, an interface or a trait in the namespace at the top of its file *)
Theorem C78_class_partial : forall {TX : Text} {TR : TrimSpace} {X : XorFilter} root h st d s pos ty header t name ns us, workspace root h st ->
  analyse d = Done tt s -> imports_outside d -> main_namespace d ns us -> (exists text, d_text d = SetText text) ->
  tokens_apart d -> class_header ty -> below (Ph ty header) (d_root d) -> In (Tk t) header -> in_word d t pos -> getTokenText d t = Some name -> plain_name name ->
  answers h [qualify ns name] (references st d s pos).
Proof.
  intros TX TR X root h st d s pos ty header t name ns us W E Out Main Td Ap Ty Be I (o & Ho & Hr) Tx Pl. destruct (spine_in d _ _ t o Ap Be I Hr) as (above & Sp).
  destruct (first_table d s ns us E Out Main Td) as (D & table & Ta & Sn).
  assert (Nsp : GetNamespace table = ns) by (rewrite <- (imports_namespace zero_pos ns us D); destruct Sn as (N & _); congruence).
  unfold references. rewrite Ho, Sp, Ta, Tx, (plain_type name Pl). cbn [option_map ask_for]. rewrite (plain_namespace name _ Pl), Nsp. cbn [ts_fqn].
  destruct Ty as [-> | [-> | ->]]; exact (asked root h st _ W).
Qed.
Print Assumptions C78_class_partial.
(** a function: also the references of the function of this name without a
    namespace *)
Theorem C78_function_partial : forall {TX : Text} {TR : TrimSpace} {X : XorFilter} root h st d s pos header t name ns us, workspace root h st ->
  analyse d = Done tt s -> imports_outside d -> main_namespace d ns us -> (exists text, d_text d = SetText text) -> php_bound us ImportModel.UseFunction name = None ->
  tokens_apart d -> below (Ph PhFunctionDeclarationHeader header) (d_root d) -> In (Tk t) header -> in_word d t pos -> getTokenText d t = Some name -> plain_name name ->
  answers h [qualify ns name ++ B "()"; qualify [] name ++ B "()"] (references st d s pos).
Proof.
  intros TX TR X root h st d s pos header t name ns us W E Out Main Td Nb Ap Be I (o & Ho & Hr) Tx Pl. destruct (spine_in d _ _ t o Ap Be I Hr) as (above & Sp).
  destruct (first_table d s ns us E Out Main Td) as (D & table & Ta & Sn). pose proof (function_names ns us name table Pl D Sn Nb) as Fn.
  unfold references. rewrite Ho, Sp, Ta, Tx, (plain_type name Pl).
  destruct (asked_all root h st (map (fun fqn => fqn ++ B "()") (FunctionPossibleFQNs table (TS name name 0))) W) as (l & G & Ex).
  exists l. split; [exact G|]. intros loc. rewrite Ex. split; intros (r & J & H); exists r; (split; [|exact H]).
  - apply in_map_iff in J as (fqn & <- & J). apply Fn in J. destruct J as [<-|[<-|[]]]; [left; reflexivity|right; left; reflexivity].
  - apply in_map_iff. destruct J as [<-|[<-|[]]]; eexists; (split; [reflexivity|]); apply Fn; [left; reflexivity|right; left; reflexivity].
Qed.
Print Assumptions C78_function_partial.
(** Anywhere else: the answer is about a symbol under the cursor, and every
    location in it is a reference to what that symbol uses. *)
Theorem C78_elsewhere_partial : forall {TX : Text} {X : XorFilter} root h st s pos l loc, workspace root h st ->
  fallback st s pos = Some l -> In loc l ->
  exists a ref, In a (flat_map preorder (st_out s)) /\ touches pos (a_range a) /\ uses_ref a ref /\ referenced h ref loc /\
    forall loc', referenced h ref loc' -> In loc' l.
Proof.
  intros TX X root h st s pos l loc W F I. unfold fallback in F. destruct (HasTypesAtPos (st_out s) pos) as [a|] eqn:H; [|injection F as <-; destruct I].
  destruct (found_sound pos (st_out s) a H) as (Ia & _ & To). destruct (SymToRefs (st_imports s) a) as [refs|] eqn:S; [|discriminate F].
  destruct (asked_all root h st refs W) as (l' & G & Ex). rewrite G in F. injection F as ->. apply Ex in I as (ref & J & R). exists a, ref.
  split; [exact Ia|]. split; [exact To|]. split; [exact (refs_for (st_imports s) a refs ref S J)|]. split; [exact R|]. intros loc' R'. apply Ex. exists ref. split; assumption.
Qed.
Print Assumptions C78_elsewhere_partial.

(** *** From the declaration to its uses *)
Lemma indexed_workspace : forall {TX : Text} {TR : TrimSpace} {X : XorFilter} root h st u sd f s, indexed root h st u sd f s -> workspace root h st.
Proof. intros TX TR X root h st u sd f s (XOK & P & OK & Inr & R & _). exact (conj XOK (conj P (conj OK (conj Inr R)))). Qed.
Lemma found_in : forall {TX : Text} {X : XorFilter} root h st ref u r answer, workspace root h st -> found_at st ref u r -> answers h [ref] answer -> exists l, answer = Some l /\ In (Loc u r) l.
Proof.
  intros TX X root h st ref u r answer W (l & G & I) (l' & A & Ex). exists l'. split; [exact A|]. apply Ex. destruct (asked root h st ref W) as (l0 & G0 & Ex0).
  rewrite G in G0. injection G0 as <-. apply Ex0. exact I.
Qed.
(** with the cursor in the name of a method, every call of a method of this name is found, in any file of the workspace *)
Theorem C78_calls_partial : forall {TX : Text} {TR : TrimSpace} {X : XorFilter} root h st u sd f s n k at_ d s' pos header t name,
  indexed root h st u sd f s -> is_read f n -> uses f n k name at_ -> k = AMethodAccess \/ k = AScopedMethodAccess ->
  tokens_apart d -> below (Ph PhMethodDeclarationHeader header) (d_root d) -> In (Ph PhIdentifier [Tk t]) header -> in_word d t pos -> getTokenText d t = Some name ->
  exists l, references st d s' pos = Some l /\ In (Loc u (NodeRange f at_)) l.
Proof.
  intros TX TR X root h st u sd f s n k at_ d s' pos header t name Ix R U K Ap Be I In_ Tx. pose proof (indexed_workspace root h st u sd f s Ix) as W.
  apply (found_in root h st (method_ref name) u _ _ W).
  - apply (C77_member_references_partial root h st u sd f s n k name at_ (method_ref name) Ix R U). destruct K as [-> | ->]; reflexivity.
  - exact (C78_method_partial root h st d s' pos header t name W Ap Be I In_ Tx).
Qed.
Print Assumptions C78_calls_partial.
(** with the cursor in the name of a class, every place that PHP takes for a use of the class is found *)
Theorem C78_class_uses_partial : forall {TX : Text} {TR : TrimSpace} {X : XorFilter} root h st u sd f s p m n k written_as at_ pn declared d s' pos ty header t name ns us,
  indexed root h st u sd f s -> imports_outside f -> stands f p m -> reads_in f m n -> uses f n k written_as at_ -> names_class k written_as at_ ->
  named f at_ (text pn) -> valid pn -> ~ builtin (text pn) -> spelled_alike (snd p) (first pn) -> not_shadowed ImportModel.UseClass (snd p) pn ->
  php_resolve ImportModel.UseClass declared (snd p) (fst p) pn = qualify ns name ->
  analyse d = Done tt s' -> imports_outside d -> main_namespace d ns us -> (exists text, d_text d = SetText text) ->
  tokens_apart d -> class_header ty -> below (Ph ty header) (d_root d) -> In (Tk t) header -> in_word d t pos -> getTokenText d t = Some name -> plain_name name ->
  exists l, references st d s' pos = Some l /\ In (Loc u (NodeRange f at_)) l.
Proof.
  intros TX TR X root h st u sd f s p m n k written_as at_ pn declared d s' pos ty header t name ns us Ix Of Sd Rd Us Nc Wa V Nb Sp Sh Res E Out Main Td Ap Ty Be I In_ Tx Pl.
  pose proof (indexed_workspace root h st u sd f s Ix) as W. apply (found_in root h st (qualify ns name) u _ _ W).
  - rewrite <- Res. exact (C77_class_references_partial root h st u sd f s p m n k written_as at_ pn declared Ix Of Sd Rd Us Nc Wa V Nb Sp Sh).
  - exact (C78_class_partial root h st d s' pos ty header t name ns us W E Out Main Td Ap Ty Be I In_ Tx Pl).
Qed.
Print Assumptions C78_class_uses_partial.

(** *** An example *)
Fixpoint apartb (l : list token) : bool := match l with [] => true | a :: l => forallb (fun b => t_end a <=? t_offset b) l && apartb l end.
Lemma apartb_ok : forall l, apartb l = true -> StronglySorted (fun a b => t_end a <= t_offset b) l.
Proof.
  induction l as [|a l IH]; intros H; constructor; cbn [apartb] in H; apply andb_true_iff in H as (Ha & Hl); [exact (IH Hl)|].
  apply Forall_forall. intros b I. rewrite forallb_forall in Ha. apply Nat.leb_le. exact (Ha b I).
Qed.
(** the node at the end of a way down the tree *)
Definition at_way (n : node) (way : list nat) : node := fold_left (fun n i => nth i (node_kids n) n) way n.
Lemma at_way_below : forall way n, below (at_way n way) n.
Proof.
  intros way. induction way as [|i way IH]; intros n; [constructor|]. unfold at_way. cbn [fold_left]. fold (at_way (nth i (node_kids n) n) way).
  destruct (nth_in_or_default i (node_kids n) n) as [I|E]; [exact (below_kid _ _ _ I (IH _))|]. rewrite E. apply IH.
Qed.
Definition the_token (n : node) : token := match n with Tk t => t | _ => Tok (TkOther 0) 0 0 end.
Definition class_const (n : string) : src := P PhClassConstDeclaration [T TkConst "const"; sp;
  P PhClassConstElementList [P PhClassConstElement [P PhIdentifier [T TkName n]; sp; T TkEquals "="; sp; T (TkOther 2) "1"]]; word ";"].
Definition property (element : list src) : src := P PhPropertyDeclaration [P PhMemberModifierList [T TkPublic "public"]; sp; P PhPropertyElementList [P PhPropertyElement element]; word ";"].
Definition function_ (n : string) : src := P PhFunctionDeclaration
  [P PhFunctionDeclarationHeader [T TkFunction "function"; sp; T TkName n; word "("; word ")"]; sp; P PhFunctionDeclarationBody [P PhCompoundStatement [word "{"; word "}"]]].
(** <?php namespace Lib; class Basket { const MAX = 1; public $items; public $open = 1; function total() { } } function pay() {} *)
Definition library : src := php [namespace "Lib"; sp;
  class "Basket" [class_const "MAX"; sp; property [T TkVariableName "$items"]; sp; property [T TkVariableName "$open"; sp; P PhPropertyInitialiser [T TkEquals "="; sp; T (TkOther 2) "1"]]; sp; method "total" []]; sp;
  function_ "pay"].
Definition library_root : node := d_root (file library).
Definition class_way : list nat := [4; 0].
Definition members_way : list nat := [4; 2; 2].
(** <?php Basket::MAX; $b->items; $b->open; *)
Definition shopping : src := php
  [statement (P PhClassConstantAccessExpression [Examples.name "Basket"; word "::"; P PhScopedMemberName [T TkName "MAX"]]); sp;
   statement (P PhPropertyAccessExpression [var "$b"; T TkArrow "->"; P PhMemberName [T TkName "items"]]); sp;
   statement (P PhPropertyAccessExpression [var "$b"; T TkArrow "->"; P PhMemberName [T TkName "open"]])].
Definition shopping_doc : doc := Eval vm_compute in made uri_b (B "hash-shopping") (file shopping) [].
Definition shop_history : list event := [EvSync checkout_doc; EvSync shopping_doc].
Lemma shop_workspace : exists st, @workspace ascii_text maybe_filter root_uri shop_history st.
Proof.
  eexists. split; [exact maybe_filter_ok|]. split; [exact maybe_filter_populates|]. split; [|split; [|vm_compute; reflexivity]].
  - constructor; [exact checkout_doc_ok|]. constructor; [|constructor]. cbn [event_ok]. unfold shopping_doc. ok.
  - constructor; [intros _; exists (B "/a.php"); split; reflexivity|]. constructor; [intros _; exists (B "/b.php"); split; reflexivity|constructor].
Qed.
Definition cursor (c : nat) : position := Pos 0 (Z.of_nat c).
Ltac word_at o := exists (Z.of_nat o); split; [vm_compute; reflexivity|split; vm_compute; [reflexivity|discriminate]].
Example C78_hypotheses_met : exists st s, let d := file library in
  @workspace ascii_text maybe_filter root_uri shop_history st /\ @analyse ascii_text ascii_trim_space d = Done tt s /\ imports_outside d /\ main_namespace d (B "Lib") [] /\
  tokens_apart d /\ (exists text, d_text d = SetText text) /\
  (exists header t, below (Ph PhMethodDeclarationHeader header) (d_root d) /\ In (Ph PhIdentifier [Tk t]) header /\ in_word d t (cursor 94) /\ getTokenText d t = Some (B "total")) /\
  @references maybe_filter st d s (cursor 94) = Some [Loc uri_a (Rng (Pos 0 63) (Pos 0 68))] /\
  (exists element t, below (Ph PhClassConstElement element) (d_root d) /\ In (Ph PhIdentifier [Tk t]) element /\ in_word d t (cursor 43) /\ getTokenText d t = Some (B "MAX")) /\
  @references maybe_filter st d s (cursor 43) = Some [Loc uri_b (Rng (Pos 0 14) (Pos 0 17))] /\
  (exists t, below (Ph PhPropertyElement [Tk t]) (d_root d) /\ in_word d t (cursor 59) /\ getTokenText d t = Some (B "$" ++ B "items")) /\
  @references maybe_filter st d s (cursor 59) = Some [Loc uri_b (Rng (Pos 0 23) (Pos 0 28))] /\
  (exists header t, below (Ph PhClassDeclarationHeader header) (d_root d) /\ In (Tk t) header /\ in_word d t (cursor 28) /\ getTokenText d t = Some (B "Basket") /\ plain_name (B "Basket")) /\
  @references maybe_filter st d s (cursor 28) = Some [Loc uri_a (Rng (Pos 0 54) (Pos 0 60))] /\
  (exists header t, below (Ph PhFunctionDeclarationHeader header) (d_root d) /\ In (Tk t) header /\ in_word d t (cursor 118) /\ getTokenText d t = Some (B "pay") /\ plain_name (B "pay")).
Proof.
  destruct shop_workspace as (st & W). exists st.
  assert (R : run root_uri shop_history = Some st) by (destruct W as (_ & _ & _ & _ & R); exact R). vm_compute in R. injection R as <-.
  destruct (C69_no_crash_partial (TX := ascii_text) (file library) ascii_trim_ok) as (s & E); [apply well_parsedb_ok; vm_compute; reflexivity|]. exists s. cbv zeta.
  split; [exact W|]. split; [exact E|]. split; [apply imports_outsideb_ok; vm_compute; reflexivity|].
  split; [left; exists [nth 0 (node_kids library_root) (Err None); nth 1 (node_kids library_root) (Err None)], (nth 2 (node_kids library_root) (Err None)), (skipn 3 (items (file library)));
    split; [vm_compute; reflexivity|split; [repeat constructor|vm_compute; reflexivity]]|].
  split; [apply apartb_ok; vm_compute; reflexivity|]. split; [eexists; reflexivity|].
  assert (X : Done tt s = @analyse ascii_text ascii_trim_space (file library)) by (symmetry; exact E). vm_compute in X. injection X as ->.
  split; [exists (node_kids (at_way library_root (members_way ++ [6; 0]))), (the_token (at_way library_root (members_way ++ [6; 0; 2; 0])));
    split; [exact (at_way_below (members_way ++ [6; 0]) library_root)|split; [member|split; [word_at 94|vm_compute; reflexivity]]]|].
  split; [vm_compute; reflexivity|].
  split; [exists (node_kids (at_way library_root (members_way ++ [0; 2; 0]))), (the_token (at_way library_root (members_way ++ [0; 2; 0; 0; 0])));
    split; [exact (at_way_below (members_way ++ [0; 2; 0]) library_root)|split; [member|split; [word_at 43|vm_compute; reflexivity]]]|].
  split; [vm_compute; reflexivity|].
  split; [exists (the_token (at_way library_root (members_way ++ [2; 2; 0; 0])));
    split; [exact (at_way_below (members_way ++ [2; 2; 0]) library_root)|split; [word_at 59|vm_compute; reflexivity]]|].
  split; [vm_compute; reflexivity|].
  split; [exists (node_kids (at_way library_root class_way)), (the_token (at_way library_root (class_way ++ [2])));
    split; [exact (at_way_below class_way library_root)|split; [member|split; [word_at 28|split; [vm_compute; reflexivity|apply plain_nameb_ok; vm_compute; reflexivity]]]]|].
  split; [vm_compute; reflexivity|].
  exists (node_kids (at_way library_root [6; 0])), (the_token (at_way library_root [6; 0; 2])).
  split; [exact (at_way_below [6; 0] library_root)|split; [member|split; [word_at 118|split; [vm_compute; reflexivity|apply plain_nameb_ok; vm_compute; reflexivity]]]].
Qed.

(** *** Where the full statement is false *)
Lemma used_basket : referenced shop_history (B "\Lib\Basket") (Loc uri_a (Rng (Pos 0 54) (Pos 0 60))).
Proof.
  exists checkout_doc, (EntryInfo (B "\Lib\Basket") (Rng (Pos 0 54) (Pos 0 60))). split; [vm_compute; reflexivity|]. split; [reflexivity|]. split; [|split; reflexivity].
  vm_compute. repeat (first [left; reflexivity|right]).
Qed.
(** <?php namespace App; namespace Lib; class Basket { } *)
Definition second_namespace : src := php [namespace "App"; sp; namespace "Lib"; sp; class "Basket" []].
(** The class is in the second namespace of its file: its uses are not found. *)
Theorem C78_second_namespace_refuted : exists st s header t, let d := file second_namespace in
  @workspace ascii_text maybe_filter root_uri shop_history st /\ @analyse ascii_text ascii_trim_space d = Done tt s /\
  stands d (B "Lib", []) (at_way (d_root d) [6]) /\ below (Ph PhClassDeclarationHeader header) (at_way (d_root d) [6]) /\
  In (Tk t) header /\ in_word d t (cursor 43) /\ getTokenText d t = Some (B "Basket") /\
  referenced shop_history (qualify (B "Lib") (B "Basket")) (Loc uri_a (Rng (Pos 0 54) (Pos 0 60))) /\
  @references maybe_filter st d s (cursor 43) = Some [].
Proof.
  destruct shop_workspace as (st & W). exists st.
  assert (R : run root_uri shop_history = Some st) by (destruct W as (_ & _ & _ & _ & R); exact R). vm_compute in R. injection R as <-.
  eexists _, (node_kids (at_way (d_root (file second_namespace)) [6; 0])), (the_token (at_way (d_root (file second_namespace)) [6; 0; 2])). cbv zeta. split; [exact W|]. split; [vm_compute; reflexivity|].
  split; [stand 6|]. split; [exact (at_way_below [0] (at_way (d_root (file second_namespace)) [6]))|]. split; [member|]. split; [word_at 43|]. split; [vm_compute; reflexivity|]. split; [exact used_basket|]. vm_compute. reflexivity.
Qed.
Print Assumptions C78_second_namespace_refuted.
(** The cursor is in front of the first letter. *)
Theorem C78_first_letter_refuted : exists st s header t, let d := file library in
  @workspace ascii_text maybe_filter root_uri shop_history st /\ @analyse ascii_text ascii_trim_space d = Done tt s /\
  below (Ph PhClassDeclarationHeader header) (d_root d) /\ In (Tk t) header /\ getTokenText d t = Some (B "Basket") /\
  OffsetAtPosition (d_text d) (cursor 27) = Some (Z.of_nat (t_offset t)) /\
  referenced shop_history (qualify (B "Lib") (B "Basket")) (Loc uri_a (Rng (Pos 0 54) (Pos 0 60))) /\
  @references maybe_filter st d s (cursor 27) = Some [].
Proof.
  destruct shop_workspace as (st & W). exists st.
  assert (R : run root_uri shop_history = Some st) by (destruct W as (_ & _ & _ & _ & R); exact R). vm_compute in R. injection R as <-.
  eexists _, (node_kids (at_way library_root class_way)), (the_token (at_way library_root (class_way ++ [2]))). cbv zeta. split; [exact W|]. split; [vm_compute; reflexivity|].
  split; [exact (at_way_below class_way library_root)|]. split; [member|]. split; [vm_compute; reflexivity|]. split; [vm_compute; reflexivity|]. split; [exact used_basket|]. vm_compute. reflexivity.
Qed.
Print Assumptions C78_first_letter_refuted.
(** A property with an initial value. *)
Theorem C78_initial_value_refuted : exists st s element t, let d := file library in
  @workspace ascii_text maybe_filter root_uri shop_history st /\ @analyse ascii_text ascii_trim_space d = Done tt s /\
  below (Ph PhPropertyElement element) (d_root d) /\ In (Tk t) element /\ in_word d t (cursor 74) /\ getTokenText d t = Some (B "$" ++ B "open") /\
  referenced shop_history (property_ref (B "open")) (Loc uri_b (Rng (Pos 0 34) (Pos 0 38))) /\
  @references maybe_filter st d s (cursor 74) = Some [].
Proof.
  destruct shop_workspace as (st & W). exists st.
  assert (R : run root_uri shop_history = Some st) by (destruct W as (_ & _ & _ & _ & R); exact R). vm_compute in R. injection R as <-.
  eexists _, (node_kids (at_way library_root (members_way ++ [4; 2; 0]))), (the_token (at_way library_root (members_way ++ [4; 2; 0; 0]))). cbv zeta. split; [exact W|]. split; [vm_compute; reflexivity|].
  split; [exact (at_way_below (members_way ++ [4; 2; 0]) library_root)|]. split; [member|]. split; [word_at 74|]. split; [vm_compute; reflexivity|].
  split; [exists shopping_doc, (EntryInfo (property_ref (B "open")) (Rng (Pos 0 34) (Pos 0 38))); split; [vm_compute; reflexivity|]; split; [reflexivity|]; split; [|split; reflexivity];
    vm_compute; repeat (first [left; reflexivity|right])|]. vm_compute. reflexivity.
Qed.
Print Assumptions C78_initial_value_refuted.
(** A function: "pay()" in the namespace App, which PHP takes for \App\pay or for
    \pay, is given as a reference to \Lib\pay. *)
Theorem C78_namesake_refuted : exists st s, let d := file library in
  @workspace ascii_text maybe_filter root_uri shop_history st /\ @analyse ascii_text ascii_trim_space d = Done tt s /\ main_namespace d (B "Lib") [] /\
  (exists header t, below (Ph PhFunctionDeclarationHeader header) (d_root d) /\ In (Tk t) header /\ in_word d t (cursor 118) /\ getTokenText d t = Some (B "pay")) /\
  (forall loc, ~ referenced shop_history (qualify (B "Lib") (B "pay") ++ B "()") loc) /\
  @references maybe_filter st d s (cursor 118) = Some [Loc uri_a (Rng (Pos 0 46) (Pos 0 49))].
Proof.
  destruct shop_workspace as (st & W). exists st.
  assert (R : run root_uri shop_history = Some st) by (destruct W as (_ & _ & _ & _ & R); exact R). vm_compute in R. injection R as <-.
  eexists. cbv zeta. split; [exact W|]. split; [vm_compute; reflexivity|].
  split; [left; exists [nth 0 (node_kids library_root) (Err None); nth 1 (node_kids library_root) (Err None)], (nth 2 (node_kids library_root) (Err None)), (skipn 3 (items (file library)));
    split; [vm_compute; reflexivity|split; [repeat constructor|vm_compute; reflexivity]]|].
  split; [exists (node_kids (at_way library_root [6; 0])), (the_token (at_way library_root [6; 0; 2]));
    split; [exact (at_way_below [6; 0] library_root)|split; [member|split; [word_at 118|vm_compute; reflexivity]]]|].
  split; [|vm_compute; reflexivity]. intros loc H. destruct (asked root_uri shop_history _ (qualify (B "Lib") (B "pay") ++ B "()") W) as (l & G & Ex).
  assert (N : l = []) by (vm_compute in G; injection G as <-; reflexivity). subst l. apply (Ex loc). eexists. split; [left; reflexivity|exact H].
Qed.
Print Assumptions C78_namesake_refuted.
