(** The recorded variables of a file follow its tree. *)
From Coq Require Import String.
From Coq Require Import List Bool ZArith Lia.
From Coq.Strings Require Import Byte.
From Verif Require Import Base.Bytes Base.Protocol Symbols.Symbols Symbols.KeysModel Text.TextModel Text.PositionModel
  Types.TypesModel Types.ImportModel Rpc.StreamModel Ide.VariableModel Ide.VariableSpec
  Analyse.SyntaxModel Analyse.AnalyseModel Analyse.AnalyseSpec Analyse.SpecProofs Analyse.LeafProofs Rename.TraceSpec.
Import ListNotations.
Open Scope list_scope.
Open Scope nat_scope.

Section Trace.
Context {TX : Text} {TR : TrimSpace} (d : document).
(** what is known of the operations for the code of a function *)
Variable Q : node -> list var_op -> Prop.

Lemma trace_app : forall n a, trace d Q n a -> forall b, trace d Q n b -> trace d Q n (a ++ b).
Proof.
  intros n a H. induction H as [n|n v st dc ops W H IH|n v ops W H IH|n f inner ops Bl F Qf Hi IHi H IH]; intros b Hb; cbn [app].
  - exact Hb.
  - exact (trace_record d Q n v st dc _ W (IH b Hb)).
  - exact (trace_capture d Q n v _ W (IH b Hb)).
  - rewrite <- app_assoc. exact (trace_function d Q n f inner (ops ++ b) Bl F Qf Hi (IH b Hb)).
Qed.
Lemma trace_balanced : forall n ops, trace d Q n ops -> forall k rest, balanced k rest -> balanced k (ops ++ rest).
Proof.
  intros n ops H. induction H as [n|n v st dc ops W H IH|n v ops W H IH|n f inner ops Bl F Qf Hi IHi H IH]; intros k rest Hr; cbn [app balanced]; auto.
  rewrite <- app_assoc. apply IHi. cbn [app balanced]. exact (IH k rest Hr).
Qed.
Lemma trace_balanced0 : forall n ops, trace d Q n ops -> balanced 0 ops.
Proof. intros n ops H. rewrite <- (app_nil_r ops). exact (trace_balanced n ops H 0 [] eq_refl). Qed.
Lemma written_below : forall m n v, below m n -> written d m v -> written d n v.
Proof.
  intros m n v Bl [E|(x & X & R)]; [left; exact E|right; exists x; split; [exact (below_trans _ _ _ X Bl)|exact R]].
Qed.
Lemma trace_below : forall m a, trace d Q m a -> forall n, below m n -> trace d Q n a.
Proof.
  intros m a H. induction H as [m|m v st dc ops W H IH|m v ops W H IH|m f inner ops Bl F Qf Hi IHi H IH]; intros n L; try constructor; auto.
  - exact (written_below _ _ _ L W).
  - exact (written_below _ _ _ L W).
  - exact (below_trans _ _ _ Bl L).
Qed.

(** ** Runs *)
Definition does {A} (T : list var_op -> Prop) (m : M A) (P0 : A -> Prop) : Prop :=
  forall s a s', m s = Done a s' -> (exists ops, st_vars s' = st_vars s ++ ops /\ T ops) /\ P0 a.
Definition quiet {A} (m : M A) : Prop := forall s a s', m s = Done a s' -> st_vars s' = st_vars s.
Definition tr {A} (n : node) (m : M A) : Prop := does (trace d Q n) m any.

Lemma q_ret : forall A (a : A), quiet (ret a).
Proof. intros A a s b s' E. injection E as _ <-. reflexivity. Qed.
Lemma q_bind : forall A B (m : M A) (f : A -> M B), quiet m -> (forall a, quiet (f a)) -> quiet (bind m f).
Proof.
  intros A B m f H1 H2 s b s' E. unfold bind in E. destruct (m s) as [a s1| |] eqn:E1; try discriminate.
  rewrite (H2 a s1 b s' E). exact (H1 s a s1 E1).
Qed.
Lemma q_forM : forall A (l : list A) (f : A -> M unit), (forall x, quiet (f x)) -> quiet (forM l f).
Proof. intros A l f H. induction l as [|x l IH]; cbn [forM]; [apply q_ret|apply q_bind; auto]. Qed.
Lemma q_foldM : forall A B (l : list A) (f : B -> A -> M B) b, (forall b x, quiet (f b x)) -> quiet (foldM l f b).
Proof. intros A B l f b H. revert b. induction l as [|x l IH]; intros b; cbn [foldM]; [apply q_ret|apply q_bind; auto]. Qed.
Lemma q_panic : forall A, quiet (@panic A).
Proof. intros A s a s' E. discriminate E. Qed.
Lemma q_lift : forall A (o : option A), quiet (lift o).
Proof. intros A [a|]; [apply q_ret|apply q_panic]. Qed.
Lemma q_get : forall A (f : state -> A), quiet (get f).
Proof. intros A f s a s' E. injection E as _ <-. reflexivity. Qed.
Ltac prim := intros; intros ? ? ? E; injection E as <- <-; reflexivity.
Lemma q_emit : forall x, quiet (emit x).
Proof. prim. Qed.
Lemma q_set_block : forall x, quiet (set_block x).
Proof. prim. Qed.
Lemma q_addClass : forall x, quiet (addClass x).
Proof. prim. Qed.
Lemma q_change_class : forall i f, quiet (change_class i f).
Proof. prim. Qed.
Lemma q_set_doc : forall x, quiet (set_doc x).
Proof. prim. Qed.
Lemma q_set_imports : forall x, quiet (set_imports x).
Proof. prim. Qed.
Lemma q_in_block : forall A b (m : M A), quiet m -> quiet (in_block b m).
Proof.
  intros A b m H s a s' E. unfold in_block in E. destruct (m _) as [x t| |] eqn:E1; try discriminate. injection E as <- <-. cbn [st_vars].
  exact (H _ _ _ E1).
Qed.

Create HintDb quiet discriminated.
#[local] Hint Constants Opaque : quiet.
Hint Resolve q_ret q_panic q_lift q_get q_emit q_set_block q_addClass q_change_class q_set_doc q_set_imports : quiet.
Ltac qt := repeat first
  [ solve [eauto 2 with quiet nocore]
  | progress cbv beta zeta
  | apply q_bind; [|intros ?]
  | apply q_forM; intros ?
  | apply q_foldM; intros ? ?
  | apply q_in_block
  | match goal with |- quiet (match ?x with _ => _ end) => destruct x | |- quiet (match ?x with _ => _ end _) => destruct x end ].

Lemma q_emit1 : forall a, quiet (emit1 a). Proof. intros a. exact (q_emit _). Qed.
Hint Resolve q_emit1 : quiet.
Lemma q_pushImportTable : forall n, quiet (pushImportTable d n). Proof. intros n. unfold pushImportTable. qt. Qed.
Hint Resolve q_pushImportTable : quiet.
Lemma q_currImportTable : quiet (currImportTable d). Proof. unfold currImportTable. qt. Qed.
Hint Resolve q_currImportTable : quiet.
Lemma q_get_table : forall i, quiet (get_table i). Proof. intros i. unfold get_table. qt. Qed.
Lemma q_change_table : forall i f, quiet (change_table i f). Proof. intros i f. unfold change_table. qt. Qed.
Hint Resolve q_get_table q_change_table : quiet.
Lemma q_currNamespace : quiet (currNamespace d). Proof. unfold currNamespace. qt. Qed.
Lemma q_resolveClass : forall t, quiet (resolveClass d t). Proof. intros t. unfold resolveClass. qt. Qed.
Hint Resolve q_currNamespace q_resolveClass : quiet.
Lemma q_tokenText : forall t, quiet (tokenText d t). Proof. intros t. unfold tokenText. qt. Qed.
Lemma q_phraseText : forall t, quiet (phraseText d t). Proof. intros t. unfold phraseText. qt. Qed.
Lemma q_nodeText : forall t, quiet (nodeText d t). Proof. intros t. unfold nodeText. qt. Qed.
Lemma q_newTypeString : forall t, quiet (newTypeString t). Proof. intros t. unfold newTypeString. qt. Qed.
Hint Resolve q_tokenText q_phraseText q_nodeText q_newTypeString : quiet.
Lemma q_transformQualifiedName : forall n, quiet (transformQualifiedName d n). Proof. intros n. unfold transformQualifiedName. qt. Qed.
Hint Resolve q_transformQualifiedName : quiet.
Lemma q_classReference : forall n, quiet (classReference d n). Proof. intros n. unfold classReference. qt. Qed.
Lemma q_getValidPhpDoc : forall r, quiet (getValidPhpDoc r). Proof. intros r. unfold getValidPhpDoc. qt. Qed.
Lemma q_getLastClass : quiet getLastClass. Proof. unfold getLastClass. qt. Qed.
Hint Resolve q_classReference q_getValidPhpDoc q_getLastClass : quiet.
Lemma q_typesFromPhpDoc : forall x, quiet (typesFromPhpDoc d x). Proof. intros x. unfold typesFromPhpDoc. qt. Qed.
Hint Resolve q_typesFromPhpDoc : quiet.
Lemma q_merge_tags : forall a b, quiet (merge_tags d a b). Proof. intros a b. unfold merge_tags. qt. Qed.
Lemma q_newTypeDeclaration : forall a, quiet (newTypeDeclaration d a). Proof. intros a. unfold newTypeDeclaration. qt. Qed.
Lemma q_newDirectoryConstantAccess : forall a, quiet (newDirectoryConstantAccess d a). Proof. intros a. unfold newDirectoryConstantAccess. qt. Qed.
Lemma q_newConstantAccess : forall a, quiet (newConstantAccess d a). Proof. intros a. unfold newConstantAccess. qt. Qed.
Lemma q_relativeTypes : quiet relativeTypes. Proof. unfold relativeTypes. qt. Qed.
Lemma q_parentTypes : quiet parentTypes. Proof. unfold parentTypes. qt. Qed.
Lemma q_newNameAccess : forall k n, quiet (newNameAccess d k n). Proof. intros k n. unfold newNameAccess. qt. Qed.
Hint Resolve q_merge_tags q_newTypeDeclaration q_newDirectoryConstantAccess q_newConstantAccess q_relativeTypes q_parentTypes q_newNameAccess : quiet.
Lemma q_newVariableWithoutPushing : forall n, quiet (newVariableWithoutPushing d n). Proof. intros n. unfold newVariableWithoutPushing. qt. Qed.
Hint Resolve q_newVariableWithoutPushing : quiet.
Lemma q_parameter_loop : forall kids p a b, quiet (parameter_loop d kids p a b).
Proof.
  induction kids as [|c kids IH]; intros p a b; cbn [parameter_loop]; [qt|]. destruct c as [ty ks|t|u]; [| |apply IH].
  - destruct ty; qt.
  - destruct (t_type t); qt.
Qed.
Hint Resolve q_parameter_loop : quiet.
Lemma q_newParameter : forall n, quiet (newParameter d n). Proof. intros n. unfold newParameter. qt. Qed.
Hint Resolve q_newParameter : quiet.
Lemma q_analyseParameterDeclarationList : forall kids, quiet (analyseParameterDeclarationList d kids).
Proof. intros kids. unfold analyseParameterDeclarationList. qt. Qed.
Lemma q_apply_function_doc : forall a b, quiet (apply_function_doc d a b). Proof. intros a b. unfold apply_function_doc. qt. Qed.
Hint Resolve q_analyseParameterDeclarationList q_apply_function_doc : quiet.
Lemma q_processTypeNode : forall n, quiet (processTypeNode d n). Proof. intros n. unfold processTypeNode. qt. Qed.
Hint Resolve q_processTypeNode : quiet.
Lemma q_processTypeUnionNode : forall n, quiet (processTypeUnionNode d n). Proof. intros n. unfold processTypeUnionNode. qt. Qed.
Hint Resolve q_processTypeUnionNode : quiet.
Lemma q_tag_type : forall a b, quiet (tag_type d a b). Proof. intros a b. unfold tag_type. qt. Qed.
Hint Resolve q_tag_type : quiet.
Lemma q_typeTag : forall a b c, quiet (typeTag d a b c). Proof. intros a b c. unfold typeTag. qt. Qed.
Lemma q_methodParam : forall a, quiet (methodParam d a). Proof. intros a. unfold methodParam. qt. Qed.
Hint Resolve q_typeTag q_methodParam : quiet.
Lemma q_processParamList : forall a, quiet (processParamList d a). Proof. intros a. unfold processParamList. qt. Qed.
Hint Resolve q_processParamList : quiet.
Lemma q_methodTag : forall a b, quiet (methodTag d a b). Proof. intros a b. unfold methodTag. qt. Qed.
Lemma q_getTagName : forall l, quiet (getTagName d l).
Proof. induction l as [|c l IH]; cbn [getTagName]; qt. Qed.
Hint Resolve q_methodTag q_getTagName : quiet.
Lemma q_parseTag : forall l, quiet (parseTag d l). Proof. intros l. unfold parseTag. qt. Qed.
Hint Resolve q_parseTag : quiet.
Lemma q_newPhpDocFromNode : forall n l, quiet (newPhpDocFromNode d n l). Proof. intros n l. unfold newPhpDocFromNode. qt. Qed.
Lemma q_addUseToImportTable : forall a b c e, quiet (addUseToImportTable d a b c e). Proof. intros a b c e. unfold addUseToImportTable. qt. Qed.
Lemma q_getAliasFromNode : forall l, quiet (getAliasFromNode d l).
Proof. induction l as [|c l IH]; cbn [getAliasFromNode]; qt. Qed.
Hint Resolve q_newPhpDocFromNode q_addUseToImportTable q_getAliasFromNode : quiet.
Lemma q_use_clause : forall l, quiet (use_clause d l). Proof. intros l. unfold use_clause. qt. Qed.
Hint Resolve q_use_clause : quiet.
Lemma q_processNamespaceUseClauseList : forall u l, quiet (processNamespaceUseClauseList d u l).
Proof. intros u l. unfold processNamespaceUseClauseList. qt. Qed.
Lemma q_processNamespaceUseGroupClauseList : forall p u l, quiet (processNamespaceUseGroupClauseList d p u l).
Proof. intros p u l. unfold processNamespaceUseGroupClauseList. qt. Qed.
Hint Resolve q_processNamespaceUseClauseList q_processNamespaceUseGroupClauseList : quiet.
Lemma q_processNamespaceUseDeclaration : forall l, quiet (processNamespaceUseDeclaration d l).
Proof. intros l. unfold processNamespaceUseDeclaration. qt. Qed.
Lemma q_const_loop : forall kids a b c e f, quiet (const_loop d kids a b c e f).
Proof.
  induction kids as [|c kids IH]; intros a b x e f; cbn [const_loop]; [qt|]. destruct c as [ty ks|t|u]; [qt| |apply IH].
  destruct (t_type t); qt.
Qed.
Hint Resolve q_processNamespaceUseDeclaration q_const_loop : quiet.
Lemma q_newConst : forall n l, quiet (newConst d n l). Proof. intros n l. unfold newConst. qt. Qed.
Lemma q_isDefine_loop : forall l, quiet (isDefine_loop d l).
Proof. induction l as [|c l IH]; cbn [isDefine_loop]; qt. Qed.
Hint Resolve q_newConst q_isDefine_loop : quiet.
Lemma q_isDefine : forall n, quiet (isDefine d n). Proof. intros n. unfold isDefine. qt. Qed.
Hint Resolve q_isDefine : quiet.
Lemma q_class_implements : forall i l, quiet (class_implements d i l).
Proof. induction l as [|c l IH]; cbn [class_implements]; qt. Qed.
Lemma q_doc_property : forall a b c, quiet (doc_property d a b c). Proof. intros a b c. unfold doc_property. qt. Qed.
Lemma q_doc_method : forall a b c, quiet (doc_method d a b c). Proof. intros a b c. unfold doc_method. qt. Qed.
Lemma q_class_symbol : forall a b, quiet (class_symbol a b). Proof. intros a b. unfold class_symbol. qt. Qed.
Lemma q_interface_extends : forall a b, quiet (interface_extends d a b). Proof. intros a b. unfold interface_extends. qt. Qed.
Lemma q_trait_header : forall a b, quiet (trait_header d a b). Proof. intros a b. unfold trait_header. qt. Qed.
Hint Resolve q_class_implements q_doc_property q_doc_method q_class_symbol q_interface_extends q_trait_header : quiet.
Lemma q_interface_header : forall a b, quiet (interface_header d a b). Proof. intros a b. unfold interface_header. qt. Qed.
Lemma q_processTraitUseClause : forall b, quiet (processTraitUseClause d b). Proof. intros b. unfold processTraitUseClause. qt. Qed.
Lemma q_function_header : forall a b, quiet (function_header d a b). Proof. intros a b. unfold function_header. qt. Qed.
Lemma q_method_header : forall a b, quiet (method_header d a b). Proof. intros a b. unfold method_header. qt. Qed.
Lemma q_member_scope : quiet (member_scope d). Proof. unfold member_scope. qt. Qed.
Lemma q_define_args : forall a b, quiet (define_args d a b). Proof. intros a b. unfold define_args. qt. Qed.
Lemma q_member_name_of : forall a, quiet (member_name_of d a). Proof. intros a. unfold member_name_of. qt. Qed.
Hint Resolve q_interface_header q_processTraitUseClause q_function_header q_method_header q_member_scope q_define_args q_member_name_of : quiet.

(** ** Runs that record variables *)
Definition val {A} (m : M A) (P0 : A -> Prop) : Prop := forall s a s', m s = Done a s' -> P0 a.
Lemma tr_quiet : forall A n (m : M A), quiet m -> tr n m.
Proof.
  intros A n m H s a s' E. split; [|exact I]. exists []. rewrite app_nil_r. split; [exact (H s a s' E)|constructor].
Qed.
Lemma tr_bind_val : forall A B n (m : M A) (f : A -> M B) P0, tr n m -> val m P0 -> (forall a, P0 a -> tr n (f a)) -> tr n (bind m f).
Proof.
  intros A B n m f P0 H1 V H2 s b s' E. unfold bind in E. destruct (m s) as [a s1| |] eqn:E1; try discriminate.
  destruct (H1 s a s1 E1) as ((o1 & O1 & T1) & _). destruct (H2 a (V _ _ _ E1) s1 b s' E) as ((o2 & O2 & T2) & _).
  split; [|exact I]. exists (o1 ++ o2). rewrite O2, O1, app_assoc. split; [reflexivity|exact (trace_app n o1 T1 o2 T2)].
Qed.
Lemma val_any : forall A (m : M A), val m any.
Proof. intros A m s a s' _. exact I. Qed.
Lemma tr_bind : forall A B n (m : M A) (f : A -> M B), tr n m -> (forall a, tr n (f a)) -> tr n (bind m f).
Proof. intros A B n m f H1 H2. exact (tr_bind_val A B n m f any H1 (val_any A m) (fun a _ => H2 a)). Qed.
Lemma tr_forM : forall A n (l : list A) (f : A -> M unit), (forall x, In x l -> tr n (f x)) -> tr n (forM l f).
Proof.
  intros A n l f. induction l as [|x l IH]; intros H; cbn [forM]; [apply tr_quiet; qt|].
  apply tr_bind; [exact (H x (or_introl eq_refl))|]. intros _. apply IH. intros y Y. exact (H y (or_intror Y)).
Qed.
Lemma val_ret : forall A (a : A) (P0 : A -> Prop), P0 a -> val (ret a) P0.
Proof. intros A a P0 H s b s' E. injection E as <- _. exact H. Qed.
Lemma val_bind : forall A B (m : M A) (f : A -> M B) P0 R, val m P0 -> (forall a, P0 a -> val (f a) R) -> val (bind m f) R.
Proof.
  intros A B m f P0 R H1 H2 s b s' E. unfold bind in E. destruct (m s) as [a s1| |] eqn:E1; try discriminate.
  exact (H2 a (H1 _ _ _ E1) s1 b s' E).
Qed.
Lemma val_bind_any : forall A B (m : M A) (f : A -> M B) R, (forall a, val (f a) R) -> val (bind m f) R.
Proof. intros A B m f R H. exact (val_bind A B m f any R (val_any A m) (fun a _ => H a)). Qed.
Lemma val_foldM : forall A B (l : list A) (f : B -> A -> M B) b (J : B -> Prop), J b -> (forall b x, In x l -> J b -> val (f b x) J) -> val (foldM l f b) J.
Proof.
  intros A B l f b J. revert b. induction l as [|x l IH]; intros b H0 H; cbn [foldM]; [exact (val_ret B b J H0)|].
  apply (val_bind B B _ _ J J); [exact (H b x (or_introl eq_refl) H0)|]. intros b' Jb. apply IH; [exact Jb|]. intros b2 y Y. exact (H b2 y (or_intror Y)).
Qed.
Lemma tr_foldM_val : forall A B n (l : list A) (f : B -> A -> M B) b (J : B -> Prop), J b ->
  (forall b x, In x l -> J b -> tr n (f b x) /\ val (f b x) J) -> tr n (foldM l f b).
Proof.
  intros A B n l f b J. revert b. induction l as [|x l IH]; intros b H0 H; cbn [foldM]; [apply tr_quiet; qt|].
  destruct (H b x (or_introl eq_refl) H0) as (T & V).
  apply (tr_bind_val B B n _ _ J T V). intros b' Jb. apply IH; [exact Jb|]. intros b2 y Y. exact (H b2 y (or_intror Y)).
Qed.
Lemma tr_foldM : forall A B n (l : list A) (f : B -> A -> M B) b, (forall b x, In x l -> tr n (f b x)) -> tr n (foldM l f b).
Proof. intros A B n l f b H. apply (tr_foldM_val A B n l f b any I). intros c x X _. split; [exact (H c x X)|apply val_any]. Qed.
Lemma tr_in_block : forall A n b (m : M A), tr n m -> tr n (in_block b m).
Proof.
  intros A n b m H s a s' E. unfold in_block in E. destruct (m _) as [x t| |] eqn:E1; try discriminate. injection E as <- <-. cbn [st_vars].
  destruct (H _ _ _ E1) as (O & _). split; [exact O|exact I].
Qed.
Lemma tr_below : forall A m n (x : M A), below m n -> tr m x -> tr n x.
Proof.
  intros A m n x Bl H s a s' E. destruct (H s a s' E) as ((ops & O & T) & _). split; [|exact I]. exists ops. split; [exact O|exact (trace_below m ops T n Bl)].
Qed.
Lemma val_nodeText : forall m, val (nodeText d m) (fun x => GetNodeText d m = Some x).
Proof. intros m s a s' E. unfold nodeText, lift in E. destruct (GetNodeText d m) as [x|]; [injection E as <- _; reflexivity|discriminate E]. Qed.
Lemma val_phraseText : forall ty ks, val (phraseText d (Ph ty ks)) (fun x => GetNodeText d (Ph ty ks) = Some x).
Proof. exact (fun ty ks => val_nodeText (Ph ty ks)). Qed.
Lemma val_tokenText : forall t, val (tokenText d t) (fun x => GetNodeText d (Tk t) = Some x).
Proof. exact (fun t => val_nodeText (Tk t)). Qed.

(** *** Variables *)
Definition of_node (m : node) (v : adata) : Prop := a_range v = NodeRange d m /\ GetNodeText d m = Some (ts_original (a_name v)).
Lemma val_newVariableWithoutPushing : forall m, val (newVariableWithoutPushing d m) (of_node m).
Proof.
  intros m. unfold newVariableWithoutPushing. apply (val_bind _ _ _ _ _ _ (val_nodeText m)). intros name N.
  cbv zeta. apply val_bind_any. intros doc. apply val_bind_any. intros types. apply val_ret. split; [reflexivity|exact N].
Qed.
Lemma of_node_written : forall m n v, below m n -> variable_node m -> of_node m v -> written d n (MkVar (ts_original (a_name v)) (a_range v)).
Proof. intros m n v Bl V (Rg & N). right. exists m. auto. Qed.
Lemma tr_record : forall n v st dc, written d n v -> tr n (var_do (RecordVar v st dc)).
Proof.
  intros n v st dc W s a s' E. injection E as <- <-. split; [|exact I]. exists [RecordVar v st dc]. split; [reflexivity|]. constructor; [exact W|constructor].
Qed.
Lemma tr_capture : forall n v, written d n v -> tr n (var_do (Capture v)).
Proof.
  intros n v W s a s' E. injection E as <- <-. split; [|exact I]. exists [Capture v]. split; [reflexivity|]. constructor; [exact W|constructor].
Qed.
Lemma tr_newVariable : forall n m dc, below m n -> variable_node m -> tr n (newVariable d m dc).
Proof.
  intros n m dc Bl V. unfold newVariable. apply (tr_bind_val _ _ _ _ _ _ (tr_quiet _ n _ (q_newVariableWithoutPushing m)) (val_newVariableWithoutPushing m)).
  intros v O. apply tr_bind; [apply tr_record; exact (of_node_written m n v Bl V O)|]. intros _. apply tr_quiet. qt.
Qed.
Lemma tr_newGlobalVariable : forall n ks, below (Ph PhSimpleVariable ks) n -> tr n (newGlobalVariable d (Ph PhSimpleVariable ks)).
Proof.
  intros n ks Bl. unfold newGlobalVariable. cbv zeta. apply (tr_bind_val _ _ _ _ _ _ (tr_quiet _ n _ (q_phraseText _)) (val_phraseText _ ks)). intros name N.
  apply tr_bind; [apply tr_quiet; qt|]. intros doc. apply tr_bind; [apply tr_quiet; qt|]. intros types.
  apply tr_bind; [|intros _; apply tr_quiet; qt]. apply tr_record. right. exists (Ph PhSimpleVariable ks). cbn. auto.
Qed.

(** *** Parameters *)
Definition param_ok (n : node) (p : param) : Prop := written d n (MkVar (pm_name p) (pm_range p)).
Lemma val_parameter_loop : forall n kids p a b, under kids n -> param_ok n p -> val (parameter_loop d kids p a b) (param_ok n).
Proof.
  intros n. induction kids as [|c kids IH]; intros p a b U P; cbn [parameter_loop]; [exact (val_ret _ _ _ P)|].
  assert (Ut : under kids n) by (intros x X; exact (U x (or_intror X))).
  assert (A : forall v e f, val (parameter_loop d kids (add_value p v) e f) (param_ok n)) by (intros v e f; apply IH; [exact Ut|exact P]).
  assert (A0 : forall e f, val (parameter_loop d kids p e f) (param_ok n)) by (intros e f; exact (IH _ _ _ Ut P)).
  destruct c as [ty ks|t|u]; [| |apply A0].
  - destruct ty; try (destruct a; [apply val_bind_any; intros v; apply A|apply A0]).
    + apply val_bind_any; intros v. apply val_bind_any; intros _. destruct a; [apply val_bind_any; intros w; apply A|apply A0].
    + apply val_bind_any; intros v. apply val_bind_any; intros _. apply A0.
  - destruct (t_type t) eqn:T; try apply A0; try (cbv zeta; destruct (b && _); [apply A0|]; destruct a; [apply val_bind_any; intros v; apply A|apply A0]).
    apply (val_bind _ _ _ _ _ _ (val_tokenText t)). intros name N. apply IH; [exact Ut|]. right. exists (Tk t).
    split; [exact (U _ (or_introl eq_refl))|]. split; [exact T|]. split; [reflexivity|exact N].
Qed.
Lemma val_newParameter : forall m n, below m n -> val (newParameter d m) (param_ok n).
Proof.
  intros m n Bl. unfold newParameter. destruct m as [ty kids|t|u]; [|apply val_ret; left; reflexivity|apply val_ret; left; reflexivity].
  apply val_parameter_loop; [|left; reflexivity]. intros c C. exact (below_trans _ _ _ (below_child ty kids c C) Bl).
Qed.
Lemma val_params : forall n kids, under kids n -> val (analyseParameterDeclarationList d kids) (Forall (param_ok n)).
Proof.
  intros n kids U. unfold analyseParameterDeclarationList. apply val_foldM; [constructor|]. intros ps c C F.
  destruct c as [ty ks|t|u]; try exact (val_ret _ _ _ F). destruct ty; try exact (val_ret _ _ _ F).
  apply (val_bind _ _ _ _ _ _ (val_newParameter _ n (U _ C))). intros p P. apply val_ret. apply Forall_app. auto.
Qed.
Lemma tr_declare_params : forall n h ps, Forall (param_ok n) ps -> tr n (declare_params d h ps).
Proof.
  intros n h ps F. rewrite Forall_forall in F. apply tr_forM. intros p P. destruct (LastToken h); [exact (tr_record _ _ _ _ (F p P))|apply tr_quiet; qt].
Qed.
Lemma under_deeper : forall n kids ty ks, under kids n -> In (Ph ty ks) kids -> under ks n.
Proof. intros n kids ty ks U C x X. exact (below_trans _ _ _ (below_child ty ks x X) (U _ C)). Qed.
Definition sig_ok (n : node) (s : signature) : Prop := Forall (param_ok n) (sg_params s).
Lemma val_function_header : forall n s kids, under kids n -> sig_ok n s -> val (function_header d s kids) (sig_ok n).
Proof.
  intros n s kids U S0. unfold function_header. apply val_foldM; [exact S0|]. intros s1 c C S.
  destruct c as [ty ks|t|u]; try exact (val_ret _ _ _ S).
  - destruct ty; try exact (val_ret _ _ _ S).
    all: first [ apply (val_bind _ _ _ _ _ _ (val_params n ks (under_deeper _ _ _ _ U C))); intros ps P; apply val_ret; apply Forall_app; auto
               | apply val_bind_any; intros x; apply val_bind_any; intros y; apply val_ret; exact S ].
  - destruct (t_type t); try exact (val_ret _ _ _ S). apply val_bind_any; intros x; apply val_bind_any; intros y; apply val_ret; exact S.
Qed.
Lemma val_method_header : forall n s kids, under kids n -> sig_ok n s -> val (method_header d s kids) (sig_ok n).
Proof.
  intros n s kids U S0. unfold method_header. apply val_foldM; [exact S0|]. intros s1 c C S.
  destruct c as [ty ks|t|u]; try exact (val_ret _ _ _ S).
  - destruct ty; try exact (val_ret _ _ _ S).
    all: first [ apply (val_bind _ _ _ _ _ _ (val_params n ks (under_deeper _ _ _ _ U C))); intros ps P; apply val_ret; apply Forall_app; auto
               | apply val_bind_any; intros x; apply val_ret; exact S
               | destruct (getMemberModifier ks) as ((v, st), m); apply val_ret; exact S ].
  - destruct (t_type t); try exact (val_ret _ _ _ S). apply val_bind_any; intros x; apply val_ret; exact S.
Qed.
(** a function, method or closure *)
Definition closes {A} (m : M A) : Prop := forall s a s', m s = Done a s' -> st_vars s' = st_vars s ++ [CloseScope].
Lemma closes_before : forall A B (m : M A) (f : A -> M B), quiet m -> (forall a, closes (f a)) -> closes (bind m f).
Proof.
  intros A B m f H1 H2 s b s' E. unfold bind in E. destruct (m s) as [a s1| |] eqn:E1; try discriminate. rewrite (H2 a s1 b s' E), (H1 s a s1 E1). reflexivity.
Qed.
Lemma closes_now : forall A (m : M A), quiet m -> closes (var_do CloseScope ;;; m).
Proof. intros A m H s a s' E. unfold bind, var_do in E. exact (H _ _ _ E). Qed.
Lemma tr_scope : forall A B C n (whole : M B) (pre : M C) (m : C -> M A) (k : C -> A -> M B), function_node n -> quiet pre ->
  (forall c, tr n (m c)) -> (forall c a, closes (k c a)) -> whole = (c <- pre ;; var_do (OpenScope (NodeRange d n)) ;;; bind (m c) (k c)) ->
  (forall s u s' inner, whole s = Done u s' -> balanced 0 inner -> st_vars s' = st_vars s ++ OpenScope (NodeRange d n) :: inner ++ [CloseScope] -> Q n inner) ->
  tr n whole.
Proof.
  intros A B C n whole pre m k F H0 H1 H2 Eq HQ s b s' E. pose proof (HQ s b s') as HQ'. rewrite Eq in E. unfold bind, var_do in E.
  destruct (pre s) as [c s0| |] eqn:E0; try discriminate. set (s1 := St _ _ _ _ _ _) in E. destruct (m c s1) as [a s2| |] eqn:E1; try discriminate.
  destruct (H1 c s1 a s2 E1) as ((ops & O & T) & _). assert (O2 : st_vars s' = st_vars s ++ OpenScope (NodeRange d n) :: ops ++ [CloseScope]).
  { rewrite (H2 c a s2 b s' E), O. subst s1. cbn [st_vars]. rewrite (H0 s c s0 E0), <- !app_assoc. reflexivity. }
  split; [|exact I]. exists (OpenScope (NodeRange d n) :: ops ++ [CloseScope]). split; [exact O2|]. apply trace_function; auto; [constructor| |constructor].
  apply (HQ' ops); [|exact (trace_balanced0 _ _ T)|exact O2]. rewrite Eq. unfold bind, var_do. rewrite E0. fold s1. rewrite E1. exact E.
Qed.

(** ** The constructors *)
Section Open.
Variable scan : node -> M unit.
Variable expr : node -> M (option adata).
Hypothesis rec_scan : forall c, tr c (scan c).
Hypothesis rec_expr : forall c, tr c (expr c).
Hypothesis HQ : forall ty kids s u s' inner, function_node (Ph ty kids) -> symbol_of d scan expr (Ph ty kids) ty kids s = Done u s' -> balanced 0 inner ->
  st_vars s' = st_vars s ++ OpenScope (NodeRange d (Ph ty kids)) :: inner ++ [CloseScope] -> Q (Ph ty kids) inner.
Lemma tr_scan : forall n c, below c n -> tr n (scan c).
Proof. intros n c Bl. exact (tr_below _ c n _ Bl (rec_scan c)). Qed.
Lemma tr_expr : forall n c, below c n -> tr n (expr c).
Proof. intros n c Bl. exact (tr_below _ c n _ Bl (rec_expr c)). Qed.
Lemma below_in : forall n kids c, In c kids -> under kids n -> below c n.
Proof. intros n kids c C U. exact (U c C). Qed.
Lemma under_in : forall n kids ty ks, In (Ph ty ks) kids -> under kids n -> under ks n.
Proof. intros n kids ty ks C U. exact (under_deeper n kids ty ks U C). Qed.
Lemma under_own : forall ty kids, under kids (Ph ty kids).
Proof. intros ty kids c C. exact (below_child ty kids c C). Qed.
Lemma under_tail : forall n c kids, under (c :: kids) n -> under kids n.
Proof. intros n c kids U x X. exact (U x (or_intror X)). Qed.
Lemma under_head : forall n c kids, under (c :: kids) n -> below c n.
Proof. intros n c kids U. exact (U c (or_introl eq_refl)). Qed.
Create HintDb trace discriminated.
#[local] Hint Constants Opaque : trace.
Hint Resolve tr_scan tr_expr below_in under_in under_own under_tail under_head below_here : trace.
Hint Extern 1 (variable_node _) => exact I : trace.
Ltac tq := repeat first
  [ solve [eauto 4 with trace nocore]
  | solve [apply tr_quiet; eauto 2 with quiet nocore]
  | progress cbv beta zeta
  | match goal with |- forall _, tr _ _ => intros ? end
  | apply tr_bind; [|intros ?]
  | apply tr_forM; intros ? ?
  | apply tr_foldM; intros ? ? ?
  | apply tr_in_block
  | match goal with |- tr _ (match ?x with _ => _ end) => destruct x | |- tr _ (match ?x with _ => _ end _) => destruct x end ].
Lemma tr_scanForChildren : forall n kids, under kids n -> tr n (scanForChildren scan kids).
Proof. intros n kids U. unfold scanForChildren. tq. Qed.
Hint Resolve tr_scanForChildren : trace.
Lemma tr_newArgumentList : forall n c ks, under ks n -> tr n (newArgumentList d scan c ks).
Proof. intros n c ks U. unfold newArgumentList. tq. Qed.
Hint Resolve tr_newArgumentList : trace.
Lemma tr_newClassAccess : forall n c, below c n -> tr n (newClassAccess d expr c).
Proof. intros n c Bl. unfold newClassAccess. tq. Qed.
Hint Resolve tr_newClassAccess : trace.
Lemma tr_class_extends : forall n i kids, under kids n -> tr n (class_extends d expr i kids).
Proof.
  intros n i kids U. unfold class_extends.
  apply (tr_bind_val _ _ n _ _ (fun l : option node => forall c, l = Some c -> below c n)).
  - tq.
  - apply val_foldM; [discriminate|]. intros last c C J. destruct c as [ty ks|t|u]; try (apply val_ret; exact J).
    destruct ty; try (apply val_ret; exact J).
    all: apply val_bind_any; intros t; apply val_bind_any; intros _; apply val_ret; intros x E; injection E as <-; exact (U _ C).
  - intros [c|] J; [|tq]. pose proof (J c eq_refl) as Bl. tq.
Qed.
Hint Resolve tr_class_extends : trace.
Lemma tr_class_header : forall n i doc kids, under kids n -> tr n (class_header d scan expr i doc kids).
Proof. intros n i doc kids U. unfold class_header. tq. Qed.
Hint Resolve tr_class_header : trace.
Lemma tr_newClass : forall n c kids, under kids n -> tr n (newClass d scan expr c kids).
Proof. intros n c kids U. unfold newClass. tq. Qed.
Lemma tr_newAnonymousClass : forall n c kids, under kids n -> tr n (newAnonymousClass d scan expr c kids).
Proof. intros n c kids U. unfold newAnonymousClass. tq. Qed.
Lemma tr_newInterface : forall n c kids, under kids n -> tr n (newInterface d scan c kids).
Proof. intros n c kids U. unfold newInterface. tq. Qed.
Lemma tr_newTrait : forall n c kids, under kids n -> tr n (newTrait d scan c kids).
Proof. intros n c kids U. unfold newTrait. tq. Qed.
Hint Resolve tr_newClass tr_newAnonymousClass tr_newInterface tr_newTrait : trace.
Lemma tr_newFunction : forall ty kids, ty = PhFunctionDeclaration -> tr (Ph ty kids) (newFunction d scan (Ph ty kids) kids).
Proof.
  intros ty kids Ty. eapply (tr_scope _ _ _ (Ph ty kids) _ (getValidPhpDoc (NodeRange d (Ph ty kids)))).
  5: { unfold newFunction. cbv zeta. reflexivity. }
  1: { rewrite Ty. exact I. } 1: { qt. }
  3: { intros s u s' inner E. apply (HQ ty kids s u s' inner); rewrite Ty in *; [exact I|exact E]. }
  - intros doc. apply tr_in_block. apply (tr_foldM_val _ _ _ _ _ _ (fun p => sig_ok (Ph ty kids) (fst p))); [constructor|].
    intros (s, types) c C S. cbn [fst] in S. destruct c as [ty' ks|t|u]; try (split; [tq|(apply val_ret; exact S)]).
    destruct ty'; try (split; [tq|(apply val_ret; exact S)]).
    + assert (U : under ks (Ph ty kids)) by exact (under_in _ _ _ _ C (under_own ty kids)). split.
      * apply (tr_bind_val _ _ _ _ _ _ (tr_quiet _ _ _ (q_function_header s ks)) (val_function_header _ s ks U S)). intros s' S'.
        apply tr_bind; [tq|]. intros types'. apply tr_bind; [exact (tr_declare_params _ _ _ S')|tq].
      * apply (val_bind _ _ _ _ _ _ (val_function_header _ s ks U S)). intros s' S'. apply val_bind_any. intros types'. apply val_bind_any. intros _. (apply val_ret; exact S').
    + split; [tq|]. apply val_bind_any. intros _. (apply val_ret; exact S).
  - intros doc ((s, types), inside). apply closes_before; [qt|]. intros ns. apply closes_now. qt.
Qed.
Lemma tr_newMethod : forall ty kids, ty = PhMethodDeclaration -> tr (Ph ty kids) (newMethod d scan (Ph ty kids) kids).
Proof.
  intros ty kids Ty. eapply (tr_scope _ _ _ (Ph ty kids) _ (getValidPhpDoc (NodeRange d (Ph ty kids)))).
  5: { unfold newMethod. cbv zeta. reflexivity. }
  1: { rewrite Ty. exact I. } 1: { qt. }
  3: { intros s u s' inner E. apply (HQ ty kids s u s' inner); rewrite Ty in *; [exact I|exact E]. }
  - intros doc. apply tr_in_block. apply (tr_foldM_val _ _ _ _ _ _ (fun p => sig_ok (Ph ty kids) (fst p))); [constructor|].
    intros (s, types) c C S. cbn [fst] in S. destruct c as [ty' ks|t|u]; try (split; [tq|(apply val_ret; exact S)]).
    destruct ty'; try (split; [tq|(apply val_ret; exact S)]).
    + assert (U : under ks (Ph ty kids)) by exact (under_in _ _ _ _ C (under_own ty kids)). split.
      * apply (tr_bind_val _ _ _ _ _ _ (tr_quiet _ _ _ (q_method_header s ks)) (val_method_header _ s ks U S)). intros s' S'.
        apply tr_bind; [tq|]. intros _. apply tr_bind; [tq|]. intros types'. apply tr_bind; [exact (tr_declare_params _ _ _ S')|tq].
      * apply (val_bind _ _ _ _ _ _ (val_method_header _ s ks U S)). intros s' S'. apply val_bind_any. intros _. apply val_bind_any. intros types'. apply val_bind_any. intros _. (apply val_ret; exact S').
    + split; [tq|]. apply val_bind_any. intros _. (apply val_ret; exact S).
  - intros doc ((s, types), inside). apply closes_now. qt.
Qed.
Lemma tr_analyseUseClause : forall n kids, under kids n -> tr n (analyseUseClause d kids).
Proof.
  intros n kids U. unfold analyseUseClause. apply tr_forM. intros c C. destruct c as [ty ks|t|u]; try (tq; fail).
  destruct ty; try (tq; fail). apply tr_forM. intros u X. destruct u as [ty us|t|u]; try (tq; fail). destruct ty; try (tq; fail).
  assert (Bl : below (Ph PhAnonymousFunctionUseVariable us) n) by exact (below_in _ _ _ X (under_in _ _ _ _ C U)).
  apply (tr_bind_val _ _ _ _ _ _ (tr_quiet _ n _ (q_newVariableWithoutPushing _)) (val_newVariableWithoutPushing _)).
  intros v O. apply tr_bind; [apply tr_capture; exact (of_node_written _ n v Bl I O)|tq].
Qed.
Lemma tr_newAnonymousFunction : forall ty kids, ty = PhAnonymousFunctionCreationExpression -> tr (Ph ty kids) (newAnonymousFunction d scan (Ph ty kids) kids).
Proof.
  intros ty kids Ty. eapply (tr_scope _ _ _ (Ph ty kids) _ (ret tt)).
  5: { unfold newAnonymousFunction. cbv zeta. instantiate (2 := fun _ => _). instantiate (1 := fun _ => _). reflexivity. }
  1: { rewrite Ty. exact I. } 1: { apply q_ret. }
  3: { intros s u s' inner E. apply (HQ ty kids s u s' inner); rewrite Ty in *; [exact I|exact E]. }
  - intros w. cbn beta. apply tr_in_block. apply (tr_foldM_val _ _ _ _ _ _ (Forall (param_ok (Ph ty kids)))); [constructor|].
    intros ps c C S. destruct c as [ty' ks|t|u]; try (split; [tq|(apply val_ret; exact S)]).
    destruct ty'; try (split; [tq|(apply val_ret; exact S)]).
    + split; [tq|]. apply val_bind_any. intros _. (apply val_ret; exact S).
    + assert (U : under ks (Ph ty kids)) by exact (under_in _ _ _ _ C (under_own ty kids)).
      match goal with |- context [foldM ks ?f ps] => assert (H : tr (Ph ty kids) (foldM ks f ps) /\ val (foldM ks f ps) (Forall (param_ok (Ph ty kids)))) end.
      { split.
        - apply tr_foldM. intros ps' c' C'. destruct c' as [ty' cs|t|u]; try (tq; fail). destruct ty'; try (tq; fail).
          apply tr_bind; [exact (tr_analyseUseClause _ _ (under_in _ _ _ _ C' U))|tq].
        - apply val_foldM; [exact S|]. intros ps' c' C' S'. destruct c' as [ty' cs|t|u]; try (apply val_ret; exact S'). destruct ty'; try (apply val_ret; exact S').
          + apply val_bind_any. intros _. (apply val_ret; exact S').
          + apply (val_bind _ _ _ _ _ _ (val_params _ cs (under_in _ _ _ _ C' U))). intros qs Qs. apply val_ret. apply Forall_app. auto. }
      destruct H as (H1 & H2). split.
      * apply (tr_bind_val _ _ _ _ _ _ H1 H2). intros ps' S'. apply tr_bind; [|tq]. apply tr_forM. intros p P. apply tr_record.
        rewrite Forall_forall in S'. exact (S' p P).
      * apply (val_bind _ _ _ _ _ _ H2). intros ps' S'. apply val_bind_any. intros _. (apply val_ret; exact S').
  - intros w b. apply closes_now. qt.
Qed.
Lemma tr_newProperty : forall n c kids a b, under kids n -> tr n (newProperty d scan c kids a b).
Proof. intros n c kids a b U. unfold newProperty. tq. Qed.
Hint Resolve tr_newProperty : trace.
Lemma tr_newPropertyDeclaration : forall n kids, under kids n -> tr n (newPropertyDeclaration d scan kids).
Proof. intros n kids U. unfold newPropertyDeclaration. tq. Qed.
Lemma tr_class_const_loop : forall n kids a b c e f, under kids n -> tr n (class_const_loop d scan kids a b c e f).
Proof.
  intros n. induction kids as [|x kids IH]; intros a b c e f U; cbn [class_const_loop]; [tq|]. pose proof (under_tail _ _ _ U) as Ut.
  assert (H : forall a b c e f, tr n (class_const_loop d scan kids a b c e f)) by (intros; exact (IH _ _ _ _ _ Ut)). clear IH.
  pose proof (under_head _ _ _ U) as Bl. destruct x as [ty ks|t|u]; [| |apply H].
  - destruct c; [|destruct ty; tq]. tq.
  - destruct (t_type t); tq.
Qed.
Hint Resolve tr_class_const_loop : trace.
Lemma tr_newClassConst : forall n c kids a, under kids n -> tr n (newClassConst d scan c kids a).
Proof. intros n c kids a U. unfold newClassConst. tq. Qed.
Hint Resolve tr_newClassConst : trace.
Lemma tr_newClassConstDeclaration : forall n kids, under kids n -> tr n (newClassConstDeclaration d scan kids).
Proof. intros n kids U. unfold newClassConstDeclaration. tq. Qed.
Lemma tr_newConstDeclaration : forall n kids, under kids n -> tr n (newConstDeclaration scan kids).
Proof. intros n kids U. unfold newConstDeclaration. tq. Qed.
Lemma tr_newDefine : forall n c kids, under kids n -> tr n (newDefine d scan c kids).
Proof. intros n c kids U. unfold newDefine. tq. Qed.
Hint Resolve tr_newDefine : trace.
Lemma tr_tryToNewDefine : forall n c kids, under kids n -> tr n (tryToNewDefine d scan c kids).
Proof. intros n c kids U. unfold tryToNewDefine. tq. Qed.
Lemma tr_processCatchNameList : forall n kids, under kids n -> tr n (processCatchNameList d expr kids).
Proof. intros n kids U. unfold processCatchNameList. tq. Qed.
Lemma tr_newNamespace : forall n c kids, under kids n -> tr n (newNamespace d scan c kids).
Proof. intros n c kids U. unfold newNamespace. tq. Qed.
Lemma tr_newGlobalDeclaration : forall n kids, under kids n -> tr n (newGlobalDeclaration d kids).
Proof.
  intros n kids U. unfold newGlobalDeclaration. apply tr_forM. intros c C. destruct c as [ty ks|t|u]; try (tq; fail). destruct ty; try (tq; fail).
  apply tr_forM. intros v V. destruct v as [ty vs|t|u]; try (tq; fail). destruct ty; try (tq; fail). apply tr_newGlobalVariable. eauto 4 with trace nocore.
Qed.
Hint Resolve tr_newPropertyDeclaration tr_newClassConstDeclaration tr_newConstDeclaration tr_tryToNewDefine tr_processCatchNameList tr_newNamespace tr_newGlobalDeclaration : trace.
Lemma tr_first_arguments : forall n kids, under kids n -> tr n (first_arguments scan kids).
Proof.
  intros n. induction kids as [|x kids IH]; intros U; cbn [first_arguments]; [tq|]. specialize (IH (under_tail _ _ _ U)). pose proof (under_head _ _ _ U) as Bl. tq.
Qed.
Hint Resolve tr_first_arguments : trace.
Lemma tr_newFunctionCall : forall n kids, under kids n -> tr n (newFunctionCall d scan expr kids).
Proof. intros n kids U. unfold newFunctionCall. destruct kids as [|c kids]; [tq|]. pose proof (under_head _ _ _ U) as Bl. tq. Qed.
Lemma tr_scope_access : forall n kids, under kids n -> tr n (scope_access d expr kids).
Proof. intros n kids U. unfold scope_access. destruct kids as [|c kids]; [tq|]. pose proof (under_head _ _ _ U) as Bl. tq. Qed.
Hint Resolve tr_scope_access : trace.
Lemma tr_newScopedAccess : forall n k kids, under kids n -> tr n (newScopedAccess d expr k kids).
Proof. intros n k kids U. unfold newScopedAccess. tq. Qed.
Lemma under_skipn : forall n i kids, under kids n -> under (skipn i kids) n.
Proof. intros n i kids U x X. apply U. rewrite <- (firstn_skipn i kids). apply in_or_app. right. exact X. Qed.
Hint Resolve under_skipn : trace.
Lemma tr_newScopedMethodAccess : forall n kids, under kids n -> tr n (newScopedMethodAccess d scan expr kids).
Proof. intros n kids U. unfold newScopedMethodAccess. tq. Qed.
Lemma under_arrows : forall n kids r, under kids n -> under (fst (skip_arrows d kids r)) n.
Proof.
  intros n. induction kids as [|c kids IH]; intros r U; cbn [skip_arrows]; [exact U|]. pose proof (under_tail _ _ _ U) as Ut.
  destruct c as [ty ks|t|u]; try exact U. destruct (t_type t); try exact U; apply IH; exact Ut.
Qed.
Lemma tr_member_name_loop : forall n kids name, under kids n -> tr n (member_name_loop d kids name).
Proof.
  intros n. induction kids as [|c kids IH]; intros name U; cbn [member_name_loop]; [tq|]. pose proof (under_tail _ _ _ U) as Ut. pose proof (under_head _ _ _ U) as Bl.
  assert (H : forall a, tr n (member_name_loop d kids a)) by (intros; exact (IH _ Ut)). clear IH.
  destruct c as [ty ks|t|u]; [|destruct (t_type t); tq|apply H]. destruct ty; try apply H.
  apply tr_bind; [tq|]. intros x. apply tr_bind; [exact (tr_newVariable n _ false Bl I)|tq].
Qed.
Hint Resolve tr_member_name_loop : trace.
Lemma tr_readMemberName : forall n kids, under kids n -> tr n (readMemberName d kids).
Proof.
  intros n kids U. unfold readMemberName. pose proof (under_arrows n kids zero_range U) as V. destruct (skip_arrows d kids zero_range) as (ks, r). cbn [fst] in V.
  destruct ks as [|c ks]; [tq|]. pose proof (under_head _ _ _ V) as Bl. destruct c as [ty cs|t|u]; [|destruct (t_type t); tq|tq].
  destruct ty; try (tq; fail). assert (under cs n) by exact (fun x X => below_trans _ _ _ (below_child _ cs x X) Bl). tq.
Qed.
Lemma val_readMemberName : forall n kids, under kids n -> val (readMemberName d kids) (fun m => under (snd m) n).
Proof.
  intros n kids U. unfold readMemberName. pose proof (under_arrows n kids zero_range U) as V. destruct (skip_arrows d kids zero_range) as (ks, r). cbn [fst] in V.
  destruct ks as [|c ks]; [apply val_ret; intros x []|]. pose proof (under_tail _ _ _ V) as Vt. destruct c as [ty cs|t|u]; [| |(apply val_ret; exact Vt)].
  - destruct ty; try (apply val_ret; exact Vt). apply val_bind_any. intros name. (apply val_ret; exact Vt).
  - destruct (t_type t); try (apply val_ret; exact Vt). apply val_bind_any. intros name. (apply val_ret; exact Vt).
Qed.
Lemma tr_receiver : forall n kids, under kids n -> tr n (receiver expr kids).
Proof. intros n kids U. unfold receiver. destruct kids as [|c kids]; [tq|]. pose proof (under_head _ _ _ U) as Bl. tq. Qed.
Hint Resolve tr_readMemberName tr_receiver : trace.
Lemma tr_newPropertyAccess : forall n kids, under kids n -> tr n (newPropertyAccess d expr kids).
Proof. intros n kids U. unfold newPropertyAccess. tq. Qed.
Lemma tr_newMethodAccess : forall n kids, under kids n -> tr n (newMethodAccess d scan expr kids).
Proof.
  intros n kids U. unfold newMethodAccess. apply tr_bind; [tq|]. intros _.
  pose proof (under_skipn n 2 kids U) as U2.
  apply (tr_bind_val _ _ _ _ _ _ (tr_readMemberName n _ U2) (val_readMemberName n _ U2)). intros m V. tq.
Qed.
Lemma tr_designator_node : forall n kids, under kids n -> tr n (designator_node d kids).
Proof.
  intros n kids U. unfold designator_node. apply tr_foldM. intros ((name, types), vars) c C. destruct c as [ty ks|t|u]; try (tq; fail).
  destruct ty; try (tq; fail). apply tr_bind; [exact (tr_newVariable n _ false (U _ C) I)|tq].
Qed.
Hint Resolve tr_designator_node : trace.
Lemma tr_newClassTypeDesignator : forall n kids, under kids n -> tr n (newClassTypeDesignator d scan kids).
Proof. intros n kids U. unfold newClassTypeDesignator. tq. Qed.
Lemma tr_analyseForeachStatement : forall n kids, under kids n -> tr n (analyseForeachStatement d scan expr kids).
Proof.
  intros n kids U. unfold analyseForeachStatement. apply tr_bind; [|tq]. apply tr_forM. intros c C. destruct c as [ty ks|t|u]; try (tq; fail).
  destruct ty; try (tq; fail). apply tr_forM. intros v V. destruct v as [ty vs|t|u]; try (tq; fail). destruct ty; try (tq; fail).
  apply tr_bind; [|tq]. apply tr_newVariable; [eauto 4 with trace nocore|exact I].
Qed.
Lemma under_SkipToken : forall n p kids, under kids n -> under (SkipToken p kids) n.
Proof.
  intros n p. induction kids as [|c kids IH]; intros U; [exact U|]. cbn [SkipToken].
  destruct (token_is p c); [apply IH; exact (under_tail _ _ _ U)|exact U].
Qed.
Hint Resolve under_SkipToken : trace.
Lemma nth_below : forall n kids i c, under kids n -> nth_error kids i = Some c -> below c n.
Proof. intros n kids i c U E. exact (U c (nth_error_In _ _ E)). Qed.
Lemma tr_analyseVariableAssignment : forall n ty parent ks rest, below (Ph PhSimpleVariable ks) n -> under rest n ->
  tr n (analyseVariableAssignment d scan expr ty parent (Ph PhSimpleVariable ks) rest).
Proof.
  intros n ty parent ks rest Bl U. unfold analyseVariableAssignment, scan_opt. cbv zeta.
  match goal with |- context [nth_error ?r 0] => set (right := r) end.
  assert (V : under right n) by (subst right; destruct ty; repeat first [apply under_SkipToken | apply under_skipn]; exact U). clearbody right.
  pose proof (fun c => nth_below n right 0 c V) as N. destruct (nth_error right 0) as [c|].
  1: specialize (N c eq_refl).
  all: apply tr_bind; [tq|]; intros doc.
  all: apply (tr_bind_val _ _ _ _ _ _ (tr_quiet _ n _ (q_newVariableWithoutPushing _)) (val_newVariableWithoutPushing _)); intros v O.
  all: apply (tr_bind_val _ _ n _ _ (of_node (Ph PhSimpleVariable ks))).
  1,4: tq.
  1,3: destruct doc; [apply val_bind_any; intros types; apply val_ret; exact O|(apply val_ret; exact O)].
  all: clear v O; intros v O; apply tr_bind; [tq|]; intros _; apply tr_bind; [tq|]; intros x.
  all: apply tr_bind; [apply tr_record; exact (of_node_written _ n v Bl I O)|tq].
Qed.
Lemma tr_processPropertyAccessAssignment : forall n kids, under kids n -> tr n (processPropertyAccessAssignment scan expr kids).
Proof.
  intros n kids U. unfold processPropertyAccessAssignment. cbv zeta.
  match goal with |- context [nth_error ?r 0] => set (right := r) end.
  assert (V : under right n) by (subst right; repeat first [apply under_SkipToken | apply under_skipn]; exact U). clearbody right.
  pose proof (fun c => nth_below n right 0 c V) as N. unfold scan_opt. apply tr_bind.
  - destruct kids as [|c kids]; [tq|]. pose proof (under_head _ _ _ U) as Bl. tq.
  - intros _. destruct (nth_error right 0) as [c|]; [specialize (N c eq_refl)|]; tq.
Qed.
Hint Resolve tr_analyseVariableAssignment tr_processPropertyAccessAssignment : trace.
Lemma tr_newAssignment : forall n c ty kids, under kids n -> tr n (newAssignment d scan expr c ty kids).
Proof.
  intros n c ty kids U. unfold newAssignment. apply tr_bind; [tq|]. intros block. cbv zeta. apply tr_bind; [|tq].
  destruct kids as [|x rest]; [tq|]. pose proof (under_head _ _ _ U) as Bl. pose proof (under_tail _ _ _ U) as Ut.
  destruct x as [ty' ks|t|u]; [|tq|tq]. assert (H : tr n (scan (Ph ty' ks) ;;; forM rest scan)) by tq.
  destruct ty'; try exact H; first [exact (tr_analyseVariableAssignment n ty c ks rest Bl Ut)|match goal with |- tr n (if ?b then _ else _) => destruct b end; [tq|exact H]].
Qed.
Lemma tr_newInstanceOfTypeDesignator : forall n kids, under kids n -> tr n (newInstanceOfTypeDesignator d expr kids).
Proof.
  intros n. induction kids as [|x kids IH]; intros U; cbn [newInstanceOfTypeDesignator]; [tq|]. specialize (IH (under_tail _ _ _ U)). pose proof (under_head _ _ _ U) as Bl. tq.
Qed.
Lemma tr_processInstanceOfExpression : forall n kids, under kids n -> tr n (processInstanceOfExpression expr kids).
Proof.
  intros n kids U. unfold processInstanceOfExpression. cbv zeta.
  match goal with |- context [SkipToken is_whitespace (SkipToken is_instanceof ?r)] => set (right := SkipToken is_whitespace (SkipToken is_instanceof r)) end.
  assert (V : under right n) by (subst right; repeat first [apply under_SkipToken | apply under_skipn]; exact U). clearbody right.
  apply tr_bind; [|tq]. destruct kids as [|c kids]; [tq|]. pose proof (under_head _ _ _ U) as Bl. tq.
Qed.
Lemma tr_derived_loop : forall n kids l, under kids n -> tr n (derived_loop expr kids l).
Proof.
  intros n. induction kids as [|x kids IH]; intros l U; cbn [derived_loop]; [tq|]. pose proof (under_tail _ _ _ U) as Ut. pose proof (under_head _ _ _ U) as Bl.
  assert (H : forall a, tr n (derived_loop expr kids a)) by (intros; exact (IH _ Ut)). clear IH. destruct x; [|apply H|apply H]. tq.
Qed.
Lemma val_derived_loop : forall n kids l, under kids n -> under l n -> val (derived_loop expr kids l) (fun l => under l n).
Proof.
  intros n. induction kids as [|x kids IH]; intros l U L; cbn [derived_loop]; [(apply val_ret; exact L)|]. pose proof (under_tail _ _ _ U) as Ut. pose proof (under_head _ _ _ U) as Bl.
  assert (L1 : under (l ++ [x]) n) by (intros y Y; apply in_app_or in Y as [Y|[<-|[]]]; [exact (L y Y)|exact Bl]).
  destruct x as [ty ks|t|u]; [|exact (IH _ Ut L1)|exact (IH _ Ut L1)]. cbv zeta. apply val_bind_any. intros e.
  destruct (is_expr_type ty); (destruct e; [apply val_ret; assumption|apply IH; assumption]).
Qed.
Lemma tr_newDerivedExpression : forall n c kids, under kids n -> tr n (newDerivedExpression d scan expr c kids).
Proof.
  intros n c kids U. unfold newDerivedExpression. cbv zeta. apply tr_bind; [|tq]. apply tr_in_block.
  apply (tr_bind_val _ _ _ _ _ (fun l => under l n)); [apply tr_derived_loop; exact U|apply val_derived_loop; [exact U|intros x []]|]. intros l V. tq.
Qed.
Hint Resolve tr_newFunctionCall tr_newScopedAccess tr_newScopedMethodAccess tr_newPropertyAccess tr_newMethodAccess tr_newClassTypeDesignator
  tr_analyseForeachStatement tr_newAssignment tr_newInstanceOfTypeDesignator tr_processInstanceOfExpression tr_newDerivedExpression : trace.
Lemma tr_expr_body : forall n, tr n (expr_body d scan expr n).
Proof.
  intros n. unfold expr_body. destruct n as [ty kids|t|u]; [|tq|tq]. pose proof (under_own ty kids) as U. apply tr_bind; [|tq].
  unfold construct. destruct ty; try exact (tr_quiet _ _ _ (q_ret _ (None, false))); try (tq; fail). apply tr_bind; [|tq]. apply tr_newVariable; [constructor|exact I].
Qed.
Lemma tr_node_body : forall n, tr n (node_body d scan expr n).
Proof.
  intros n. unfold node_body. destruct n as [ty kids|t|u]; [|tq|tq]. pose proof (under_own ty kids) as U.
  assert (H : tr (Ph ty kids) (def <- isDefine d (Ph ty kids) ;; (if def then ret tt else e <- expr_body d scan expr (Ph ty kids) ;; ret tt) ;;;
    if typesToScanForChildren ty then scanForChildren scan kids else symbol_of d scan expr (Ph ty kids) ty kids)).
  { apply tr_bind; [tq|]. intros df. apply tr_bind.
    - destruct df; [tq|]. apply tr_bind; [apply tr_expr_body|tq].
    - intros _. destruct (typesToScanForChildren ty); [tq|]. unfold symbol_of. destruct ty; try exact (tr_quiet _ _ _ (q_ret _ tt)); try (tq; fail).
      all: first [apply tr_newAnonymousFunction | apply tr_newFunction | apply tr_newMethod]; reflexivity. }
  destruct ty; try exact H. tq.
Qed.
End Open.

(** ** The whole run *)
Section Whole.
Hypothesis HQ : forall fuel ty kids s u s' inner, function_node (Ph ty kids) ->
  symbol_of d (scanNode d fuel) (scanForExpression d fuel) (Ph ty kids) ty kids s = Done u s' -> balanced 0 inner ->
  st_vars s' = st_vars s ++ OpenScope (NodeRange d (Ph ty kids)) :: inner ++ [CloseScope] -> Q (Ph ty kids) inner.
Lemma tr_scanNode : forall fuel n, tr n (scanNode d fuel n) /\ tr n (scanForExpression d fuel n).
Proof.
  induction fuel as [|fuel IH]; intros n; [split; intros s a s' E; discriminate E|]. cbn [scanNode scanForExpression]. split.
  - exact (tr_node_body _ _ (fun c => proj1 (IH c)) (fun c => proj2 (IH c)) (HQ fuel) n).
  - exact (tr_expr_body _ _ (fun c => proj1 (IH c)) (fun c => proj2 (IH c)) n).
Qed.
Lemma analyse_trace_with : forall s, analyse d = Done tt s -> trace d Q (d_root d) (st_vars s).
Proof.
  intros s E. unfold analyse, Load in E.
  assert (H : tr (d_root d) (match d_root d with Ph _ kids => scanForChildren (scanNode d (height (d_root d))) kids | _ => ret tt end ;;; i <- currImportTable d ;; ret tt)).
  { apply tr_bind; [|intros _; apply tr_quiet; qt]. generalize (height (d_root d)). intros h. destruct (d_root d) as [ty kids|t|u]; [|apply tr_quiet; qt|apply tr_quiet; qt].
    apply tr_scanForChildren; [intros c; exact (proj1 (tr_scanNode h c))|apply under_own]. }
  destruct (H _ _ _ E) as ((ops & O & T) & _). cbn [initial st_vars app] in O. rewrite O. exact T.
Qed.
End Whole.
End Trace.
Lemma analyse_trace : forall {TX : Text} {TR : TrimSpace} d s, analyse d = Done tt s -> trace d (fun _ _ => True) (d_root d) (st_vars s).
Proof. intros TX TR d s E. apply analyse_trace_with; auto. Qed.
Print Assumptions analyse_trace.
