(** What a run of the analysis does: it ends, it panics only on trees that are
    not well parsed, and every symbol comes from a node that says so. *)
From Coq Require Import String.
From Coq Require Import List Bool ZArith Lia Sorting.Sorted.
From Coq.Strings Require Import Byte.
From Verif Require Import Base.Bytes Base.BytesProofs Base.Protocol Symbols.Symbols Symbols.KeysModel Text.TextModel Text.PositionSpec
  Types.TypesModel Types.ImportModel Ide.VariableModel Rpc.StreamModel Rpc.StreamSpec Analyse.SyntaxModel Analyse.AnalyseModel
  Analyse.AnalyseSpec Analyse.SpecProofs Analyse.LeafProofs.
Import ListNotations.
Open Scope list_scope.
Open Scope nat_scope.

Ltac next R := refine (spec_bind _ _ _ _ _ _ _ _ _ R _).
Ltac first_any d n k := refine (spec_bind d n k _ _ _ _ any _ _ _).

Section Open.
Context {TX : Text} {TR : TrimSpace} (d : document).
Hypothesis TOK : trim_ok TR.
Notation root := (d_root d).
Notation spec := (spec d).
Variable scan : node -> M unit.
Variable expr : node -> M (option adata).
Variable n : node.
Hypothesis R : below n root.
Hypothesis rec_scan : forall c, inside_of c n -> forall k, spec c k (scan c) any.
Hypothesis rec_expr : forall c, inside_of c n -> forall k, spec c k (expr c) any.

Definition inner (kids : list node) : Prop := forall c, In c kids -> inside_of c n.
Lemma inner_under : forall kids, inner kids -> under kids n.
Proof. intros kids U c C. exact (proj1 (U c C)). Qed.
Lemma inner_deeper : forall kids ty ks, inner kids -> In (Ph ty ks) kids -> inner ks.
Proof.
  intros kids ty ks U C x X. destruct (U _ C) as (Bl & H). split; [exact (below_trans _ _ _ (below_child ty ks x X) Bl)|].
  pose proof (kid_height ty ks x X). lia.
Qed.
Lemma inner_tail : forall c kids, inner (c :: kids) -> inner kids.
Proof. intros c kids U x X. exact (U x (or_intror X)). Qed.
Lemma inner_head : forall c kids, inner (c :: kids) -> inside_of c n.
Proof. intros c kids U. exact (U c (or_introl eq_refl)). Qed.
Lemma inner_sub : forall kids ks, inner kids -> (forall x, In x ks -> In x kids) -> inner ks.
Proof. intros kids ks U S x X. exact (U x (S x X)). Qed.
Lemma inner_own : forall ty kids, n = Ph ty kids -> inner kids.
Proof. intros ty kids E c C. rewrite E. exact (inside_kid ty kids c C). Qed.
Lemma deep : forall c, inside_of c n -> below c root.
Proof. intros c C. exact (below_trans _ _ _ (proj1 C) R). Qed.

Lemma sp_scan : forall k c, inside_of c n -> spec n k (scan c) any.
Proof. intros k c C. exact (spec_below d c n k _ _ _ (proj1 C) (rec_scan c C k)). Qed.
Lemma sp_expr : forall k c, inside_of c n -> spec n k (expr c) any.
Proof. intros k c C. exact (spec_below d c n k _ _ _ (proj1 C) (rec_expr c C k)). Qed.
Lemma sp_scanForChildren : forall k kids, inner kids -> spec n k (scanForChildren scan kids) any.
Proof. intros k kids U. apply spec_forM. intros c C. exact (sp_scan k c (U c C)). Qed.
Lemma sp_expr_unit : forall k c, inside_of c n -> spec n k (x <- expr c ;; ret tt) any.
Proof. intros k c C. next (sp_expr k c C). intros x _. apply sp_ret. Qed.

Lemma sp_newArgumentList : forall k ks, below (Ph PhArgumentExpressionList ks) n -> inner ks ->
  spec n k (newArgumentList d scan (Ph PhArgumentExpressionList ks) ks) (fun l => l = List.filter is_argument ks).
Proof.
  intros k ks Bl U. unfold newArgumentList. set (c := Ph PhArgumentExpressionList ks) in *.
  refine (spec_bind d n k _ _ _ _ _ _ (spec_in_block d c n k _ _ None any Bl _) _).
  - apply spec_forM. intros x X. destruct x as [ty xs|t|u]; try apply sp_ret. apply (spec_below d (Ph ty xs) c); [exact (below_child _ ks _ X)|].
    exact (rec_scan _ (U _ X) k).
  - intros b (_ & F). next (sp_emit d n k c (reference AArgumentList [] (NodeRange d c) []) (snd b) Bl (conj eq_refl eq_refl) ltac:(discriminate) F).
    intros _ _. apply spec_ret. reflexivity.
Qed.
Lemma sp_newClassAccess : forall k ty ks, inside_of (Ph ty ks) n -> spec n k (newClassAccess d expr (Ph ty ks)) (gives d (Ph ty ks)).
Proof.
  intros k ty ks C. unfold newClassAccess. next (sp_phraseText d n k ty ks (deep _ C)). intros name N.
  refine (spec_bind d n k _ _ _ _ any _ _ _).
  - destruct (IsNameRelative name); [apply sp_relativeTypes|]. destruct (IsNameParent name); [apply sp_parentTypes|].
    destruct ty; try apply sp_ret.
    all: try (next (sp_classReference d n k _ (deep _ C)); intros t _; apply sp_ret).
    next (sp_expr k _ C). intros x _. apply sp_ret.
  - intros types _. apply spec_ret. split; [|reflexivity]. split; [discriminate|split; [reflexivity|exact N]].
Qed.
Lemma sp_class_access : forall k ty ks, inside_of (Ph ty ks) n -> spec n k (a <- newClassAccess d expr (Ph ty ks) ;; emit1 a) any.
Proof. intros k ty ks C. next (sp_newClassAccess k ty ks C). intros a (S & D). exact (sp_emit1 d n k _ a (proj1 C) S D). Qed.

(** ** Classes *)
Section Class.
Variables (k i : nat) (kd : akind) (rg : range) (N : type_string -> Prop).
Hypothesis Ki : k <= i.
Notation specw := (spec_with d (class_at i kd rg N) n k).
Ltac nextw X := refine (with_bind d _ n k _ _ _ _ _ _ X _).
Lemma w_any : forall A (m : M A) Q, spec n (S i) m Q -> specw m Q.
Proof. intros A m Q H. exact (with_class d i kd rg N n k A m Q Ki H). Qed.
Lemma w_ret : forall A (a : A), specw (ret a) any.
Proof. intros A a. exact (with_ret d _ n k A a any I). Qed.
Lemma w_class_extends : forall kids, inner kids -> specw (class_extends d expr i kids) any.
Proof.
  intros kids U. unfold class_extends.
  refine (with_bind d _ n k _ _ _ _ (fun l : option node => forall c, l = Some c -> inside_of c n /\ exists ty ks, c = Ph ty ks) _ _ _).
  - apply with_foldM; [discriminate|]. intros last c C J. destruct c as [ty ks|t|u]; try (apply with_ret; exact J).
    destruct ty; try (apply with_ret; exact J).
    all: nextw (w_any _ _ _ (sp_classReference d n (S i) _ (deep _ (U _ C)))); intros t _.
    all: nextw (with_change_class d i kd rg N n k (fun x => Cls (c_kind x) (c_name x) (c_range x) [t] (c_interfaces x) (c_uses x) (c_modifier x)) Ki (fun _ => eq_refl) (fun _ H => H)).
    all: intros _ _; apply with_ret; intros x E; injection E as <-; split; [exact (U _ C)|eauto].
  - intros [c|] J; [|apply w_ret]. destruct (J c eq_refl) as (C & ty & ks & ->). exact (w_any _ _ _ (sp_class_access (S i) ty ks C)).
Qed.
Lemma w_class_implements : forall kids, inner kids -> specw (class_implements d i kids) any.
Proof.
  induction kids as [|c kids IH]; intros U; cbn [class_implements]; [apply w_ret|]. pose proof (inner_head _ _ U) as C. pose proof (inner_tail _ _ U) as Ut.
  destruct c as [ty ks|t|u]; try exact (IH Ut). destruct ty; try exact (IH Ut).
  assert (Uk : inner ks) by exact (inner_deeper _ _ _ U (or_introl eq_refl)).
  apply with_forM. intros c X. destruct c as [ty cs|t|u]; try apply w_ret.
  destruct ty; try apply w_ret.
  all: nextw (w_any _ _ _ (sp_classReference d n (S i) _ (deep _ (Uk _ X)))); intros t _.
  all: nextw (with_change_class d i kd rg N n k (fun x => Cls (c_kind x) (c_name x) (c_range x) (c_extends x) (c_interfaces x ++ [t]) (c_uses x) (c_modifier x)) Ki (fun _ => eq_refl) (fun _ H => H)).
  all: intros _ _; apply w_any.
  - next (sp_newNameAccess d n (S i) AInterfaceAccess _ cs (deep _ (Uk _ X)) (or_introl eq_refl) (or_introl eq_refl)).
    intros a (S & D). exact (sp_emit1 d n (Datatypes.S i) _ a (proj1 (Uk _ X)) S D).
  - next (sp_newNameAccess d n (S i) AInterfaceAccess _ cs (deep _ (Uk _ X)) (or_intror eq_refl) (or_introl eq_refl)).
    intros a (S & D). exact (sp_emit1 d n (Datatypes.S i) _ a (proj1 (Uk _ X)) S D).
Qed.
Lemma comment_says : forall p a k', doc_ok d p -> a_kind a = AProperty \/ a_kind a = AMethod -> a_vis a = Public -> a_range a = pd_range p -> a_doc a = None ->
  spec n k' (emit1 a) any.
Proof.
  intros p a k' ((m & Bl & T & E) & _) K V Rg D. apply spec_emit. apply comes_from_comment; [|exact D].
  split; [exact K|split; [exact V|]]. exists m. split; [exact Bl|split; [exact T|]]. unfold sits_at. congruence.
Qed.
Lemma sp_doc_property : forall k' p scope name t, doc_ok d p -> In t (findTags p name) -> spec n k' (doc_property d p scope t) any.
Proof.
  intros k' p scope name t D T. unfold doc_property.
  assert (S : safe d -> types_ok (tg_types t)).
  { intros S. pose proof (findTags_ok d p name D S) as F. rewrite Forall_forall in F. exact (proj1 (F t T)). }
  next (sp_typesFromPhpDoc d n k' _ S). intros types _. apply (comment_says p); auto.
Qed.
Lemma sp_doc_method : forall k' p scope name t, doc_ok d p -> In t (findTags p name) -> spec n k' (doc_method d p scope t) any.
Proof.
  intros k' p scope name t D T. unfold doc_method.
  assert (S : safe d -> tag_ok t).
  { intros S. pose proof (findTags_ok d p name D S) as F. rewrite Forall_forall in F. exact (F t T). }
  next (sp_typesFromPhpDoc d n k' _ (fun s => proj1 (S s))). intros types _. first_any d n k'.
  - apply spec_forM. intros q Q. assert (Sq : safe d -> types_ok (snd q)).
    { intros s. pose proof (proj2 (S s)) as F. rewrite Forall_forall in F. exact (F q Q). }
    next (sp_typesFromPhpDoc d n k' _ Sq). intros ts _. apply sp_ret.
  - intros _ _. apply (comment_says p); auto.
Qed.
Lemma w_class_header : forall doc kids, inner kids -> (forall p, doc = Some p -> doc_ok d p) ->
  (forall t s x ns, In (Tk t) kids -> t_type t = TkName -> named d (Tk t) s -> NewTypeString s = Some x -> N (SetNamespace x ns)) ->
  specw (class_header d scan expr i doc kids) any.
Proof.
  intros doc kids U D HN. unfold class_header. apply with_forM. intros c C. destruct c as [ty ks|t|u]; [| |apply w_ret].
  - destruct ty; try apply w_ret.
    + exact (w_any _ _ _ (sp_scan (S i) _ (U _ C))).
    + exact (w_class_extends ks (inner_deeper _ _ _ U C)).
    + exact (w_class_implements ks (inner_deeper _ _ _ U C)).
  - destruct (t_type t) eqn:T; try apply w_ret.
    all: try (apply with_change_class; [exact Ki|reflexivity|auto]; fail).
    nextw (w_any _ _ _ (sp_tokenText d n (S i) t (deep _ (U _ C)))). intros s Ns.
    nextw (w_any _ _ _ (sp_typeOf d n (S i) _ s (deep _ (U _ C)) Ns)). intros x Ex.
    nextw (w_any _ _ _ (spec_currNamespace d n (S i))). intros ns _. cbv zeta.
    nextw (with_change_class d i kd rg N n k (fun y => Cls (c_kind y) (SetNamespace x ns) (c_range y) (c_extends y) (c_interfaces y) (c_uses y) (c_modifier y))
      Ki (fun _ => eq_refl) (fun _ _ => HN t s x ns C T Ns Ex)). intros _ _.
    destruct doc as [p|]; [|apply w_ret]. specialize (D p eq_refl).
    assert (P : forall name, specw (forM (findTags p name) (doc_property d p (SetNamespace x ns))) any).
    { intros name. apply w_any, spec_forM. intros tg Tg. exact (sp_doc_property (S i) p _ name tg D Tg). }
    nextw (P (B "@property")). intros _ _. nextw (P (B "@property-read")). intros _ _. nextw (P (B "@property-write")). intros _ _.
    apply w_any, spec_forM. intros tg Tg. exact (sp_doc_method (S i) p _ _ tg D Tg).
Qed.
Lemma w_interface_header : forall kids, inner kids ->
  (forall t s x, In (Tk t) kids -> t_type t = TkName -> named d (Tk t) s -> NewTypeString s = Some x -> N x) ->
  specw (interface_header d i kids) any.
Proof.
  intros kids U HN. unfold interface_header. apply with_forM. intros c C. destruct c as [ty ks|t|u]; [| |apply w_ret].
  - destruct ty; try apply w_ret. unfold interface_extends. apply with_forM. intros e E. destruct e as [ty es|t|u]; try apply w_ret.
    apply with_forM. intros q Q. destruct q as [ty' qs|t|u]; try apply w_ret. destruct ty'; try apply w_ret.
    pose proof (inner_deeper _ _ _ (inner_deeper _ _ _ U C) E _ Q) as In_q.
    nextw (w_any _ _ _ (sp_transformQualifiedName d n (S i) _ (deep _ In_q))). intros t _. apply with_change_class; [exact Ki|reflexivity|auto].
  - destruct (t_type t) eqn:T; try apply w_ret.
    nextw (w_any _ _ _ (sp_tokenText d n (S i) t (deep _ (U _ C)))). intros s Ns.
    nextw (w_any _ _ _ (sp_typeOf d n (S i) _ s (deep _ (U _ C)) Ns)). intros x Ex.
    apply with_change_class; [exact Ki|reflexivity|]. intros y _. exact (HN t s x C T Ns Ex).
Qed.
Lemma w_trait_header : forall kids, inner kids ->
  (forall t s x ns, In (Tk t) kids -> t_type t = TkName -> named d (Tk t) s -> NewTypeString s = Some x -> N (SetNamespace x ns)) ->
  specw (trait_header d i kids) any.
Proof.
  intros kids U HN. unfold trait_header. apply with_forM. intros c C. destruct c as [ty ks|t|u]; try apply w_ret.
  destruct (t_type t) eqn:T; try apply w_ret.
  nextw (w_any _ _ _ (sp_tokenText d n (S i) t (deep _ (U _ C)))). intros s Ns.
  nextw (w_any _ _ _ (sp_typeOf d n (S i) _ s (deep _ (U _ C)) Ns)). intros x Ex.
  nextw (w_any _ _ _ (spec_currNamespace d n (S i))). intros ns _.
  apply with_change_class; [exact Ki|reflexivity|]. intros y _. exact (HN t s x ns C T Ns Ex).
Qed.
End Class.

Lemma in_header : forall f kids ty ks x, In (Ph ty ks) kids -> f ty = true -> In x ks -> In x (header_kids f kids).
Proof. intros f kids ty ks x I F X. unfold header_kids. apply in_flat_map. exists (Ph ty ks). split; [exact I|]. rewrite F. exact X. Qed.
(** the name of a class-like declaration *)
Definition header_name (f : phrase_type -> bool) (kids : list node) (name : type_string) : Prop :=
  type_name_among d is_name_token (header_kids f kids) (ts_original name).
Lemma header_name_token : forall f kids ty ks t s x, In (Ph ty ks) kids -> f ty = true -> In (Tk t) ks -> t_type t = TkName ->
  named d (Tk t) s -> NewTypeString s = Some x -> header_name f kids x.
Proof.
  intros f kids ty ks t s x I F X T Ns Ex. right. exists (Tk t), s. split; [exact (in_header f kids ty ks _ I F X)|].
  split; [exists t; auto|split; [exact Ns|exists x; auto]].
Qed.
Ltac nextc i X := refine (with_bind _ _ _ _ _ _ _ _ _ _ X _).
Lemma sp_newClass : forall k kids, n = Ph PhClassDeclaration kids -> spec n k (newClass d scan expr n kids) any.
Proof.
  intros k kids En. pose proof (inner_own _ _ En) as U. unfold newClass. cbv zeta.
  set (c0 := Cls AClass empty_ts (NodeRange d n) [] [] [] 0).
  apply (spec_addClass d n k c0 _ _ (header_name class_header_type kids)); [rewrite En; reflexivity|left; reflexivity|]. intros i Ki. subst c0. cbn [c_kind c_range].
  set (W := class_at _ _ _ _).
  refine (with_bind d W n k _ _ _ _ _ _ (w_any k i _ _ _ Ki _ _ _ (sp_getValidPhpDoc d n (S i) (NodeRange d n))) _). intros doc D.
  refine (with_bind d W n k _ _ _ _ _ _ (with_in_block d W n n k _ _ None any _ (below_here n) _) _).
  - subst W. apply class_at_classes.
  - apply with_forM. intros c C. destruct c as [ty ks|t|u]; try apply (w_ret k i). destruct ty; try apply (w_ret k i).
    + apply (w_class_header k i _ _ _ Ki doc ks (inner_deeper _ _ _ U C)); [intros p E; exact (proj1 (D p E))|].
      intros t s x ns X T Ns Ex. unfold header_name. rewrite original_SetNamespace. exact (header_name_token class_header_type kids _ ks t s x C eq_refl X T Ns Ex).
    + apply (w_any k i _ _ _ Ki). exact (sp_scanForChildren (S i) ks (inner_deeper _ _ _ U C)).
  - intros b (_ & F). refine (with_bind d W n k _ _ _ _ _ _ (with_class_symbol d i _ _ _ n k doc) _). intros a (K & Rg & Nm & Da).
    apply (w_any k i _ _ _ Ki). apply (sp_emit d n (S i) n a (snd b) (below_here n)); [| |exact F].
    + unfold says. rewrite K. split; [exact Rg|]. left. split; [rewrite En; reflexivity|]. rewrite En. exact Nm.
    + intros r E. apply (doc_above d a doc); [rewrite Rg; exact D|congruence].
Qed.
Lemma anonymous_type : forall r, is_type_text (anonymous_name d r).
Proof. intros r. apply type_text_head. intros c q E. injection E as <- _. discriminate. Qed.
Definition anonymous_named (kids : list node) (name : type_string) : Prop :=
  type_name (anonymous_name d (NodeRange d n)) (ts_original name) \/ header_name anonymous_header_type kids name.
Lemma sp_newAnonymousClass : forall k kids, n = Ph PhAnonymousClassDeclaration kids -> spec n k (newAnonymousClass d scan expr n kids) any.
Proof.
  intros k kids En. pose proof (inner_own _ _ En) as U. unfold newAnonymousClass. cbv zeta.
  next (sp_newTypeString d n k _ (fun _ => anonymous_type (NodeRange d n))). intros x Ex. next (spec_currNamespace d n k). intros ns _.
  set (c0 := Cls AClass (SetNamespace x ns) (NodeRange d n) [] [] [] 0).
  apply (spec_addClass d n k c0 _ _ (anonymous_named kids)); [rewrite En; reflexivity| |].
  { left. exists x. split; [exact Ex|]. subst c0. cbn [c_name]. apply original_SetNamespace. }
  intros i Ki. subst c0. cbn [c_kind c_range]. set (W := class_at _ _ _ _).
  refine (with_bind d W n k _ _ _ _ _ _ (w_any k i _ _ _ Ki _ _ _ (sp_getValidPhpDoc d n (S i) (NodeRange d n))) _). intros doc D.
  refine (with_bind d W n k _ _ _ _ _ _ (with_in_block d W n n k _ _ None any _ (below_here n) _) _).
  - subst W. apply class_at_classes.
  - apply with_forM. intros c C. destruct c as [ty ks|t|u]; try apply (w_ret k i). destruct ty; try apply (w_ret k i).
    + apply (w_any k i _ _ _ Ki). exact (sp_scanForChildren (S i) ks (inner_deeper _ _ _ U C)).
    + apply (w_class_header k i _ _ _ Ki doc ks (inner_deeper _ _ _ U C)); [intros p E; exact (proj1 (D p E))|].
      intros t s y ns' X T Ns Ey. right. unfold header_name. rewrite original_SetNamespace.
      exact (header_name_token anonymous_header_type kids _ ks t s y C eq_refl X T Ns Ey).
  - intros b (_ & F). refine (with_bind d W n k _ _ _ _ _ _ (with_class_symbol d i _ _ _ n k doc) _). intros a (K & Rg & Nm & Da).
    apply (w_any k i _ _ _ Ki). apply (sp_emit d n (S i) n a (snd b) (below_here n)); [| |exact F].
    + unfold says. rewrite K. split; [exact Rg|]. right. split; [rewrite En; reflexivity|]. rewrite Rg. destruct Nm as [Nm|Nm]; [left; exact Nm|right].
      rewrite En. exact Nm.
    + intros r E. apply (doc_above d a doc); [rewrite Rg; exact D|congruence].
Qed.
Lemma sp_newInterface : forall k kids, n = Ph PhInterfaceDeclaration kids -> spec n k (newInterface d scan n kids) any.
Proof.
  intros k kids En. pose proof (inner_own _ _ En) as U. unfold newInterface. cbv zeta.
  set (c0 := Cls AInterface empty_ts (NodeRange d n) [] [] [] 0).
  apply (spec_addClass d n k c0 _ _ (header_name interface_header_type kids)); [rewrite En; reflexivity|left; reflexivity|]. intros i Ki. subst c0. cbn [c_kind c_range].
  set (W := class_at _ _ _ _).
  refine (with_bind d W n k _ _ _ _ _ _ (w_any k i _ _ _ Ki _ _ _ (sp_getValidPhpDoc d n (S i) (NodeRange d n))) _). intros doc D.
  refine (with_bind d W n k _ _ _ _ _ _ (with_in_block d W n n k _ _ None any _ (below_here n) _) _).
  - subst W. apply class_at_classes.
  - apply with_forM. intros c C. destruct c as [ty ks|t|u]; try apply (w_ret k i). destruct ty; try apply (w_ret k i).
    + apply (w_interface_header k i _ _ _ Ki ks (inner_deeper _ _ _ U C)).
      intros t s x X T Ns Ex. exact (header_name_token interface_header_type kids _ ks t s x C eq_refl X T Ns Ex).
    + apply (w_any k i _ _ _ Ki). exact (sp_scanForChildren (S i) ks (inner_deeper _ _ _ U C)).
  - intros b (_ & F). refine (with_bind d W n k _ _ _ _ _ _ (w_any k i _ _ _ Ki _ _ _ (spec_currNamespace d n (S i))) _). intros ns _.
    refine (with_bind d W n k _ _ _ _ _ _ (with_change_class d i _ _ _ n k
      (fun x => Cls (c_kind x) (SetNamespace (c_name x) ns) (c_range x) (c_extends x) (c_interfaces x) (c_uses x) (c_modifier x)) Ki (fun _ => eq_refl) _) _).
    { intros c H. unfold header_name in *. cbn [c_name]. rewrite original_SetNamespace. exact H. }
    intros _ _. refine (with_bind d W n k _ _ _ _ _ _ (with_class_symbol d i _ _ _ n k doc) _). intros a (K & Rg & Nm & Da).
    apply (w_any k i _ _ _ Ki). apply (sp_emit d n (S i) n a (snd b) (below_here n)); [| |exact F].
    + unfold says. rewrite K. split; [rewrite En; reflexivity|split; [exact Rg|]]. rewrite En. exact Nm.
    + intros r E. apply (doc_above d a doc); [rewrite Rg; exact D|congruence].
Qed.
Lemma sp_newTrait : forall k kids, n = Ph PhTraitDeclaration kids -> spec n k (newTrait d scan n kids) any.
Proof.
  intros k kids En. pose proof (inner_own _ _ En) as U. unfold newTrait.
  set (c0 := Cls ATrait empty_ts (NodeRange d n) [] [] [] 0).
  apply (spec_addClass d n k c0 _ _ (header_name trait_header_type kids)); [rewrite En; reflexivity|left; reflexivity|]. intros i Ki. subst c0. cbn [c_kind c_range].
  set (W := class_at _ _ _ _).
  refine (with_bind d W n k _ _ _ _ _ _ (with_in_block d W n n k _ _ None any _ (below_here n) _) _).
  - subst W. apply class_at_classes.
  - apply with_forM. intros c C. destruct c as [ty ks|t|u]; try apply (w_ret k i). destruct ty; try apply (w_ret k i).
    + apply (w_trait_header k i _ _ _ Ki ks (inner_deeper _ _ _ U C)).
      intros t s x ns X T Ns Ex. unfold header_name. rewrite original_SetNamespace. exact (header_name_token trait_header_type kids _ ks t s x C eq_refl X T Ns Ex).
    + apply (w_any k i _ _ _ Ki). exact (sp_scanForChildren (S i) ks (inner_deeper _ _ _ U C)).
  - intros b (_ & F). refine (with_bind d W n k _ _ _ _ _ _ (with_class_symbol d i _ _ _ n k None) _). intros a (K & Rg & Nm & Da).
    apply (w_any k i _ _ _ Ki). apply (sp_emit d n (S i) n a (snd b) (below_here n)); [| |exact F].
    + unfold says. rewrite K. split; [rewrite En; reflexivity|split; [exact Rg|]]. rewrite En. exact Nm.
    + intros r E. rewrite Da in E. discriminate.
Qed.
Lemma sp_processTraitUseClause : forall k kids, inner kids -> spec n k (processTraitUseClause d kids) any.
Proof.
  intros k kids U. unfold processTraitUseClause. apply spec_forM. intros c C. destruct c as [ty ks|t|u]; try apply sp_ret.
  destruct ty; try apply sp_ret. next (spec_get d n k _ st_classes). intros l _. cbv zeta. pose proof (inner_deeper _ _ _ U C) as Uk.
  apply spec_forM. intros q Q. destruct q as [ty qs|t|u]; try apply sp_ret.
  assert (X : is_name_phrase ty -> spec n k (a <- newNameAccess d ATraitAccess (Ph ty qs) ;; emit1 a ;;;
     (if match nth_error l (length l - 1) with Some x => match c_kind x with AClass => true | _ => false end | None => false end
      then change_class (length l - 1) (fun x => Cls (c_kind x) (c_name x) (c_range x) (c_extends x) (c_interfaces x) (c_uses x ++ a_types a) (c_modifier x))
      else ret tt)) any).
  { intros T. next (sp_newNameAccess d n k ATraitAccess ty qs (deep _ (Uk _ Q)) T (or_intror eq_refl)). intros a (S & D).
    next (sp_emit1 d n k _ a (proj1 (Uk _ Q)) S D). intros _ _. destruct (match nth_error l _ with Some _ => _ | None => _ end); [|apply sp_ret].
    apply spec_change_class; intros; reflexivity. }
  destruct ty; try apply sp_ret; apply X; [left|right]; reflexivity.
Qed.

(** ** Functions and members *)
Lemma header_kids_snoc : forall f pre c, header_kids f (pre ++ [c]) = header_kids f pre ++ header_kids f [c].
Proof. intros f pre c. unfold header_kids. apply flat_map_app. Qed.
Lemma header_kids_not : forall f c, (forall ty ks, c = Ph ty ks -> f ty = false) -> header_kids f [c] = [].
Proof. intros f c H. destruct c as [ty ks|t|u]; cbn; try reflexivity. rewrite (H ty ks eq_refl). reflexivity. Qed.
Lemma type_name_among_more : forall f l1 l2 name, type_name_among d f l1 name -> type_name_among d f (l1 ++ l2) name.
Proof. intros f l1 l2 name [E|(c & s & I & X)]; [left; exact E|right; exists c, s; split; [apply in_or_app; auto|exact X]]. Qed.
Lemma name_among_more : forall f l1 l2 name, name_among d f l1 name -> name_among d f (l1 ++ l2) name.
Proof. intros f l1 l2 name [E|(c & I & X)]; [left; exact E|right; exists c; split; [apply in_or_app; auto|exact X]]. Qed.
Definition can_name (c : node) : Prop := is_name_token c \/ node_type c = Some PhIdentifier.
Lemma sp_function_header : forall k ks0 ks s, inner ks -> type_name_among d can_name ks0 (ts_original (sg_name s)) ->
  spec n k (function_header d s ks) (fun s => type_name_among d can_name (ks0 ++ ks) (ts_original (sg_name s))).
Proof.
  intros k ks0 ks s U N. unfold function_header.
  refine (spec_foldM_along d n k _ _ ks _ s (fun pre s => type_name_among d can_name (ks0 ++ pre) (ts_original (sg_name s))) _ _).
  { rewrite app_nil_r. exact N. }
  intros pre c post s' E J. assert (C : In c ks) by (rewrite E; apply in_elt). assert (C' : In c (ks0 ++ pre ++ [c])) by (apply in_or_app; right; apply in_elt).
  assert (K : forall v st ps, spec n k (ret (Sig (sg_name s') v st ps)) (fun s => type_name_among d can_name (ks0 ++ pre ++ [c]) (ts_original (sg_name s)))).
  { intros v st ps. apply spec_ret. cbn [sg_name]. rewrite app_assoc. exact (type_name_among_more _ _ _ _ J). }
  assert (K' : spec n k (ret s') (fun s => type_name_among d can_name (ks0 ++ pre ++ [c]) (ts_original (sg_name s)))) by (destruct s'; apply K).
  destruct c as [ty cs|t|u]; [destruct ty; try exact K'|destruct (t_type t) eqn:T; try exact K'|exact K'].
  - next (sp_analyseParameterDeclarationList d n k cs R (inner_under _ (inner_deeper _ _ _ U C))). intros ps _. apply K.
  - next (sp_phraseText d n k _ cs (deep _ (U _ C))). intros x Nx. next (sp_typeOf d n k _ x (deep _ (U _ C)) Nx). intros y Ey. apply spec_ret.
    right. eexists _, x. split; [exact C'|]. split; [right; reflexivity|split; [exact Nx|exists y; auto]].
  - next (sp_tokenText d n k t (deep _ (U _ C))). intros x Nx. next (sp_typeOf d n k _ x (deep _ (U _ C)) Nx). intros y Ey. apply spec_ret.
    right. eexists _, x. split; [exact C'|]. split; [left; exists t; auto|split; [exact Nx|exists y; auto]].
Qed.
Lemma header_last : forall ty ks, ty = PhFunctionDeclarationHeader \/ ty = PhMethodDeclarationHeader -> inside_of (Ph ty ks) n -> safe d -> LastToken (Ph ty ks) <> None.
Proof. intros ty ks T C (_ & _ & W). pose proof (proj2 (W _ (deep _ C))) as L. destruct T as [-> | ->]; exact L. Qed.
Lemma sp_newFunction : forall k kids, n = Ph PhFunctionDeclaration kids -> spec n k (newFunction d scan n kids) any.
Proof.
  intros k kids En. pose proof (inner_own _ _ En) as U. unfold newFunction. cbv zeta.
  next (sp_getValidPhpDoc d n k (NodeRange d n)). intros doc D. next (spec_var_do d n k (OpenScope (NodeRange d n))). intros _ _.
  set (J := fun pre (r : signature * type_composite) => type_name_among d can_name (header_kids function_header_type pre) (ts_original (sg_name (fst r)))).
  refine (spec_bind d n k _ _ _ _ _ _ (spec_in_block d n n k _ _ None (J kids) (below_here n) _) _).
  - refine (spec_foldM_along d n k _ _ kids _ _ J _ _); [left; reflexivity|].
    intros pre c post (s, types) E Jp. subst J. cbn [fst] in *. assert (C : In c kids) by (rewrite E; apply in_elt).
    assert (K : forall ts, header_kids function_header_type [c] = [] -> spec n k (ret (s, ts)) (fun r : signature * type_composite => type_name_among d can_name (header_kids function_header_type (pre ++ [c])) (ts_original (sg_name (fst r))))).
    { intros ts H. apply spec_ret. rewrite header_kids_snoc, H, app_nil_r. exact Jp. }
    destruct c as [ty ks|t|u]; try exact (K _ eq_refl). destruct ty; try exact (K _ eq_refl).
    + next (sp_function_header k (header_kids function_header_type pre) ks s (inner_deeper _ _ _ U C) Jp). intros s' N'.
      next (sp_apply_function_doc d n k doc (sg_params s') (fun p X => proj1 (D p X))). intros types' _.
      next (sp_declare_params d n k _ (sg_params s') (header_last _ ks (or_introl eq_refl) (U _ C))). intros _ _.
      apply spec_ret. rewrite header_kids_snoc. cbn [header_kids flat_map function_header_type fst]. rewrite app_nil_r. exact N'.
    + next (sp_scanForChildren k ks (inner_deeper _ _ _ U C)). intros _ _. exact (K _ eq_refl).
  - intros ((s, types), inside) (Jk & F). cbn [fst snd] in *. next (spec_currNamespace d n k). intros ns _. next (spec_var_do d n k CloseScope). intros _ _.
    apply (sp_emit d n k n _ inside (below_here n)); [| |exact F].
    + split; [rewrite En; reflexivity|split; [reflexivity|]]. cbn [a_name]. rewrite original_SetNamespace, En. exact Jk.
    + intros r E. exact (doc_above d (AData _ _ _ _ _ _ _ _ _ _ _) doc D r E).
Qed.

(** *** Modifiers *)
Lemma getMemberModifier_reads : forall kids v s m, fold_left (fun '(v, s, m) c =>
    match c with
    | Tk t => match t_type t with
              | TkAbstract => (v, s, 1%Z)
              | TkFinal => (v, s, 2%Z)
              | TkStatic => (v, true, m)
              | TkPublic => (Public, s, m)
              | TkProtected => (Protected, s, m)
              | TkPrivate => (Private, s, m)
              | _ => (v, s, m)
              end
    | _ => (v, s, m)
    end) kids (v, s, m) = (last_modifier visibility_token kids v, last_modifier static_token kids s,
      snd (fold_left (fun '(v, s, m) c =>
    match c with
    | Tk t => match t_type t with
              | TkAbstract => (v, s, 1%Z)
              | TkFinal => (v, s, 2%Z)
              | TkStatic => (v, true, m)
              | TkPublic => (Public, s, m)
              | TkProtected => (Protected, s, m)
              | TkPrivate => (Private, s, m)
              | _ => (v, s, m)
              end
    | _ => (v, s, m)
    end) kids (v, s, m))).
Proof.
  induction kids as [|c kids IH]; intros v s m; [reflexivity|]. cbn [fold_left last_modifier]. destruct c as [ty ks|t|u]; try apply IH.
  destruct (t_type t); apply IH.
Qed.
Lemma getMemberModifier_spec : forall kids v s m, getMemberModifier kids = (v, s, m) -> v = visibility_of kids /\ s = static_of kids.
Proof.
  intros kids v s m E. unfold getMemberModifier in E. rewrite getMemberModifier_reads in E. injection E as <- <- _. auto.
Qed.
Lemma modifiers_snoc : forall l c, modifiers (l ++ [c]) = match c with Ph PhMemberModifierList ms => ms | _ => modifiers l end.
Proof.
  intros l c. unfold modifiers, modifier_lists. rewrite flat_map_app. cbn [flat_map]. rewrite app_nil_r.
  destruct c as [ty ks|t|u]; rewrite ?app_nil_r; try reflexivity. destruct ty; rewrite ?app_nil_r; try reflexivity. apply last_last.
Qed.
(** what a method header says *)
Definition signature_says (ks : list node) (s : signature) : Prop :=
  sg_vis s = visibility_of (modifiers ks) /\ sg_static s = static_of (modifiers ks) /\ name_among d can_name ks (ts_original (sg_name s)).
Lemma sp_method_header : forall k ks0 ks s, inner ks -> signature_says ks0 s -> spec n k (method_header d s ks) (signature_says (ks0 ++ ks)).
Proof.
  intros k ks0 ks s U N. unfold method_header.
  refine (spec_foldM_along d n k _ _ ks _ s (fun pre => signature_says (ks0 ++ pre)) _ _); [rewrite app_nil_r; exact N|].
  intros pre c post s' E (V & St & Nm). assert (C : In c ks) by (rewrite E; apply in_elt). rewrite app_assoc. set (l := ks0 ++ pre) in *.
  assert (More : name_among d can_name (l ++ [c]) (ts_original (sg_name s'))) by exact (name_among_more _ _ _ _ Nm).
  assert (K : (forall ms, c <> Ph PhMemberModifierList ms) -> forall nm ps, name_among d can_name (l ++ [c]) (ts_original nm) ->
     spec n k (ret (Sig nm (sg_vis s') (sg_static s') ps)) (signature_says (l ++ [c]))).
  { intros H nm ps X. apply spec_ret. unfold signature_says. cbn [sg_vis sg_static sg_name].
    assert (Em : modifiers (l ++ [c]) = modifiers l). { rewrite modifiers_snoc. destruct c as [ty cs|t|u]; try reflexivity. destruct ty; try reflexivity. destruct (H _ eq_refl). }
    rewrite Em. auto. }
  assert (K' : (forall ms, c <> Ph PhMemberModifierList ms) -> spec n k (ret s') (signature_says (l ++ [c]))).
  { intros H. destruct s' as [nm v st ps]. exact (K H nm ps More). }
  assert (Ic : In c (l ++ [c])) by apply in_elt.
  destruct c as [ty cs|t|u]; [destruct ty; try (apply K'; discriminate)|destruct (t_type t) eqn:T; try (apply K'; discriminate)|apply K'; discriminate].
  - next (sp_analyseParameterDeclarationList d n k cs R (inner_under _ (inner_deeper _ _ _ U C))). intros ps _. apply K; [discriminate|exact More].
  - next (sp_phraseText d n k _ cs (deep _ (U _ C))). intros x Nx. apply K; [discriminate|]. right. eexists. split; [exact Ic|]. split; [right; reflexivity|exact Nx].
  - destruct (getMemberModifier cs) as ((v, st), m) eqn:G. apply getMemberModifier_spec in G. destruct G as (-> & ->). apply spec_ret.
    unfold signature_says. rewrite modifiers_snoc. cbn [sg_vis sg_static sg_name]. auto.
  - next (sp_tokenText d n k t (deep _ (U _ C))). intros x Nx. apply K; [discriminate|]. right. eexists. split; [exact Ic|]. split; [left; exists t; auto|exact Nx].
Qed.
Lemma sp_set_block : forall k b, spec n k (set_block b) any.
Proof. intros k b s I L. cbn. split; [|exact Logic.I]. apply (Post_imports d n k s (st_imports s) I (le_n _)). reflexivity. Qed.
Lemma sp_getLastClass : forall k, spec n k getLastClass any.
Proof. intros k. exact (spec_get d n k _ (fun st => nth_error (st_classes st) (length (st_classes st) - 1))). Qed.
Lemma sp_member_scope : forall k, spec n k (member_scope d) any.
Proof.
  intros k. unfold member_scope. next (sp_getLastClass k). intros [c|] _; [|apply sp_ret]. next (spec_currNamespace d n k). intros ns _. apply sp_ret.
Qed.
Lemma sp_newMethod : forall k kids, n = Ph PhMethodDeclaration kids -> spec n k (newMethod d scan n kids) any.
Proof.
  intros k kids En. pose proof (inner_own _ _ En) as U. unfold newMethod. cbv zeta.
  next (sp_getValidPhpDoc d n k (NodeRange d n)). intros doc D. next (spec_var_do d n k (OpenScope (NodeRange d n))). intros _ _.
  set (J := fun pre (r : signature * type_composite) => signature_says (header_kids method_header_type pre) (fst r)).
  refine (spec_bind d n k _ _ _ _ _ _ (spec_in_block d n n k _ _ (Some []) (J kids) (below_here n) _) _).
  - refine (spec_foldM_along d n k _ _ kids _ _ J _ _); [split; [reflexivity|split; [reflexivity|left; reflexivity]]|].
    intros pre c post (s, types) E Jp. subst J. cbn [fst] in *. assert (C : In c kids) by (rewrite E; apply in_elt).
    assert (K : forall ts, header_kids method_header_type [c] = [] -> spec n k (ret (s, ts)) (fun r : signature * type_composite => signature_says (header_kids method_header_type (pre ++ [c])) (fst r))).
    { intros ts H. apply spec_ret. rewrite header_kids_snoc, H, app_nil_r. exact Jp. }
    destruct c as [ty ks|t|u]; try exact (K _ eq_refl). destruct ty; try exact (K _ eq_refl).
    + next (sp_method_header k (header_kids method_header_type pre) ks s (inner_deeper _ _ _ U C) Jp). intros s' N'.
      next (sp_set_block k (Some (ts_original (sg_name s')))). intros _ _.
      next (sp_apply_function_doc d n k doc (sg_params s') (fun p X => proj1 (D p X))). intros types' _.
      next (sp_declare_params d n k _ (sg_params s') (header_last _ ks (or_intror eq_refl) (U _ C))). intros _ _.
      apply spec_ret. rewrite header_kids_snoc. cbn [header_kids flat_map method_header_type fst]. rewrite app_nil_r. exact N'.
    + next (sp_scanForChildren k ks (inner_deeper _ _ _ U C)). intros _ _. exact (K _ eq_refl).
  - intros ((s, types), inside) ((V & St & Nm) & F). cbn [fst snd] in *. next (spec_var_do d n k CloseScope). intros _ _.
    next (sp_member_scope k). intros scope _.
    apply (sp_emit d n k n _ inside (below_here n)); [| |exact F].
    + rewrite En. split; [reflexivity|split; [rewrite <- En; reflexivity|]]. split; [exact V|split; [exact St|exact Nm]].
    + intros r E. exact (doc_above d (AData _ _ _ _ _ _ _ _ _ _ _) doc D r E).
Qed.
Lemma sp_emit_variable : forall k m a, below m n -> gives_variable d m a -> spec n k (emit1 a) any.
Proof. intros k m a Bl ((S & D) & _). exact (sp_emit1 d n k m a Bl S D). Qed.
Lemma sp_variable : forall k m b, inside_of m n -> is_variable m -> spec n k (v <- newVariable d m b ;; emit1 v) any.
Proof. intros k m b C V. next (sp_newVariable d n k m b (deep _ C) V). intros v G. exact (sp_emit_variable k m v (proj1 C) G). Qed.
Lemma sp_analyseUseClause : forall k kids, inner kids -> spec n k (analyseUseClause d kids) any.
Proof.
  intros k kids U. unfold analyseUseClause. apply spec_forM. intros c C. destruct c as [ty ks|t|u]; try apply sp_ret.
  destruct ty; try apply sp_ret. apply spec_forM. intros v V. pose proof (inner_deeper _ _ _ U C) as Uk.
  destruct v as [ty vs|t|u]; try apply sp_ret. destruct ty; try apply sp_ret.
  next (sp_newVariableWithoutPushing d n k _ (deep _ (Uk _ V)) (or_intror eq_refl)). intros x G.
  next (spec_var_do d n k (Capture (MkVar (ts_original (a_name x)) (a_range x)))). intros _ _. exact (sp_emit_variable k _ x (proj1 (Uk _ V)) G).
Qed.
Lemma sp_newAnonymousFunction : forall k kids, n = Ph PhAnonymousFunctionCreationExpression kids -> spec n k (newAnonymousFunction d scan n kids) any.
Proof.
  intros k kids En. pose proof (inner_own _ _ En) as U. unfold newAnonymousFunction. cbv zeta.
  next (spec_var_do d n k (OpenScope (NodeRange d n))). intros _ _.
  refine (spec_bind d n k _ _ _ _ _ _ (spec_in_block d n n k _ _ None any (below_here n) _) _).
  - apply spec_foldM; [exact I|]. intros ps c C _. destruct c as [ty ks|t|u]; try apply sp_ret. pose proof (inner_deeper _ _ _ U C) as Uk.
    destruct ty; try apply sp_ret.
    + next (sp_scanForChildren k ks Uk). intros _ _. apply sp_ret.
    + first_any d n k.
      * apply spec_foldM; [exact I|]. intros qs x X _. destruct x as [ty xs|t|u]; try apply sp_ret. pose proof (inner_deeper _ _ _ Uk X) as Ux.
        destruct ty; try apply sp_ret.
        -- next (sp_analyseUseClause k xs Ux). intros _ _. apply sp_ret.
        -- next (sp_analyseParameterDeclarationList d n k xs R (inner_under _ Ux)). intros ps' _. apply sp_ret.
      * intros qs _. first_any d n k; [apply spec_forM; intros p _; apply spec_var_do|]. intros _ _. apply sp_ret.
  - intros (ps, inside) (_ & F). cbn [fst snd] in *. next (spec_var_do d n k CloseScope). intros _ _.
    apply (sp_emit d n k n _ inside (below_here n)); [|discriminate|exact F]. split; [rewrite En; reflexivity|reflexivity].
Qed.
(** *** Properties *)
Definition property_says (m : node) (vis : Z) (static : bool) : Prop :=
  exists before elements after, m = Ph PhPropertyDeclaration (before ++ Ph PhPropertyElementList elements :: after) /\
    vis = visibility_of (modifiers before) /\ static = static_of (modifiers before).
Lemma sp_newProperty : forall k before elements after es vis static,
  n = Ph PhPropertyDeclaration (before ++ Ph PhPropertyElementList elements :: after) -> In (Ph PhPropertyElement es) elements ->
  vis = visibility_of (modifiers before) -> static = static_of (modifiers before) ->
  spec n k (newProperty d scan (Ph PhPropertyElement es) es vis static) any.
Proof.
  intros k before elements after es vis static En Ie Ev Es.
  assert (U : inner es).
  { pose proof (inner_own _ _ En) as U0. refine (inner_deeper elements _ es _ Ie). refine (inner_deeper _ _ elements U0 _). apply in_elt. }
  unfold newProperty. cbv zeta. set (e := Ph PhPropertyElement es) in *. next (sp_getLastClass k). intros parent _.
  refine (spec_bind d n k _ _ _ _ (name_among d is_variable_token es) _ _ _).
  - apply spec_foldM; [left; reflexivity|]. intros name c C J. destruct c as [ty ks|t|u]; [destruct ty| |]; try (apply spec_ret; exact J).
    + next (sp_scanForChildren k ks (inner_deeper _ _ _ U C)). intros _ _. apply spec_ret. exact J.
    + destruct (t_type t) eqn:T; try (apply spec_ret; exact J). refine (spec_weaken d n k _ _ _ _ (sp_tokenText d n k t (deep _ (U _ C))) _).
      intros s Ns. right. exists (Tk t). split; [exact C|]. split; [exists t; auto|exact Ns].
  - intros name J. next (sp_getValidPhpDoc d n k (NodeRange d e)). intros doc D. first_any d n k.
    + destruct doc as [p|]; [|apply sp_ret]. pose proof (findTags_ok d p (B "@var") (proj1 (D p eq_refl))) as F.
      destruct (findTags p (B "@var")) as [|t ts]; [apply sp_ret|].
      assert (S : safe d -> types_ok (tg_types t)) by (intros S; specialize (F S); inversion F as [|x y H]; exact (proj1 H)).
      next (sp_typesFromPhpDoc d n k _ S). intros x _. apply sp_ret.
    + intros types _. unfold emit1. apply (sp_emit d n k n _ [] (below_here n)); [| |constructor].
      * exists before, elements, after, e, es. repeat split; auto.
      * intros r E. exact (doc_above d (AData _ _ _ _ _ _ _ _ _ _ _) doc D r E).
Qed.
Lemma sp_newPropertyDeclaration : forall k kids, n = Ph PhPropertyDeclaration kids -> spec n k (newPropertyDeclaration d scan kids) any.
Proof.
  intros k kids En. unfold newPropertyDeclaration.
  set (J := fun pre (r : Z * bool) => fst r = visibility_of (modifiers pre) /\ snd r = static_of (modifiers pre)).
  refine (spec_bind d n k _ _ _ _ (J kids) _ _ _); [|intros _ _; apply sp_ret].
  refine (spec_foldM_along d n k _ _ kids _ _ J _ _); [split; reflexivity|]. intros pre c post (vis, static) E (Jv & Js). cbn [fst snd] in *.
  assert (K : modifiers (pre ++ [c]) = modifiers pre -> spec n k (ret (vis, static)) (J (pre ++ [c]))).
  { intros X. apply spec_ret. unfold J. rewrite X. auto. }
  pose proof (modifiers_snoc pre c) as Ms. destruct c as [ty ks|t|u]; try exact (K Ms). destruct ty; try exact (K Ms).
  - destruct (getMemberModifier ks) as ((v, s), m) eqn:G. apply getMemberModifier_spec in G. destruct G as (-> & ->). apply spec_ret. unfold J. rewrite Ms. auto.
  - first_any d n k; [|intros _ _; exact (K Ms)]. apply spec_forM. intros e Ie. destruct e as [ty es|t|u]; try apply sp_ret. destruct ty; try apply sp_ret.
    exact (sp_newProperty k pre ks post es vis static (eq_trans En (f_equal _ E)) Ie Jv Js).
Qed.
(** *** Constants of classes *)
Definition is_identifier (c : node) : Prop := node_type c = Some PhIdentifier.
Lemma sp_class_const_loop : forall k all, inner all -> forall kids name named e skip value, (forall c, In c kids -> In c all) -> name_among d is_identifier all name ->
  spec n k (class_const_loop d scan kids name named e skip value) (fun r => name_among d is_identifier all (fst (fst r))).
Proof.
  intros k all U. induction kids as [|c kids IH]; intros name named e skip value S N; cbn [class_const_loop]; [apply spec_ret; exact N|].
  assert (C : In c all) by (apply S; left; reflexivity). assert (S' : forall x, In x kids -> In x all) by (intros x X; apply S; right; exact X).
  assert (Y : forall n' v e s, spec n k (class_const_loop d scan kids name n' e s v) (fun r => name_among d is_identifier all (fst (fst r))))
    by (intros; exact (IH _ _ _ _ _ S' N)).
  destruct c as [ty ks|t|u]; [| |apply Y].
  - destruct e.
    + next (sp_phraseText d n k ty ks (deep _ (U _ C))). intros v _. next (sp_scan k _ (U _ C)). intros _ _. apply Y.
    + destruct ty; try apply Y. next (sp_phraseText d n k _ ks (deep _ (U _ C))). intros x Nx. apply (IH _ _ _ _ _ S'). right. eexists. split; [exact C|].
      split; [reflexivity|exact Nx].
  - assert (X : spec n k (if e then v <- tokenText d t ;; class_const_loop d scan kids name named e false (value ++ v) else class_const_loop d scan kids name named e false value)
      (fun r => name_among d is_identifier all (fst (fst r)))).
    { destruct e; [|apply Y]. next (sp_tokenText d n k t (deep _ (U _ C))). intros v _. apply Y. }
    destruct (t_type t); try exact X; try apply Y. destruct skip; [apply Y|exact X].
Qed.
Lemma sp_newClassConst : forall k before elements after es vis,
  n = Ph PhClassConstDeclaration (before ++ Ph PhClassConstElementList elements :: after) -> In (Ph PhClassConstElement es) elements ->
  vis = visibility_of (modifiers before) -> spec n k (newClassConst d scan (Ph PhClassConstElement es) es vis) any.
Proof.
  intros k before elements after es vis En Ie Ev.
  assert (U : inner es).
  { pose proof (inner_own _ _ En) as U0. refine (inner_deeper elements _ es _ Ie). refine (inner_deeper _ _ elements U0 _). apply in_elt. }
  unfold newClassConst. cbv zeta. set (e := Ph PhClassConstElement es) in *.
  next (sp_getValidPhpDoc d n k (NodeRange d e)). intros doc D. next (sp_member_scope k). intros scope _.
  next (sp_class_const_loop k es U es [] false false false [] (fun _ X => X) (or_introl eq_refl)). intros ((name, nmd), value) N. cbn [fst] in N.
  unfold emit1. apply (sp_emit d n k n _ [] (below_here n)); [| |constructor].
  - exists before, elements, after, e, es. repeat split; auto.
  - cbn [a_doc]. intros r E. destruct nmd; [|discriminate]. exact (doc_above d (AData _ _ _ _ _ _ _ _ _ _ _) doc D r E).
Qed.
Lemma sp_newClassConstDeclaration : forall k kids, n = Ph PhClassConstDeclaration kids -> spec n k (newClassConstDeclaration d scan kids) any.
Proof.
  intros k kids En. unfold newClassConstDeclaration.
  set (J := fun pre (vis : Z) => vis = visibility_of (modifiers pre)).
  refine (spec_bind d n k _ _ _ _ (J kids) _ _ _); [|intros _ _; apply sp_ret].
  refine (spec_foldM_along d n k _ _ kids _ _ J _ _); [reflexivity|]. intros pre c post vis E Jv.
  assert (K : modifiers (pre ++ [c]) = modifiers pre -> spec n k (ret vis) (J (pre ++ [c]))).
  { intros X. apply spec_ret. unfold J. rewrite X. auto. }
  pose proof (modifiers_snoc pre c) as Ms. destruct c as [ty ks|t|u]; try exact (K Ms). destruct ty; try exact (K Ms).
  2: { destruct (getMemberModifier ks) as ((v, s), m) eqn:G. apply getMemberModifier_spec in G. destruct G as (-> & ->). apply spec_ret. unfold J. rewrite Ms. auto. }
  first_any d n k; [|intros _ _; exact (K Ms)]. apply spec_forM. intros e Ie. destruct e as [ty es|t|u]; try apply sp_ret. destruct ty; try apply sp_ret.
  exact (sp_newClassConst k pre ks post es vis (eq_trans En (f_equal _ E)) Ie Jv).
Qed.
Lemma sp_newConstDeclaration : forall k kids, inner kids -> spec n k (newConstDeclaration scan kids) any.
Proof.
  intros k kids U. unfold newConstDeclaration. apply spec_forM. intros c C. destruct c as [ty ks|t|u]; try apply sp_ret. destruct ty; try apply sp_ret.
  exact (sp_scanForChildren k ks (inner_deeper _ _ _ U C)).
Qed.
Lemma slice_of_slice : forall (s : gostr) o l, 2 <= l -> o + l <= length s -> slice (slice s o (o + l)) 1 (length (slice s o (o + l)) - 1) = slice s (o + 1) (o + l - 1).
Proof.
  intros s o l L H. unfold slice. rewrite firstn_length, skipn_length. replace (o + l - o) with l by lia. rewrite Nat.min_l by lia.
  rewrite skipn_firstn_comm, firstn_firstn, Nat.min_l by lia. replace (o + l - 1 - (o + 1)) with (l - 1 - 1) by lia. f_equal.
  rewrite Nat.add_1_r. clear. revert s. induction o as [|o IH]; intros [|b s]; [reflexivity|reflexivity|reflexivity|]. apply (IH s).
Qed.
Lemma sp_define_args : forall k args old, inner args -> spec n k (define_args d args old) any.
Proof.
  intros k args old U. unfold define_args. destruct args as [|a rest]; [apply sp_ret|]. first_any d n k.
  - destruct a as [ty ks|t|u]; try apply sp_ret. destruct (t_type t) eqn:T; try apply sp_ret.
    assert (It : inside_of (Tk t) n) by (apply U; left; reflexivity). next (sp_tokenText d n k t (deep _ It)). intros text Nt.
    assert (S : safe d -> 2 <= length text /\ is_type_text (slice text 1 (length text - 1))).
    { intros (_ & Fl & W). pose proof (proj2 (W _ (deep _ It))) as X. destruct t as [tt o l]. cbn [t_type] in T. subst tt. destruct X as (L2 & X).
      cbn [named GetNodeText getTokenText] in Nt. unfold named, GetNodeText, getTokenText, text_slice, t_end in Nt. cbn [t_offset t_length] in Nt.
      destruct (_ <=? _); [|discriminate]. destruct (o + l <=? _) eqn:Lx; [|discriminate]. cbn in Nt. injection Nt as <-. apply Nat.leb_le in Lx.
      rewrite (slice_of_slice _ o l L2 Lx). split.
      - unfold slice. rewrite firstn_length, skipn_length. lia.
      - apply X. unfold text_slice. rewrite (proj2 (Nat.leb_le _ _)) by lia. rewrite (proj2 (Nat.leb_le _ _)) by lia. reflexivity. }
    destruct (Nat.ltb_spec (length text) 2) as [H|H].
    + apply spec_panic. intros s. destruct (S s). lia.
    + exact (spec_any d n k _ _ _ (sp_newTypeString d n k _ (fun s => proj2 (S s)))).
  - intros name _. first_any d n k; [|intros v _; apply sp_ret]. destruct rest as [|b rest]; [apply sp_ret|].
    refine (spec_any d n k _ _ _ (sp_nodeText d n k b (deep _ (U b _)))). right. left. reflexivity.
Qed.
Lemma sp_newDefine : forall k kids, n = Ph PhFunctionCallExpression kids -> spec n k (newDefine d scan n kids) any.
Proof.
  intros k kids En. pose proof (inner_own _ _ En) as U. unfold newDefine. cbv zeta.
  next (sp_getValidPhpDoc d n k (NodeRange d n)). intros doc D.
  refine (spec_bind d n k _ _ _ _ _ _ (spec_in_block d n n k _ _ None any (below_here n) _) _).
  - apply spec_foldM; [exact I|]. intros acc c C _. destruct c as [ty ks|t|u]; try apply sp_ret. destruct ty; try apply sp_ret.
    next (sp_newArgumentList k ks (proj1 (U _ C)) (inner_deeper _ _ _ U C)). intros args Ea. apply sp_define_args.
    intros x X. rewrite Ea in X. apply filter_In in X. exact (inner_deeper _ _ _ U C x (proj1 X)).
  - intros ((name, value), inside) (_ & F). cbn [fst snd] in *. next (spec_currNamespace d n k). intros ns _.
    apply (sp_emit d n k n _ inside (below_here n)); [| |exact F]; [split; [rewrite En; reflexivity|reflexivity]|].
    intros r E. exact (doc_above d (AData _ _ _ _ _ _ _ _ _ _ _) doc D r E).
Qed.
Lemma sp_isDefine_node : forall k, spec n k (isDefine d n) any.
Proof.
  intros k. unfold isDefine. destruct n as [ty kids|t|u] eqn:En; try apply sp_ret. apply sp_isDefine; [exact R|]. apply under_kids.
Qed.
Lemma sp_tryToNewDefine : forall k kids, n = Ph PhFunctionCallExpression kids -> spec n k (tryToNewDefine d scan n kids) any.
Proof.
  intros k kids En. unfold tryToNewDefine. next (sp_isDefine_node k). intros b _. destruct b; [exact (sp_newDefine k kids En)|apply sp_ret].
Qed.
Lemma sp_processCatchNameList : forall k kids, inner kids -> spec n k (processCatchNameList d expr kids) any.
Proof.
  intros k kids U. unfold processCatchNameList. apply spec_forM. intros c C. destruct c as [ty ks|t|u]; try apply sp_ret. destruct ty; try apply sp_ret.
  all: exact (sp_class_access k _ ks (U _ C)).
Qed.
Lemma sp_newNamespace : forall k kids, n = Ph PhNamespaceDefinition kids -> spec n k (newNamespace d scan n kids) any.
Proof.
  intros k kids En. pose proof (inner_own _ _ En) as U. unfold newNamespace.
  assert (Nn : is_namespace n = true) by (rewrite En; reflexivity).
  assert (Not : forall P : Prop, without is_namespace n -> P) by (intros P W; rewrite (W n (below_here n)) in Nn; discriminate).
  next (spec_pushImportTable d n k n Nn). intros i _. next (spec_change_table d n k i (fun t => setNamespace t []) (fun W => Not _ W)). intros _ _.
  apply spec_forM. intros c C. destruct c as [ty ks|t|u]; try apply sp_ret. destruct ty; try apply sp_ret.
  all: try exact (sp_scanForChildren k ks (inner_deeper _ _ _ U C)).
  next (sp_phraseText d n k _ ks (deep _ (U _ C))). intros name _. exact (spec_change_table d n k i _ (fun W => Not _ W)).
Qed.

(** ** Expressions *)
Definition makes (r : made) : Prop := forall a, fst r = Some a -> snd r = true -> exists m, below m n /\ gives d m a.
Lemma sp_made_no : forall k x, spec n k (ret (x, false)) makes.
Proof. intros k x. apply spec_ret. intros a _ E. discriminate E. Qed.
Lemma sp_made : forall k m a, below m n -> gives d m a -> spec n k (ret (Some a, true)) makes.
Proof. intros k m a Bl G. apply spec_ret. intros x E _. injection E as <-. eauto. Qed.
Lemma sp_first_arguments : forall k kids, inner kids -> spec n k (first_arguments scan kids) any.
Proof.
  intros k kids. induction kids as [|c kids IH]; intros U; cbn [first_arguments]; [apply sp_ret|]. pose proof (inner_head _ _ U) as C. apply inner_tail in U.
  destruct c as [ty ks|t|u]; try exact (IH U). destruct ty; try exact (IH U). exact (sp_scan k _ C).
Qed.
Lemma sp_newFunctionCall : forall k kids, n = Ph PhFunctionCallExpression kids -> spec n k (newFunctionCall d scan expr kids) makes.
Proof.
  intros k kids En. pose proof (inner_own _ _ En) as U. unfold newFunctionCall. destruct kids as [|c kids]; cbv zeta.
  - next (sp_emit1 d n k n (reference AFunctionCall [] zero_range []) (below_here n) ltac:(rewrite En; repeat split) eq_refl). intros _ _. apply sp_made_no.
  - pose proof (inner_head _ _ U) as C. next (sp_nodeText d n k c (deep _ C)). intros name Nn.
    next (sp_emit1 d n k n (reference AFunctionCall name (NodeRange d c) []) (below_here n) ltac:(rewrite En; repeat split; exact Nn) eq_refl). intros _ _.
    first_any d n k. { destruct c as [ty ks|t|u]; try apply sp_ret. destruct ty; try apply sp_ret. exact (sp_expr_unit k _ C). }
    intros _ _. next (spec_currImportTable d n k). intros i _. next (sp_typeOf d n k c name (deep _ C) Nn). intros t _.
    next (spec_change_table d n k i _ (fun _ t' => use_function_namespace t' t)). intros _ _.
    next (sp_first_arguments k _ U). intros _ _. apply sp_made_no.
Qed.
Lemma sp_member_name_of : forall k c, (forall x, c = Some x -> inside_of x n) -> spec n k (member_name_of d c) (member_named d c).
Proof.
  intros k c H. unfold member_name_of, member_named. destruct c as [[ty ks|t|u]|]; try (apply spec_ret; reflexivity).
  destruct ty; try (apply spec_ret; reflexivity). exact (sp_phraseText d n k _ ks (deep _ (H _ eq_refl))).
Qed.
Lemma sp_scope_access : forall k kids, inner kids -> spec n k (scope_access d expr kids) any.
Proof.
  intros k kids U. unfold scope_access. destruct kids as [|[ty ks|t|u] kids]; try apply sp_ret. exact (sp_class_access k ty ks (inner_head _ _ U)).
Qed.
Lemma third_inside : forall kids, inner kids -> forall x, nth_error kids 2 = Some x -> inside_of x n.
Proof. intros kids U x E. exact (U x (nth_error_In _ _ E)). Qed.
Lemma sp_newScopedAccess : forall k kd ty kids, n = Ph ty kids ->
  (kd = AScopedPropertyAccess /\ ty = PhScopedPropertyAccessExpression \/
   kd = AScopedConstantAccess /\ (ty = PhClassConstantAccessExpression \/ ty = PhErrorScopedAccessExpression)) ->
  spec n k (newScopedAccess d expr kd kids) makes.
Proof.
  intros k kd ty kids En T. pose proof (inner_own _ _ En) as U. unfold newScopedAccess. next (sp_scope_access k kids U). intros _ _. cbv zeta.
  next (sp_member_name_of k (nth_error kids 2) (third_inside kids U)). intros name Nn. apply (sp_made k n _ (below_here n)). split; [|reflexivity].
  rewrite En. destruct T as [(-> & ->)|(-> & [-> | ->])].
  - exact (conj eq_refl (conj eq_refl Nn)).
  - exact (conj (or_introl eq_refl) (conj eq_refl Nn)).
  - exact (conj (or_intror eq_refl) (conj eq_refl Nn)).
Qed.
Lemma in_skipn : forall A (x : A) m l, In x (skipn m l) -> In x l.
Proof. intros A x. induction m as [|m IH]; intros l X; [exact X|]. destruct l as [|y l]; [exact X|]. right. exact (IH l X). Qed.
Lemma inner_skipn : forall m kids, inner kids -> inner (skipn m kids).
Proof. intros m kids U x X. exact (U x (in_skipn _ x m kids X)). Qed.
Lemma sp_newScopedMethodAccess : forall k kids, n = Ph PhScopedCallExpression kids -> spec n k (newScopedMethodAccess d scan expr kids) makes.
Proof.
  intros k kids En. pose proof (inner_own _ _ En) as U. unfold newScopedMethodAccess. next (sp_scope_access k kids U). intros _ _. cbv zeta.
  next (sp_member_name_of k (nth_error kids 2) (third_inside kids U)). intros name Nn.
  next (sp_emit1 d n k n (reference AScopedMethodAccess name (NodeRangeOpt d (nth_error kids 2)) []) (below_here n)
    ltac:(rewrite En; exact (conj eq_refl (conj eq_refl Nn))) eq_refl). intros _ _.
  next (sp_first_arguments k _ (inner_skipn 3 kids U)). intros _ _. apply sp_made_no.
Qed.
(** *** Member access *)
Lemma skip_arrows_from : forall all kids r l r', (forall x, In x kids -> In x all) -> member_place d all r -> skip_arrows d kids r = (l, r') ->
  (forall x, In x l -> In x all) /\ member_place d all r'.
Proof.
  intros all kids. induction kids as [|c kids IH]; intros r l r' S P E; cbn [skip_arrows] in E.
  - injection E as <- <-. auto.
  - assert (S' : forall x, In x kids -> In x all) by (intros x X; apply S; right; exact X).
    destruct c as [ty ks|t|u]; try (injection E as <- <-; auto; fail).
    destruct (t_type t) eqn:T; try (injection E as <- <-; auto; fail).
    + exact (IH _ _ _ S' P E).
    + apply (IH _ _ _ S') in E; [exact E|]. right. left. exists t. split; [apply S; left; reflexivity|auto].
Qed.
Lemma sp_member_name_loop : forall k all, inner all -> forall kids name, (forall x, In x kids -> In x all) -> name_among d (fun _ => True) all name ->
  spec n k (member_name_loop d kids name) (name_among d (fun _ => True) all).
Proof.
  intros k all U. induction kids as [|c kids IH]; intros name S N; cbn [member_name_loop]; [apply spec_ret; exact N|].
  assert (C : In c all) by (apply S; left; reflexivity). assert (S' : forall x, In x kids -> In x all) by (intros x X; apply S; right; exact X).
  destruct c as [ty ks|t|u]; [destruct ty; try exact (IH name S' N)|destruct (t_type t); try exact (IH name S' N)|exact (IH name S' N)].
  - next (sp_phraseText d n k _ ks (deep _ (U _ C))). intros x Nx.
    next (sp_newVariable d n k _ false (deep _ (U _ C)) (or_introl eq_refl)). intros v G.
    next (sp_emit_variable k _ v (proj1 (U _ C)) G). intros _ _. apply spec_ret. right. eexists. split; [exact C|]. split; [exact I|exact Nx].
  - next (sp_tokenText d n k t (deep _ (U _ C))). intros x Nx. apply (IH x S'). right. exists (Tk t). split; [exact C|]. split; [exact I|exact Nx].
Qed.
Lemma sp_readMemberName : forall k all kids, inner all -> (forall x, In x kids -> In x all) ->
  spec n k (readMemberName d kids) (fun r => arrow_named d all (fst (fst r)) /\ member_place d all (snd (fst r)) /\ forall x, In x (snd r) -> In x all).
Proof.
  intros k all kids U S. unfold readMemberName. destruct (skip_arrows d kids zero_range) as (l, r) eqn:E.
  apply (skip_arrows_from all) in E; [|exact S|right; right; reflexivity]. destruct E as (Sl & P).
  destruct l as [|c l]; [apply spec_ret; split; [left; reflexivity|split; [exact P|intros x []]]|].
  assert (C : In c all) by (apply Sl; left; reflexivity). assert (Sl' : forall x, In x l -> In x all) by (intros x X; apply Sl; right; exact X).
  assert (Y : spec n k (ret ([], r, l)) (fun r => arrow_named d all (fst (fst r)) /\ member_place d all (snd (fst r)) /\ forall x, In x (snd r) -> In x all)).
  { apply spec_ret. split; [left; reflexivity|split; [exact P|exact Sl']]. }
  destruct c as [ty ks|t|u]; [destruct ty; try exact Y|destruct (t_type t); try exact Y|exact Y].
  - next (sp_member_name_loop k ks (inner_deeper _ _ _ U C) ks [] (fun _ X => X) (or_introl eq_refl)). intros name [->|(c & Ic & _ & Nc)].
    + apply spec_ret. split; [left; reflexivity|split; [left; eexists; split; [exact C|reflexivity]|exact Sl']].
    + apply spec_ret. split; [right; exists c; split; [apply in_or_app; right; apply in_flat_map; eexists; split; [exact C|exact Ic]|auto]|].
      split; [left; eexists; split; [exact C|reflexivity]|exact Sl'].
  - next (sp_tokenText d n k t (deep _ (U _ C))). intros x Nx. apply spec_ret.
    split; [right; exists (Tk t); split; [apply in_or_app; left; exact C|auto]|]. split; [left; eexists; split; [exact C|reflexivity]|exact Sl'].
Qed.
Lemma sp_receiver : forall k kids, inner kids -> spec n k (receiver expr kids) any.
Proof. intros k kids U. unfold receiver. destruct kids as [|[ty ks|t|u] kids]; try apply sp_ret. exact (sp_expr_unit k _ (inner_head _ _ U)). Qed.
Lemma sp_newPropertyAccess : forall k kids, n = Ph PhPropertyAccessExpression kids -> spec n k (newPropertyAccess d expr kids) makes.
Proof.
  intros k kids En. pose proof (inner_own _ _ En) as U. unfold newPropertyAccess. next (sp_receiver k kids U). intros _ _.
  next (sp_readMemberName k kids (skipn 1 kids) U (fun x X => in_skipn _ x 1 kids X)). intros ((name, r), rest) (Nm & P & _). cbn [fst snd] in *.
  apply (sp_made k n _ (below_here n)). split; [|reflexivity]. rewrite En. exact (conj eq_refl (conj P Nm)).
Qed.
Lemma sp_newMethodAccess : forall k kids, n = Ph PhMethodCallExpression kids -> spec n k (newMethodAccess d scan expr kids) makes.
Proof.
  intros k kids En. pose proof (inner_own _ _ En) as U. unfold newMethodAccess. next (sp_receiver k kids U). intros _ _.
  next (sp_readMemberName k kids (skipn 2 kids) U (fun x X => in_skipn _ x 2 kids X)). intros ((name, r), rest) (Nm & P & Sr). cbn [fst snd] in *. cbv zeta.
  next (sp_emit1 d n k n (reference AMethodAccess name r []) (below_here n) ltac:(rewrite En; exact (conj eq_refl (conj P Nm))) eq_refl). intros _ _.
  first_any d n k; [|intros _ _; apply sp_made_no]. apply spec_forM. intros c C. apply Sr in C. destruct c as [ty ks|t|u]; try apply sp_ret.
  destruct ty; try apply sp_ret. next (sp_newArgumentList k ks (proj1 (U _ C)) (inner_deeper _ _ _ U C)). intros l _. apply sp_ret.
Qed.
(** *** new *)
Lemma sp_designator_node : forall k kids, inner kids -> spec n k (designator_node d kids)
  (fun r => Forall (fun v => exists m, below m n /\ gives_variable d m v) (snd r)).
Proof.
  intros k kids U. unfold designator_node. apply spec_foldM; [constructor|]. intros ((name, types), vars) c C J. cbn [snd] in J.
  destruct c as [ty ks|t|u]; try (apply spec_ret; exact J). destruct ty; try (apply spec_ret; exact J).
  all: try (next (sp_classReference d n k _ (deep _ (U _ C))); intros t _; apply spec_ret; exact J).
  - next (sp_newVariable d n k _ false (deep _ (U _ C)) (or_introl eq_refl)). intros v G. apply spec_ret. cbn [snd]. apply Forall_app. split; [exact J|].
    constructor; [|constructor]. eexists. split; [exact (proj1 (U _ C))|exact G].
  - next (sp_relativeTypes d n k). intros ts _. apply spec_ret. exact J.
Qed.
Lemma sp_newClassTypeDesignator : forall k kids, n = Ph PhObjectCreationExpression kids -> spec n k (newClassTypeDesignator d scan kids) makes.
Proof.
  intros k kids En. pose proof (inner_own _ _ En) as U. unfold newClassTypeDesignator. first_any d n k; [|intros e _; apply sp_made_no].
  apply spec_foldM; [exact I|]. intros e c C _. destruct c as [ty ks|t|u]; try apply sp_ret. pose proof (inner_deeper _ _ _ U C) as Uk.
  destruct ty; try apply sp_ret.
  - next (sp_newArgumentList k ks (proj1 (U _ C)) Uk). intros l _. apply sp_ret.
  - cbv zeta. refine (spec_bind d n k _ _ _ _ _ _ (spec_in_block d _ n k _ _ None any (proj1 (U _ C)) (rec_scan _ (U _ C) k)) _). intros (x, inside) (_ & F). cbn [snd] in *.
    first_any d n k; [|intros _ _; apply sp_ret]. apply (sp_emit d n k n _ inside (below_here n)); [|discriminate|].
    + rewrite En. split; [reflexivity|]. eexists. split; [exact C|]. split; [reflexivity|right; reflexivity].
    + revert F. apply Forall_impl. intros a. apply comes_from_mono. exact (proj1 (U _ C)).
  - next (sp_designator_node k ks Uk). intros ((name, types), vars) F. cbn [snd] in F. cbv zeta.
    first_any d n k.
    + unfold emit1. apply (sp_emit d n k n _ [] (below_here n)); [|discriminate|constructor].
      rewrite En. split; [reflexivity|]. eexists. split; [exact C|]. split; [reflexivity|left; reflexivity].
    + intros _ _. first_any d n k; [|intros _ _; apply sp_ret]. apply spec_forM. intros v V. rewrite Forall_forall in F. destruct (F v V) as (m & Bl & G).
      exact (sp_emit_variable k m v Bl G).
Qed.
Lemma sp_analyseForeachStatement : forall k kids, inner kids -> spec n k (analyseForeachStatement d scan expr kids) makes.
Proof.
  intros k kids U. unfold analyseForeachStatement. first_any d n k; [|intros _ _; apply sp_made_no]. apply spec_forM. intros c C.
  destruct c as [ty ks|t|u]; try apply sp_ret. pose proof (inner_deeper _ _ _ U C) as Uk. destruct ty; try apply sp_ret.
  all: try exact (sp_scanForChildren k ks Uk).
  - apply spec_forM. intros e E. destruct e as [ty es|t|u]; try apply sp_ret. exact (sp_expr_unit k _ (Uk _ E)).
  - apply spec_forM. intros e E. destruct e as [ty es|t|u]; try apply sp_ret. destruct ty; try apply sp_ret.
    exact (sp_variable k _ true (Uk _ E) (or_introl eq_refl)).
Qed.
(** *** Assignments *)
Lemma in_SkipToken : forall f x l, In x (SkipToken f l) -> In x l.
Proof. intros f x l. induction l as [|y l IH]; cbn [SkipToken]; [auto|]. destruct (token_is f y); [right; auto|auto]. Qed.
Lemma inner_SkipToken : forall f l, inner l -> inner (SkipToken f l).
Proof. intros f l U x X. exact (U x (in_SkipToken f x l X)). Qed.
Lemma sp_rhs : forall k rest, inner rest -> spec n k (match nth_error rest 0 with Some (Ph _ _ as c) => expr c | _ => ret None end) any.
Proof.
  intros k rest U. destruct rest as [|[ty ks|t|u] rest]; cbn [nth_error]; try apply sp_ret. exact (sp_expr k _ (inner_head _ _ U)).
Qed.
Lemma sp_scan_opt : forall k rest, inner rest -> spec n k (scan_opt scan (nth_error rest 0)) any.
Proof. intros k rest U. destruct rest as [|c rest]; cbn; [apply sp_ret|exact (sp_scan k c (inner_head _ _ U))]. Qed.
Lemma sp_analyseVariableAssignment : forall k ty ks rest, inside_of (Ph PhSimpleVariable ks) n -> inner rest ->
  spec n k (analyseVariableAssignment d scan expr ty n (Ph PhSimpleVariable ks) rest) any.
Proof.
  intros k ty ks rest C U. unfold analyseVariableAssignment.
  set (l1 := SkipToken is_whitespace (skipn 1 rest)).
  set (l2 := match ty with PhCompoundAssignmentExpression => SkipToken is_dot_equals l1 | _ => SkipToken is_equals l1 end).
  set (l3 := SkipToken is_whitespace l2).
  set (l4 := match ty with PhByRefAssignmentExpression => SkipToken is_whitespace (SkipToken is_ampersand l3) | _ => l3 end). cbv zeta.
  assert (U4 : inner l4).
  { assert (U1 : inner l1) by (apply inner_SkipToken, inner_skipn, U).
    assert (U2 : inner l2) by (unfold l2; destruct ty; apply inner_SkipToken; exact U1).
    assert (U3 : inner l3) by (apply inner_SkipToken; exact U2).
    unfold l4. destruct ty; try exact U3. apply inner_SkipToken, inner_SkipToken. exact U3. }
  clearbody l4. clear l1 l2 l3.
  next (sp_getValidPhpDoc d n k (NodeRange d (Ph PhSimpleVariable ks))). intros doc D.
  next (sp_newVariableWithoutPushing d n k _ (deep _ C) (or_introl eq_refl)). intros v G.
  refine (spec_bind d n k _ _ _ _ (gives_variable d (Ph PhSimpleVariable ks)) _ _ _).
  - destruct doc as [p|]; [|apply spec_ret; exact G].
    next (sp_merge_tags d n k (a_types v) _ (findTags_ok d p (B "@var") (proj1 (D p eq_refl)))). intros types _. apply spec_ret.
    destruct G as (_ & Rg & Nm & _). repeat split; auto.
  - clear v G. intros v G. next (sp_emit_variable k _ v (proj1 C) G). intros _ _. next (sp_rhs k l4 U4). intros x _.
    unfold pushVariable. next (spec_var_do d n k (RecordVar (MkVar (ts_original (a_name v)) (a_range v)) (r_end (NodeRange d n)) true)). intros _ _.
    destruct x as [x|]; [apply sp_ret|]. pose proof (sp_scan_opt k l4 U4) as X. destruct l4 as [|[ty' ks'|t|u] l4]; cbn [nth_error] in *; try exact X.
    destruct (is_expr_type ty'); [apply sp_ret|exact X].
Qed.
Lemma sp_processPropertyAccessAssignment : forall k kids, inner kids -> spec n k (processPropertyAccessAssignment scan expr kids) any.
Proof.
  intros k kids U. unfold processPropertyAccessAssignment. first_any d n k; [exact (sp_receiver k kids U)|]. intros _ _. cbv zeta.
  set (rest := SkipToken _ _). assert (Ur : inner rest) by (subst rest; apply inner_SkipToken, inner_SkipToken, inner_SkipToken, inner_skipn, U).
  clearbody rest. next (sp_rhs k rest Ur). intros [x|] _; [apply sp_ret|exact (sp_scan_opt k rest Ur)].
Qed.
Lemma sp_newAssignment : forall k ty kids, inner kids -> spec n k (newAssignment d scan expr n ty kids) makes.
Proof.
  intros k ty kids U. unfold newAssignment. next (spec_get d n k _ st_block). intros b _. cbv zeta.
  first_any d n k; [|intros _ _; apply sp_made_no]. destruct kids as [|c kids]; [apply sp_ret|].
  pose proof (inner_head _ _ U) as C. pose proof (inner_tail _ _ U) as Ut.
  assert (X : spec n k (forM kids scan) any) by exact (sp_scanForChildren k kids Ut).
  assert (Y : spec n k (scan c ;;; forM kids scan) any) by (next (sp_scan k c C); intros _ _; exact X).
  destruct c as [cty ks|t|u]; [|exact X|exact X]. destruct cty; try exact Y.
  - exact (sp_analyseVariableAssignment k ty ks kids C Ut).
  - destruct (match b with Some m => _ | None => _ end); [exact (sp_processPropertyAccessAssignment k _ U)|exact Y].
Qed.
Lemma sp_newInstanceOfTypeDesignator : forall k kids, inner kids -> spec n k (newInstanceOfTypeDesignator d expr kids) makes.
Proof.
  intros k kids. induction kids as [|c kids IH]; intros U; cbn [newInstanceOfTypeDesignator]; [apply sp_made_no|].
  pose proof (inner_head _ _ U) as C. apply inner_tail in U. destruct c as [ty ks|t|u]; try exact (IH U). destruct ty; try exact (IH U).
  all: next (sp_newClassAccess k _ ks C); intros a G; exact (sp_made k _ a (proj1 C) G).
Qed.
Lemma sp_processInstanceOfExpression : forall k kids, inner kids -> spec n k (processInstanceOfExpression expr kids) makes.
Proof.
  intros k kids U. unfold processInstanceOfExpression. cbv zeta. first_any d n k; [|intros _ _; apply sp_made_no].
  set (rest := SkipToken _ _). assert (Ur : inner rest) by (subst rest; apply inner_SkipToken, inner_SkipToken, inner_SkipToken, inner_skipn, U). clearbody rest.
  destruct kids as [|[ty ks|t|u] kids]; try apply sp_ret. destruct rest as [|[ty' ks'|t'|u'] rest]; try apply sp_ret.
  next (sp_expr k _ (inner_head _ _ U)). intros x _. exact (sp_expr_unit k _ (inner_head _ _ Ur)).
Qed.
Lemma sp_derived_loop : forall k kids acc, inner kids -> inner acc -> spec n k (derived_loop expr kids acc) inner.
Proof.
  intros k kids. induction kids as [|c kids IH]; intros acc U A; cbn [derived_loop]; [apply spec_ret; exact A|].
  pose proof (inner_head _ _ U) as C. apply inner_tail in U.
  assert (A' : inner (acc ++ [c])). { intros x X. apply in_app_or in X. destruct X as [X|[<-|[]]]; [exact (A x X)|exact C]. }
  destruct c as [ty ks|t|u]; try exact (IH _ U A'). cbv zeta. next (sp_expr k _ C). intros x _.
  assert (A'' : inner (if is_expr_type ty then acc else acc ++ [Ph ty ks])) by (destruct (is_expr_type ty); assumption).
  destruct x as [x|]; [apply spec_ret; exact A''|exact (IH _ U A'')].
Qed.
Lemma sp_newDerivedExpression : forall k ty kids, n = Ph ty kids -> ty = PhEncapsulatedExpression \/ ty = PhCloneExpression ->
  spec n k (newDerivedExpression d scan expr n kids) makes.
Proof.
  intros k ty kids En T. pose proof (inner_own _ _ En) as U. unfold newDerivedExpression. cbv zeta.
  refine (spec_bind d n k _ _ _ _ _ _ (spec_in_block d n n k _ _ None any (below_here n) _) _).
  - next (sp_derived_loop k kids [] U (fun x (X : In x []) => match X with end)). intros l Ul. exact (sp_scanForChildren k l Ul).
  - intros b (_ & F). first_any d n k; [|intros _ _; apply sp_made_no]. apply (sp_emit d n k n _ (snd b) (below_here n)); [|discriminate|exact F].
    split; [|reflexivity]. rewrite En. destruct T as [-> | ->]; auto.
Qed.

(** ** Nodes *)
Lemma sp_construct : forall k ty kids, n = Ph ty kids -> spec n k (construct d scan expr n ty kids) makes.
Proof.
  intros k ty kids En. pose proof (inner_own _ _ En) as U. destruct ty; unfold construct; try apply sp_made_no.
  all: try (apply (sp_newScopedAccess k _ _ kids En); tauto).
  all: try (apply sp_newAssignment; exact U).
  all: try (apply (sp_newDerivedExpression k _ kids En); tauto).
  - exact (sp_newFunctionCall k kids En).
  - assert (X : spec n k (newConstantAccess d n) (gives d n)) by (rewrite En; apply sp_newConstantAccess; rewrite <- En; exact R).
    next X. intros a G. exact (sp_made k n a (below_here n) G).
  - exact (sp_newScopedMethodAccess k kids En).
  - exact (sp_newClassTypeDesignator k kids En).
  - next (sp_newVariable d n k n false R ltac:(left; rewrite En; reflexivity)). intros v (G & _). exact (sp_made k n v (below_here n) G).
  - exact (sp_newPropertyAccess k kids En).
  - exact (sp_newMethodAccess k kids En).
  - exact (sp_analyseForeachStatement k kids U).
  - exact (sp_processInstanceOfExpression k kids U).
  - exact (sp_newInstanceOfTypeDesignator k kids U).
Qed.
Lemma sp_expr_body : forall k, spec n k (expr_body d scan expr n) any.
Proof.
  intros k. unfold expr_body. destruct n as [ty kids|t|u] eqn:En; try apply sp_ret. rewrite <- En in *.
  next (sp_construct k ty kids En). intros (x, b) Mk. destruct x as [a|]; [|apply sp_ret]. destruct b; [|apply sp_ret].
  destruct (Mk a eq_refl eq_refl) as (m & Bl & S & D). next (sp_emit1 d n k m a Bl S D). intros _ _. apply sp_ret.
Qed.
Lemma sp_symbol_of : forall k ty kids, n = Ph ty kids -> spec n k (symbol_of d scan expr n ty kids) any.
Proof.
  intros k ty kids En. pose proof (inner_own _ _ En) as U. destruct ty; unfold symbol_of; try apply sp_ret.
  - exact (sp_newInterface k kids En).
  - exact (sp_newClass k kids En).
  - exact (sp_newClassConstDeclaration k kids En).
  - exact (sp_newPropertyDeclaration k kids En).
  - exact (sp_newMethod k kids En).
  - exact (sp_processTraitUseClause k kids U).
  - exact (sp_newFunction k kids En).
  - exact (sp_newConstDeclaration k kids U).
  - exact (sp_newConst d n k R kids En).
  - assert (X : spec n k (newArgumentList d scan n kids) any).
    { rewrite En at 2. refine (spec_any d n k _ _ _ (sp_newArgumentList k kids _ U)). rewrite <- En. apply below_here. }
    next X. intros l _. apply sp_ret.
  - exact (sp_newTrait k kids En).
  - exact (sp_tryToNewDefine k kids En).
  - exact (sp_newGlobalDeclaration d n k R kids (inner_under _ U)).
  - exact (sp_processNamespaceUseDeclaration d n k R kids (inner_under _ U)).
  - exact (sp_newAnonymousFunction k kids En).
  - exact (sp_newAnonymousClass k kids En).
  - apply (sp_newPhpDocFromNode d TOK n k R n kids (inner_under _ U)). exists n. split; [exact R|split; [rewrite En; reflexivity|reflexivity]].
  - exact (sp_processCatchNameList k kids U).
Qed.
Lemma sp_node_body : forall k, spec n k (node_body d scan expr n) any.
Proof.
  intros k. unfold node_body. destruct n as [ty kids|t|u] eqn:En; [| |apply sp_ret].
  - rewrite <- En in *. pose proof (inner_own _ _ En) as U.
    assert (X : spec n k (def <- isDefine d n ;; (if def then ret tt else e <- expr_body d scan expr n ;; ret tt) ;;;
      if typesToScanForChildren ty then scanForChildren scan kids else symbol_of d scan expr n ty kids) any).
    { next (sp_isDefine_node k). intros df _. first_any d n k.
      - destruct df; [apply sp_ret|]. next (sp_expr_body k). intros e _. apply sp_ret.
      - intros _ _. destruct (typesToScanForChildren ty); [exact (sp_scanForChildren k kids U)|exact (sp_symbol_of k ty kids En)]. }
    destruct ty; try exact X. exact (sp_newNamespace k kids En).
  - destruct (t_type t) eqn:T; try apply sp_ret. next (sp_newDirectoryConstantAccess d (Tk t) k t R T). intros a (S & D).
    exact (sp_emit1 d (Tk t) k (Tk t) a (below_here _) S D).
Qed.
End Open.

(** ** The whole run *)
Section Whole.
Context {TX : Text} {TR : TrimSpace} (d : document).
Hypothesis TOK : trim_ok TR.
Lemma sp_scanNode : forall fuel n, below n (d_root d) -> height n <= fuel ->
  (forall k, spec d n k (scanNode d fuel n) any) /\ (forall k, spec d n k (scanForExpression d fuel n) any).
Proof.
  induction fuel as [|fuel IH]; intros n R H; [pose proof (height_pos n); lia|].
  assert (R1 : forall c, inside_of c n -> forall k, spec d c k (scanNode d fuel c) any).
  { intros c (Bl & L). exact (proj1 (IH c (below_trans _ _ _ Bl R) ltac:(lia))). }
  assert (R2 : forall c, inside_of c n -> forall k, spec d c k (scanForExpression d fuel c) any).
  { intros c (Bl & L). exact (proj2 (IH c (below_trans _ _ _ Bl R) ltac:(lia))). }
  split; intros k; cbn [scanNode scanForExpression].
  - exact (sp_node_body d TOK _ _ n R R1 R2 k).
  - exact (sp_expr_body d _ _ n R R1 R2 k).
Qed.
Lemma Inv_initial : Inv d initial.
Proof. intros p E. discriminate E. Qed.
Lemma sp_analyse : forall fuel, height (d_root d) <= fuel -> match Load d fuel with
  | Done _ s => Post d (d_root d) 0 initial s
  | Panic => ~ safe d
  | OutOfFuel => False
  end.
Proof.
  intros fuel H. unfold Load. set (m := (match d_root d with Ph _ kids => _ | _ => _ end ;;; _)).
  assert (S : spec d (d_root d) 0 m any).
  { subst m. first_any d (d_root d) 0.
    - destruct (d_root d) as [ty kids|t|u] eqn:E; try apply sp_ret. apply spec_forM. intros c C.
      assert (X : spec d c 0 (scanNode d fuel c) any).
      { apply sp_scanNode; [rewrite E; exact (below_child ty kids c C)|]. pose proof (kid_height ty kids c C). lia. }
      exact (spec_below d c _ 0 _ _ _ (below_child ty kids c C) X).
    - intros _ _. next (spec_currImportTable d (d_root d) 0). intros i _. apply sp_ret. }
  specialize (S initial Inv_initial (le_n 0)). destruct (m initial); auto. exact (proj1 S).
Qed.
End Whole.
Print Assumptions sp_analyse.

From Verif Require Import Text.TextProofs.
(** the offsets of a loaded text have positions *)
Lemma positionAt_total : forall text d offset, d_text d = SetText text -> positionAt (d_text d) (Z.of_nat offset) = Some (pos_at d offset).
Proof.
  intros text d offset E. unfold pos_at. rewrite E, positionAt_some by lia. reflexivity.
Qed.
