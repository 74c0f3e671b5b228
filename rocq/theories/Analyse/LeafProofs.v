(** The constructors that scan no other nodes. *)
From Coq Require Import String.
From Coq Require Import List Bool ZArith Lia Sorting.Sorted.
From Coq.Strings Require Import Byte.
From Verif Require Import Base.Bytes Base.BytesProofs Base.Protocol Symbols.Symbols Symbols.KeysModel Text.TextModel Text.PositionSpec
  Types.TypesModel Types.ImportModel Ide.VariableModel Rpc.StreamModel Rpc.StreamSpec Analyse.SyntaxModel Analyse.AnalyseModel
  Analyse.AnalyseSpec Analyse.SpecProofs.
Import ListNotations.
Open Scope list_scope.
Open Scope nat_scope.

(** ** Tokens and texts *)
Lemma first_of_tokens : forall n t, FirstToken n = Some t -> exists l, tokens n = t :: l.
Proof.
  induction n as [ty kids IH|u|u] using node_ind'; intros t E; cbn in *.
  - destruct kids as [|k kids]; [discriminate|]. inversion IH as [|x l Hk Hl]; subst. destruct (Hk t E) as (l & El).
    exists (l ++ flat_map tokens kids). cbn. rewrite El. reflexivity.
  - injection E as <-. exists []. reflexivity.
  - subst u. exists []. reflexivity.
Qed.
Lemma last_of_tokens : forall n t, LastToken n = Some t -> exists l, tokens n = l ++ [t].
Proof.
  induction n as [ty kids IH|u|u] using node_ind'; intros t E; cbn [LastToken tokens] in *.
  - induction kids as [|k kids IHk]; [discriminate|]. inversion IH as [|x l Hk Hl]; subst. destruct kids as [|k2 kids].
    + destruct (Hk t E) as (l & El). exists l. cbn. rewrite El, app_nil_r. reflexivity.
    + destruct (IHk Hl E) as (l & El). exists (tokens k ++ l). change (flat_map tokens (k :: k2 :: kids)) with (tokens k ++ flat_map tokens (k2 :: kids)).
      rewrite El, app_assoc. reflexivity.
  - injection E as <-. exists []. reflexivity.
  - subst u. exists []. reflexivity.
Qed.
Lemma tokens_below : forall m n, below m n -> exists a b, tokens n = a ++ tokens m ++ b.
Proof.
  intros m n B. induction B as [n|m k n I B (a & b & IH)]; [exists [], []; rewrite app_nil_r; reflexivity|].
  destruct n as [ty kids|t|u]; cbn [node_kids] in I; try (destruct I; fail). cbn [tokens].
  destruct (in_split _ _ I) as (l1 & l2 & ->). rewrite flat_map_app. cbn [flat_map]. rewrite IH.
  exists (flat_map tokens l1 ++ a), (b ++ flat_map tokens l2). rewrite !app_assoc. reflexivity.
Qed.
Lemma sorted_ends : forall l (f t : token), StronglySorted (fun a b => t_offset a <= t_offset b) l ->
  (exists r, l = f :: r) -> (exists r, l = r ++ [t]) -> t_offset f <= t_offset t.
Proof.
  intros l f t S (r & ->) (q & E). inversion S as [|x y S' F]; subst. destruct q as [|g q].
  - injection E as <- ->. lia.
  - injection E as <- ->. rewrite Forall_forall in F. apply F. apply in_elt.
Qed.
Lemma sorted_middle : forall A (R : A -> A -> Prop) a m b, StronglySorted R (a ++ m ++ b) -> StronglySorted R m.
Proof.
  intros A R a m b. induction a as [|x a IH]; intros S.
  - clear -S. induction m as [|y m IH]; [constructor|]. cbn in S. inversion S as [|u v S' F]; subst. constructor; [exact (IH S')|].
    apply Forall_app in F. apply F.
  - inversion S; auto.
Qed.

(** *** What is a type *)
Lemma not_type : forall fuel ro l, length ro <= fuel -> strip_arrays ro l = None -> exists q, ro = q ++ [x5d].
Proof.
  induction fuel as [|fuel IH]; intros ro l L E.
  - destruct ro; [discriminate E|cbn in L; lia].
  - destruct ro as [|c r]; [discriminate|]. cbn [strip_arrays] in E. destruct (byte_eqb c x5d) eqn:C; cbn [negb] in E; [|discriminate].
    destruct r as [|e r']; [exists []; apply byte_eqb_eq in C; subst; reflexivity|]. destruct (byte_eqb e x5b) eqn:D; cbn [negb] in E; [|discriminate].
    cbn in L. destruct (IH r' (l + 1)%Z ltac:(lia) E) as (q & ->). exists (c :: e :: q). reflexivity.
Qed.
Lemma type_text_head : forall s, (forall c r, s = c :: r -> c <> x5d) -> is_type_text s.
Proof.
  intros s H E. unfold NewTypeString, resolveRawWithArrayLevel in E. cbn [ts_original ts_array] in E.
  destruct (strip_arrays (rev s) 0) as [(o, l)|] eqn:X; [discriminate|]. destruct (not_type _ _ _ (le_n _) X) as (q & Q).
  apply (f_equal (@rev byte)) in Q. rewrite rev_involutive, rev_app_distr in Q. exact (H x5d (rev q) Q eq_refl).
Qed.

(** *** Types joined by bars *)
Lemma split_app_bar : forall a b c, split_byte (a ++ c :: b) c = split_byte a c ++ split_byte b c.
Proof.
  intros a b c. induction a as [|x a IH]; cbn [app split_byte].
  - rewrite (proj2 (byte_eqb_eq c c) eq_refl). reflexivity.
  - destruct (byte_eqb x c); [rewrite IH; reflexivity|]. rewrite IH. destruct (split_byte a c) as [|p ps] eqn:E; [|reflexivity].
    destruct (split_byte_not_nil a c E).
Qed.

Lemma original_SetFQN : forall t f, ts_original (SetFQN t f) = ts_original t.
Proof. reflexivity. Qed.
Lemma original_SetNamespace : forall t ns, ts_original (SetNamespace t ns) = ts_original t.
Proof. intros t ns. unfold SetNamespace. repeat match goal with |- context [match ?e with _ => _ end] => destruct e end; reflexivity. Qed.
Lemma use_const_namespace : forall t x, GetNamespace (useConstOrClass t x) = GetNamespace t.
Proof. intros t x. unfold useConstOrClass. destruct (GetFirstAndRestParts x) as (f, [|p ps]); reflexivity. Qed.
Lemma use_function_namespace : forall t x, GetNamespace (useFunctionOrClass t x) = GetNamespace t.
Proof. intros t x. unfold useFunctionOrClass. destruct (GetFirstAndRestParts x) as (f, [|p ps]); reflexivity. Qed.

Section Leaf.
Context {TX : Text} {TR : TrimSpace} (d : document).
Hypothesis TOK : trim_ok TR.
Notation root := (d_root d).
Notation spec := (spec d).

Lemma text_some : forall n, below n root -> safe d -> GetNodeText d n <> None.
Proof.
  intros n B (S & F & _). destruct (tokens_below n root B) as (a & b & E). rewrite E in S, F. apply sorted_middle in S.
  apply Forall_app in F. destruct F as (_ & F). apply Forall_app in F. destruct F as (F & _). rewrite Forall_forall in F.
  assert (T : forall f l, In l (tokens n) -> t_offset f <= t_offset l -> text_slice d (t_offset f) (t_end l) <> None).
  { intros f l Il L. unfold text_slice. specialize (F l Il). unfold text_of in F.
    rewrite (proj2 (Nat.leb_le _ _)) by (unfold t_end in *; lia). rewrite (proj2 (Nat.leb_le _ _) F). discriminate. }
  destruct n as [ty kids|t|u]; cbn [GetNodeText]; [|apply T; [left; reflexivity|lia]|discriminate].
  unfold getPhraseText. destruct (FirstToken (Ph ty kids)) as [f|] eqn:Ef; [|discriminate]. destruct (LastToken (Ph ty kids)) as [l|] eqn:El; [|discriminate].
  pose proof (first_of_tokens _ _ Ef) as H1. pose proof (last_of_tokens _ _ El) as H2. apply T.
  - destruct H2 as (r & ->). apply in_elt.
  - exact (sorted_ends _ f l S H1 H2).
Qed.
Lemma text_named : forall n s, below n root -> named d n s -> safe d -> is_type_text s /\ types_ok s.
Proof. intros n s B N (_ & _ & H). exact (proj1 (H n B) s N). Qed.

Lemma sp_nodeText : forall n k m, below m root -> spec n k (nodeText d m) (named d m).
Proof. intros n k m B. exact (spec_lift d n k _ _ (text_some m B)). Qed.
Lemma sp_tokenText : forall n k t, below (Tk t) root -> spec n k (tokenText d t) (named d (Tk t)).
Proof. intros n k t B. exact (spec_lift d n k _ _ (text_some (Tk t) B)). Qed.
Lemma sp_phraseText : forall n k ty ks, below (Ph ty ks) root -> spec n k (phraseText d (Ph ty ks)) (named d (Ph ty ks)).
Proof. intros n k ty ks B. exact (spec_lift d n k _ _ (text_some (Ph ty ks) B)). Qed.
Lemma sp_newTypeString : forall n k s, (safe d -> is_type_text s) -> spec n k (newTypeString s) (fun t => NewTypeString s = Some t).
Proof. intros n k s H. exact (spec_lift d n k _ _ H). Qed.
Lemma sp_typeOf : forall n k m s, below m root -> named d m s -> spec n k (newTypeString s) (fun t => NewTypeString s = Some t).
Proof. intros n k m s B N. apply sp_newTypeString. intros S. exact (proj1 (text_named m s B N S)). Qed.

(** rules for the goal at hand *)
Ltac next R := refine (spec_bind _ _ _ _ _ _ _ _ _ R _).
Ltac nextany R := refine (spec_bind _ _ _ _ _ _ _ any _ R _).
Lemma triv : forall A (a : A), any a.
Proof. exact (fun _ _ => I). Qed.
Lemma sp_ret : forall n k A (a : A), spec n k (ret a) any.
Proof. intros. exact (spec_ret d n k A a any I). Qed.

Lemma sp_transformQualifiedName : forall n k m, below m root ->
  spec n k (transformQualifiedName d m) (fun t => exists s, named d m s /\ NewTypeString s = Some t).
Proof.
  intros n k m B. unfold transformQualifiedName. next (sp_nodeText n k m B). intros s N.
  refine (spec_weaken d n k _ _ _ _ (sp_typeOf n k m s B N) _). intros t E. exists s. auto.
Qed.
Lemma sp_classReference : forall n k m, below m root -> spec n k (classReference d m) any.
Proof.
  intros n k m B. unfold classReference. next (sp_transformQualifiedName n k m B). intros t _. exact (spec_any d n k _ _ _ (spec_resolveClass d n k t)).
Qed.
(** the comment that is valid at a range *)
Definition doc_for (r : range) (doc : option php_doc) : Prop :=
  forall p, doc = Some p -> doc_ok d p /\ (p_line (r_start r) = p_line (r_end (pd_range p)) + 1)%Z.
Lemma sp_getValidPhpDoc : forall n k r, spec n k (getValidPhpDoc r) (doc_for r).
Proof.
  intros n k r s I L. cbn. split; [exact (Post_refl d n k s I)|]. intros p E. destruct (st_doc s) as [q|] eqn:D; [|discriminate].
  destruct (_ <? _)%Z; [|discriminate]. destruct (_ =? _)%Z eqn:X; [|discriminate]. cbn in E. injection E as <-.
  apply Z.eqb_eq in X. split; [exact (I q D)|lia].
Qed.
Lemma sp_typesFromPhpDoc : forall n k text, (safe d -> types_ok text) -> spec n k (typesFromPhpDoc d text) any.
Proof.
  intros n k text H. unfold typesFromPhpDoc. apply spec_foldM; [exact I|]. intros types part Ip _. cbv zeta.
  destruct (str_eqb (trim_space part) []); [apply sp_ret|]. destruct (str_eqb (trim_space part) (B "self")).
  - next (spec_get d n k _ (fun st => nth_error (st_classes st) (length (st_classes st) - 1))). intros c _. apply sp_ret.
  - assert (S : safe d -> is_type_text (trim_space part)).
    { intros S. specialize (H S). unfold types_ok in H. rewrite Forall_forall in H. exact (H part Ip). }
    next (sp_newTypeString n k (trim_space part) S). intros t _. next (spec_resolveClass d n k t). intros r _. apply sp_ret.
Qed.
Lemma sp_merge_tags : forall n k types tags, (safe d -> Forall tag_ok tags) -> spec n k (merge_tags d types tags) any.
Proof.
  intros n k types tags H. unfold merge_tags. apply spec_foldM; [exact I|]. intros ts t It _.
  assert (S : safe d -> types_ok (tg_types t)). { intros S. specialize (H S). rewrite Forall_forall in H. exact (proj1 (H t It)). }
  next (sp_typesFromPhpDoc n k _ S). intros r _. apply sp_ret.
Qed.
Lemma findTags_ok : forall p name, doc_ok d p -> safe d -> Forall tag_ok (findTags p name).
Proof.
  intros p name (_ & H) S. specialize (H S). rewrite Forall_forall in *. intros t T. apply filter_In in T. exact (H t (proj1 T)).
Qed.

(** ** References *)
Lemma sp_emit : forall n k m a kids, below m n -> says d a m -> (forall r, a_doc a = Some r -> directly_above d r a) ->
  Forall (comes_from d m) kids -> spec n k (emit (ASym a kids)) any.
Proof. intros n k m a kids B S D F. apply spec_emit. exact (comes_from_node d n m a kids B S D F). Qed.
Lemma sp_emit1 : forall n k m a, below m n -> says d a m -> a_doc a = None -> spec n k (emit1 a) any.
Proof. intros n k m a B S D. unfold emit1. apply (sp_emit n k m); auto. intros r E. congruence. Qed.
Lemma doc_above : forall a doc, doc_for (a_range a) doc -> forall r, doc_range doc = Some r -> directly_above d r a.
Proof.
  intros a doc H r E. destruct doc as [p|]; [|discriminate]. injection E as <-. destruct (H p eq_refl) as ((C & _) & L). split; [exact C|exact L].
Qed.

(** what a constructor of a reference returns *)
Definition gives (m : node) (a : adata) : Prop := says d a m /\ a_doc a = None.
Lemma sp_newTypeDeclaration : forall n k ks, below (Ph PhTypeDeclaration ks) root ->
  spec n k (newTypeDeclaration d (Ph PhTypeDeclaration ks)) (gives (Ph PhTypeDeclaration ks)).
Proof.
  intros n k ks B. unfold newTypeDeclaration. next (sp_transformQualifiedName n k _ B). intros t (s & N & E).
  next (spec_resolveClass d n k t). intros r _. apply spec_ret. split; [|reflexivity].
  split; [reflexivity|split; [reflexivity|]]. exists s, t. auto.
Qed.
Lemma sp_newDirectoryConstantAccess : forall n k t, below (Tk t) root -> t_type t = TkDirectoryConstant ->
  spec n k (newDirectoryConstantAccess d t) (gives (Tk t)).
Proof.
  intros n k t B T. unfold newDirectoryConstantAccess. next (sp_tokenText n k t B). intros s N. apply spec_ret. split; [|reflexivity].
  split; [right; exists t; auto|split; [reflexivity|exact N]].
Qed.
Lemma sp_newConstantAccess : forall n k ks, below (Ph PhConstantAccessExpression ks) root ->
  spec n k (newConstantAccess d (Ph PhConstantAccessExpression ks)) (gives (Ph PhConstantAccessExpression ks)).
Proof.
  intros n k ks B. unfold newConstantAccess. next (sp_nodeText n k _ B). intros s N. next (spec_currImportTable d n k). intros i _.
  next (sp_typeOf n k _ s B N). intros t _. next (spec_change_table d n k i _ (fun _ t' => use_const_namespace t' t)). intros _ _.
  apply spec_ret. split; [|reflexivity]. split; [left; reflexivity|split; [reflexivity|exact N]].
Qed.
Lemma sp_relativeTypes : forall n k, spec n k relativeTypes any.
Proof.
  intros n k. unfold relativeTypes, getLastClass. next (spec_get d n k _ (fun st => nth_error (st_classes st) (length (st_classes st) - 1))).
  intros c _. apply sp_ret.
Qed.
Lemma sp_parentTypes : forall n k, spec n k parentTypes any.
Proof.
  intros n k. unfold parentTypes, getLastClass. next (spec_get d n k _ (fun st => nth_error (st_classes st) (length (st_classes st) - 1))).
  intros c _. apply sp_ret.
Qed.
Definition is_variable (m : node) : Prop := node_type m = Some PhSimpleVariable \/ node_type m = Some PhAnonymousFunctionUseVariable.
Definition gives_variable (m : node) (a : adata) : Prop :=
  gives m a /\ a_range a = NodeRange d m /\ named d m (ts_original (a_name a)) /\ a_kind a = AVariable.
Lemma sp_newVariableWithoutPushing : forall n k m, below m root -> is_variable m ->
  spec n k (newVariableWithoutPushing d m) (gives_variable m).
Proof.
  intros n k m Bl V. unfold newVariableWithoutPushing. next (sp_nodeText n k m Bl). intros s N. cbv zeta.
  next (sp_getValidPhpDoc n k (NodeRange d m)). intros doc D.
  assert (X : spec n k (match doc with Some p => merge_tags d [] (findTags p (B "@var")) | None => ret [] end) any).
  { destruct doc as [p|]; [|apply sp_ret]. apply sp_merge_tags. exact (findTags_ok p _ (proj1 (D p eq_refl))). }
  next X. intros types _. apply spec_ret. repeat split; auto.
Qed.
Lemma sp_newVariable : forall n k m b, below m root -> is_variable m -> spec n k (newVariable d m b) (gives_variable m).
Proof.
  intros n k m b B V. unfold newVariable. next (sp_newVariableWithoutPushing n k m B V). intros v G.
  unfold pushVariable. next (spec_var_do d n k (RecordVar (MkVar (ts_original (a_name v)) (a_range v)) (r_end (a_range v)) b)).
  intros _ _. apply spec_ret. exact G.
Qed.
Definition is_name_phrase (ty : phrase_type) : Prop := ty = PhQualifiedName \/ ty = PhFullyQualifiedName.
Lemma sp_newNameAccess : forall n k a ty ks, below (Ph ty ks) root -> is_name_phrase ty -> a = AInterfaceAccess \/ a = ATraitAccess ->
  spec n k (newNameAccess d a (Ph ty ks)) (gives (Ph ty ks)).
Proof.
  intros n k a ty ks B T A. unfold newNameAccess. next (sp_phraseText n k ty ks B). intros s N.
  next (sp_classReference n k (Ph ty ks) B). intros t _. apply spec_ret. split; [|reflexivity].
  assert (X : node_type (Ph ty ks) = Some PhQualifiedName \/ node_type (Ph ty ks) = Some PhFullyQualifiedName) by (destruct T as [-> | ->]; auto).
  destruct A as [-> | ->]; exact (conj X (conj eq_refl N)).
Qed.

(** ** Parameters *)
Definition under (kids : list node) (n : node) : Prop := forall c, In c kids -> below c n.
Lemma under_kids : forall ty kids, under kids (Ph ty kids).
Proof. intros ty kids c I. exact (below_child ty kids c I). Qed.
Lemma under_deeper : forall kids n ty ks, under kids n -> In (Ph ty ks) kids -> under ks n.
Proof. intros kids n ty ks U I c C. exact (below_trans _ _ _ (below_child ty ks c C) (U _ I)). Qed.
Lemma under_tail : forall c kids n, under (c :: kids) n -> under kids n.
Proof. intros c kids n U x X. exact (U x (or_intror X)). Qed.
Lemma under_head : forall c kids n, under (c :: kids) n -> below c n.
Proof. intros c kids n U. exact (U c (or_introl eq_refl)). Qed.

Lemma sp_parameter_loop : forall n k, below n root -> forall kids p e skip, under kids n -> spec n k (parameter_loop d kids p e skip) any.
Proof.
  intros n k R. assert (down : forall c, below c n -> below c root) by (intros c B; exact (below_trans _ _ _ B R)).
  induction kids as [|c kids IH]; intros p e skip U; cbn [parameter_loop]; [apply sp_ret|].
  pose proof (under_head _ _ _ U) as B. apply under_tail in U.
  destruct c as [ty ks|t|u].
  - assert (X : spec n k (if e then v <- phraseText d (Ph ty ks) ;; parameter_loop d kids (add_value p v) e false else parameter_loop d kids p e false) any).
    { destruct e; [|exact (IH _ _ _ U)]. next (sp_phraseText n k ty ks (down _ B)). intros v _. exact (IH _ _ _ U). }
    destruct ty; try exact X.
    + next (sp_newConstantAccess n k ks (down _ B)). intros a (S & D). next (sp_emit1 n k _ a B S D). intros _ _. exact X.
    + next (sp_newTypeDeclaration n k ks (down _ B)). intros a (S & D). next (sp_emit1 n k _ a B S D). intros _ _. exact (IH _ _ _ U).
  - assert (X : spec n k (if skip && is_whitespace (t_type t) then parameter_loop d kids p e true
                          else if e then v <- tokenText d t ;; parameter_loop d kids (add_value p v) e false else parameter_loop d kids p e false) any).
    { destruct (skip && is_whitespace (t_type t)); [exact (IH _ _ _ U)|]. destruct e; [|exact (IH _ _ _ U)].
      next (sp_tokenText n k t (down _ B)). intros v _. exact (IH _ _ _ U). }
    revert X. destruct (t_type t) eqn:T; intros X; try exact X.
    + next (sp_tokenText n k t (down _ B)). intros v _. exact (IH _ _ _ U).
    + exact (IH _ _ _ U).
  - exact (IH _ _ _ U).
Qed.
Lemma sp_newParameter : forall n k m, below n root -> below m n -> spec n k (newParameter d m) any.
Proof.
  intros n k m R B. unfold newParameter. destruct m as [ty ks|t|u]; try apply sp_ret.
  apply (sp_parameter_loop n k R). intros c C. exact (below_trans _ _ _ (below_child ty ks c C) B).
Qed.
Lemma sp_analyseParameterDeclarationList : forall n k kids, below n root -> under kids n -> spec n k (analyseParameterDeclarationList d kids) any.
Proof.
  intros n k kids R U. unfold analyseParameterDeclarationList. apply spec_foldM; [exact I|]. intros ps c C _.
  destruct c as [ty ks|t|u]; try apply sp_ret. destruct ty; try apply sp_ret.
  next (sp_newParameter n k _ R (U _ C)). intros p _. apply sp_ret.
Qed.
Lemma sp_declare_params : forall n k h ps, (safe d -> LastToken h <> None) -> spec n k (declare_params d h ps) any.
Proof.
  intros n k h ps H. unfold declare_params. apply spec_forM. intros p _. destruct (LastToken h) as [t|] eqn:E.
  - apply spec_var_do.
  - apply spec_panic. intros S. exact (H S eq_refl).
Qed.
Lemma sp_apply_function_doc : forall n k doc ps, (forall p, doc = Some p -> doc_ok d p) -> spec n k (apply_function_doc d doc ps) any.
Proof.
  intros n k doc ps H. unfold apply_function_doc. destruct doc as [p|]; [|apply sp_ret]. specialize (H p eq_refl).
  next (sp_merge_tags n k [] _ (findTags_ok p (B "@return") H)). intros types _.
  assert (X : spec n k (forM ps (fun q => match findParamTag p (pm_name q) with Some t => ts <- typesFromPhpDoc d (tg_types t) ;; ret tt | None => ret tt end)) any).
  { apply spec_forM. intros q _. destruct (findParamTag p (pm_name q)) as [t|] eqn:E; [|apply sp_ret].
    assert (S : safe d -> types_ok (tg_types t)).
    { intros S. pose proof (proj2 H S) as F. rewrite Forall_forall in F. apply find_some in E. exact (proj1 (F t (proj1 E))). }
    next (sp_typesFromPhpDoc n k _ S). intros ts _. apply sp_ret. }
  next X. intros _ _. apply sp_ret.
Qed.

(** ** Comments *)
Lemma types_ok_nil : types_ok [].
Proof. constructor; [|constructor]. rewrite (TOK []) by constructor. apply type_text_head. discriminate. Qed.
Lemma types_ok_void : types_ok (B "void").
Proof.
  constructor; [|constructor]. rewrite (TOK _) by (repeat constructor). apply type_text_head. intros c r E. injection E as <- _. discriminate.
Qed.
Lemma types_ok_join : forall ts, Forall types_ok ts -> types_ok (join ts (B "|")).
Proof.
  intros ts F. induction F as [|t ts H F IH]; [exact types_ok_nil|]. destruct ts as [|u ts]; [exact H|].
  change (join (t :: u :: ts) (B "|")) with (t ++ x7c :: join (u :: ts) (B "|")). unfold types_ok in *. rewrite split_app_bar.
  apply Forall_app. auto.
Qed.
Definition all_ok (ts : list gostr) : Prop := safe d -> Forall types_ok ts.
Lemma all_ok_app : forall a b, all_ok a -> all_ok b -> all_ok (a ++ b).
Proof. intros a b A Bb S. apply Forall_app. auto. Qed.
Lemma all_ok_one : forall t, (safe d -> types_ok t) -> all_ok [t].
Proof. intros t H S. auto. Qed.

Section Comment.
Variables (n : node) (k : nat).
Hypothesis R : below n root.
Lemma down : forall c, below c n -> below c root.
Proof. intros c X. exact (below_trans _ _ _ X R). Qed.

Lemma sp_processTypeNode : forall ks, below (Ph PhTypeDeclaration ks) n ->
  spec n k (processTypeNode d (Ph PhTypeDeclaration ks)) (fun t => safe d -> types_ok t).
Proof.
  intros ks Bl. unfold processTypeNode. next (sp_nodeText n k _ (down _ Bl)). intros s N.
  assert (O : safe d -> types_ok s) by (intros S; exact (proj2 (text_named _ s (down _ Bl) N S))).
  assert (X : spec n k (t <- newTypeDeclaration d (Ph PhTypeDeclaration ks) ;; emit1 t ;;; ret s) (fun t => safe d -> types_ok t)).
  { next (sp_newTypeDeclaration n k ks (down _ Bl)). intros a (S & D). next (sp_emit1 n k _ a Bl S D). intros _ _. apply spec_ret. exact O. }
  assert (Y : spec n k (ret s) (fun t => safe d -> types_ok t)) by (apply spec_ret; exact O).
  destruct (str_eqb s []); [exact Y|]. destruct ks as [|[ty qs|t|u] ks]; try exact Y. destruct ty; try exact Y; exact X.
Qed.
Lemma sp_processTypeUnionNode : forall kids, under kids n -> spec n k (processTypeUnionNode d kids) all_ok.
Proof.
  intros kids U. unfold processTypeUnionNode. apply spec_foldM; [intros _; constructor|]. intros ts c C A.
  destruct c as [ty ks|t|u]; try (apply spec_ret; exact A). destruct ty; try (apply spec_ret; exact A).
  next (sp_processTypeNode ks (U _ C)). intros t T. apply spec_ret. exact (all_ok_app _ _ A (all_ok_one t T)).
Qed.
Lemma sp_tag_type : forall ts c, below c n -> all_ok ts -> spec n k (tag_type d ts c) all_ok.
Proof.
  intros ts c C A. unfold tag_type. destruct c as [ty ks|t|u]; try (apply spec_ret; exact A). destruct ty; try (apply spec_ret; exact A).
  - next (sp_processTypeNode ks C). intros t T. apply spec_ret. destruct (str_eqb t []); [exact A|exact (all_ok_app _ _ A (all_ok_one t T))].
  - assert (U : under ks n) by (intros x X; exact (below_trans _ _ _ (below_child _ ks x X) C)).
    next (sp_processTypeUnionNode ks U). intros us O. apply spec_ret. exact (all_ok_app _ _ A O).
Qed.
Definition tag_fine (t : tag) : Prop := safe d -> tag_ok t.
Lemma sp_typeTag : forall name v kids, under kids n -> spec n k (typeTag d name v kids) tag_fine.
Proof.
  intros name v kids U. unfold typeTag.
  refine (spec_bind d n k _ _ _ _ (fun r : list gostr * gostr => all_ok (fst r)) _ _ _).
  - apply spec_foldM; [intros _; constructor|]. intros (ts, nm) c C A. cbn [fst] in A. destruct c as [ty ks|t|u].
    + next (sp_tag_type ts _ (U _ C) A). intros us O. apply spec_ret. exact O.
    + assert (Y : forall m, spec n k (ret (ts, m)) (fun r : list gostr * gostr => all_ok (fst r))) by (intros m; apply spec_ret; exact A).
      destruct (t_type t); try apply Y. destruct v; [|apply Y]. next (sp_tokenText n k t (down _ (U _ C))). intros m _. apply Y.
    + next (sp_tag_type ts _ (U _ C) A). intros us O. apply spec_ret. exact O.
  - intros (ts, nm) A. apply spec_ret. intros S. split; [exact (types_ok_join _ (A S))|constructor].
Qed.
Lemma sp_methodParam : forall kids, under kids n -> spec n k (methodParam d kids) (fun q => safe d -> types_ok (snd q)).
Proof.
  intros kids U. unfold methodParam.
  refine (spec_bind d n k _ _ _ _ (fun r : list gostr * gostr => all_ok (fst r)) _ _ _).
  - apply spec_foldM; [intros _; constructor|]. intros (ts, nm) c C A. cbn [fst] in A.
    assert (Y : forall m, spec n k (ret (ts, m)) (fun r : list gostr * gostr => all_ok (fst r))) by (intros m; apply spec_ret; exact A).
    assert (X : spec n k (ts <- tag_type d ts c ;; ret (ts, nm)) (fun r : list gostr * gostr => all_ok (fst r))).
    { next (sp_tag_type ts _ (U _ C) A). intros us O. apply spec_ret. exact O. }
    destruct c as [ty ks|t|u]; [|destruct (t_type t); try apply Y|exact X].
    + destruct ty; try exact X. next (sp_phraseText n k _ ks (down _ (U _ C))). intros m _. apply Y.
    + next (sp_tokenText n k t (down _ (U _ C))). intros m _. apply Y.
  - intros (ts, nm) A. apply spec_ret. intros S. exact (types_ok_join _ (A S)).
Qed.
Definition params_fine (l : list (gostr * gostr)) : Prop := safe d -> Forall (fun q => types_ok (snd q)) l.
Lemma params_fine_app : forall a b, params_fine a -> params_fine b -> params_fine (a ++ b).
Proof. intros a b A Bb S. apply Forall_app. auto. Qed.
Lemma sp_processParamList : forall kids, under kids n -> spec n k (processParamList d kids) params_fine.
Proof.
  intros kids U. unfold processParamList. apply spec_foldM; [intros _; constructor|]. intros ps c C A.
  destruct c as [ty ks|t|u]; try (apply spec_ret; exact A). destruct ty; try (apply spec_ret; exact A).
  next (sp_methodParam ks (under_deeper _ _ _ _ U C)). intros p P. apply spec_ret. apply params_fine_app; [exact A|]. intros S. auto.
Qed.
Lemma sp_methodTag : forall name kids, under kids n -> spec n k (methodTag d name kids) tag_fine.
Proof.
  intros name kids U. unfold methodTag.
  refine (spec_bind d n k _ _ _ _ (fun r : list gostr * gostr * bool * list (gostr * gostr) => all_ok (fst (fst (fst r))) /\ params_fine (snd r)) _ _ _).
  - apply spec_foldM; [split; intros _; constructor|]. intros (((ts, nm), st), ps) c C (A & P). cbn [fst snd] in A, P.
    assert (Y : forall m st, spec n k (ret (ts, m, st, ps)) (fun r : list gostr * gostr * bool * list (gostr * gostr) => all_ok (fst (fst (fst r))) /\ params_fine (snd r)))
      by (intros m st'; apply spec_ret; split; [exact A|exact P]).
    assert (X : spec n k (ts <- tag_type d ts c ;; ret (ts, nm, st, ps)) (fun r : list gostr * gostr * bool * list (gostr * gostr) => all_ok (fst (fst (fst r))) /\ params_fine (snd r))).
    { next (sp_tag_type ts _ (U _ C) A). intros us O. apply spec_ret. split; [exact O|exact P]. }
    destruct c as [ty ks|t|u]; [|destruct (t_type t); try apply Y|exact X].
    destruct ty; try exact X.
    + next (sp_processParamList ks (under_deeper _ _ _ _ U C)). intros l Lf. apply spec_ret. split; [exact A|exact Lf].
    + next (sp_phraseText n k _ ks (down _ (U _ C))). intros m _. apply Y.
  - intros (((ts, nm), st), ps) (A & P). apply spec_ret. intros S. split; [|exact (P S)]. cbn [tg_types].
    destruct (str_eqb (join ts (B "|")) []); [exact types_ok_void|exact (types_ok_join _ (A S))].
Qed.
Lemma sp_getTagName : forall kids, under kids n -> spec n k (getTagName d kids) any.
Proof.
  induction kids as [|c kids IH]; intros U; cbn [getTagName]; [apply sp_ret|]. pose proof (under_head _ _ _ U) as C. apply under_tail in U.
  destruct c as [ty ks|t|u]; try exact (IH U). destruct (t_type t); try exact (IH U). exact (spec_any d n k _ _ _ (sp_tokenText n k t (down _ C))).
Qed.
Lemma sp_parseTag : forall kids, under kids n -> spec n k (parseTag d kids) (fun t => forall x, t = Some x -> tag_fine x).
Proof.
  intros kids U. unfold parseTag. next (sp_getTagName kids U). intros name _.
  assert (T : forall v, spec n k (t <- typeTag d name v kids ;; ret (Some t)) (fun t => forall x, t = Some x -> tag_fine x)).
  { intros v. next (sp_typeTag name v kids U). intros t F. apply spec_ret. intros x E. injection E as <-. exact F. }
  destruct (str_eqb name (B "@param")); [apply T|]. destruct (_ || _).
  { next (sp_typeTag name true kids U). intros t F. apply spec_ret. destruct (str_eqb (tg_name t) []); [discriminate|]. intros x E. injection E as <-. exact F. }
  destruct (str_eqb name (B "@var")); [apply T|]. destruct (str_eqb name (B "@return")); [apply T|].
  destruct (str_eqb name (B "@method")).
  { next (sp_methodTag name kids U). intros t F. apply spec_ret. intros x E. injection E as <-. exact F. }
  destruct (str_eqb name (B "@global")); [apply T|]. destruct (str_eqb name (B "@deprecated")).
  - apply spec_ret. intros x E. injection E as <-. intros _. split; [exact types_ok_nil|constructor].
  - apply spec_ret. discriminate.
Qed.
Lemma sp_newPhpDocFromNode : forall m kids, under kids n -> is_comment d (NodeRange d m) -> spec n k (newPhpDocFromNode d m kids) any.
Proof.
  intros m kids U C. unfold newPhpDocFromNode.
  refine (spec_bind d n k _ _ _ _ (fun l : list tag => safe d -> Forall tag_ok l) _ _ _).
  - apply spec_foldM; [intros _; constructor|]. intros tags c Ic A. destruct c as [ty ks|t|u]; try (apply spec_ret; exact A).
    destruct ty; try (apply spec_ret; exact A). next (sp_parseTag ks (under_deeper _ _ _ _ U Ic)). intros [t|] F; apply spec_ret; [|exact A].
    intros S. apply Forall_app. split; [exact (A S)|]. constructor; [exact (F t eq_refl S)|constructor].
  - intros tags A. apply spec_set_doc. split; [exact C|exact A].
Qed.

(** ** Imports *)
Lemma sp_addUse : forall u alias name r, spec n k (addUseToImportTable d u alias name r) any.
Proof.
  intros u alias name r. unfold addUseToImportTable. next (spec_currImportTable d n k). intros i _. apply spec_change_table. intros _ t. destruct u; reflexivity.
Qed.
Lemma sp_getAliasFromNode : forall kids, under kids n -> spec n k (getAliasFromNode d kids) any.
Proof.
  induction kids as [|c kids IH]; intros U; cbn [getAliasFromNode]; [apply sp_ret|]. pose proof (under_head _ _ _ U) as C. apply under_tail in U.
  destruct c as [ty ks|t|u]; try exact (IH U). destruct (t_type t); try exact (IH U). exact (spec_any d n k _ _ _ (sp_tokenText n k t (down _ C))).
Qed.
Lemma sp_use_clause : forall kids, under kids n -> spec n k (use_clause d kids) any.
Proof.
  intros kids U. unfold use_clause. apply spec_foldM; [exact I|]. intros (name, alias) c C _. destruct c as [ty ks|t|u]; try apply sp_ret.
  destruct ty; try apply sp_ret.
  - next (sp_phraseText n k _ ks (down _ (U _ C))). intros m _. apply sp_ret.
  - next (sp_getAliasFromNode ks (under_deeper _ _ _ _ U C)). intros m _. apply sp_ret.
Qed.
Lemma sp_processNamespaceUseClauseList : forall u kids, under kids n -> spec n k (processNamespaceUseClauseList d u kids) any.
Proof.
  intros u kids U. unfold processNamespaceUseClauseList. apply spec_forM. intros c C. destruct c as [ty ks|t|e]; try apply sp_ret.
  destruct ty; try apply sp_ret. next (sp_use_clause ks (under_deeper _ _ _ _ U C)). intros r _. apply sp_addUse.
Qed.
Lemma sp_processNamespaceUseGroupClauseList : forall p u kids, under kids n -> spec n k (processNamespaceUseGroupClauseList d p u kids) any.
Proof.
  intros p u kids U. unfold processNamespaceUseGroupClauseList. apply spec_forM. intros c C. destruct c as [ty ks|t|e]; try apply sp_ret.
  destruct ty; try apply sp_ret. next (sp_use_clause ks (under_deeper _ _ _ _ U C)). intros r _.
  assert (G : safe d -> group_range d ks (Ph PhNamespaceUseGroupClause ks) <> None).
  { intros (_ & _ & W). pose proof (proj2 (W _ (down _ (U _ C)))) as L. cbn in L. unfold group_range.
    destruct (rev ks) as [|x xs]; [discriminate|]. specialize (L x eq_refl). destruct x; [discriminate| |]; destruct L. }
  next (spec_lift d n k _ _ G). intros rg _. apply sp_addUse.
Qed.
Lemma sp_processNamespaceUseDeclaration : forall kids, under kids n -> spec n k (processNamespaceUseDeclaration d kids) any.
Proof.
  intros kids U. unfold processNamespaceUseDeclaration. refine (spec_bind d n k _ _ _ _ any _ _ _); [|intros _ _; apply sp_ret].
  apply spec_foldM; [exact I|]. intros (u, prefix) c C _. destruct c as [ty ks|t|e]; [|destruct (t_type t); apply sp_ret|apply sp_ret].
  destruct ty; try apply sp_ret.
  - next (sp_phraseText n k _ ks (down _ (U _ C))). intros m _. apply sp_ret.
  - next (sp_processNamespaceUseClauseList u ks (under_deeper _ _ _ _ U C)). intros _ _. apply sp_ret.
  - next (sp_processNamespaceUseGroupClauseList prefix u ks (under_deeper _ _ _ _ U C)). intros _ _. apply sp_ret.
Qed.

(** ** Constants and global variables *)
Definition const_name (kids : list node) (name : gostr) : Prop := type_name_among d is_name_token kids name.
Lemma sp_const_loop : forall all kids name named e skip value, under all n -> (forall c, In c kids -> In c all) -> const_name all (ts_original name) ->
  spec n k (const_loop d kids name named e skip value) (fun r => const_name all (ts_original (fst (fst r)))).
Proof.
  intros all kids. induction kids as [|c kids IH]; intros name named e skip value U S N; cbn [const_loop]; [apply spec_ret; exact N|].
  assert (C : In c all) by (apply S; left; reflexivity). assert (S' : forall x, In x kids -> In x all) by (intros x X; apply S; right; exact X).
  assert (Y : forall n' v e s, spec n k (const_loop d kids name n' e s v) (fun r => const_name all (ts_original (fst (fst r)))))
    by (intros; exact (IH _ _ _ _ _ U S' N)).
  destruct c as [ty ks|t|u]; [| |apply Y].
  - destruct e; [|apply Y]. next (sp_phraseText n k ty ks (down _ (U _ C))). intros v _. apply Y.
  - assert (X : spec n k (if e then v <- tokenText d t ;; const_loop d kids name named e false (value ++ v) else const_loop d kids name named e false value)
      (fun r => const_name all (ts_original (fst (fst r))))).
    { destruct e; [|apply Y]. next (sp_tokenText n k t (down _ (U _ C))). intros v _. apply Y. }
    destruct (t_type t) eqn:T; try exact X; try apply Y.
    + next (sp_tokenText n k t (down _ (U _ C))). intros s Ns. next (sp_typeOf n k _ s (down _ (U _ C)) Ns). intros x Ex.
      refine (IH _ _ _ _ _ U S' _). right. exists (Tk t), s. repeat split; auto; [exists t; auto|exists x; auto].
    + destruct skip; [apply Y|exact X].
Qed.
Lemma sp_newConst : forall kids, n = Ph PhConstElement kids -> spec n k (newConst d n kids) any.
Proof.
  intros kids En. assert (U : under kids n) by (rewrite En; apply under_kids). unfold newConst. cbv zeta.
  next (sp_getValidPhpDoc n k (NodeRange d n)). intros doc D.
  next (sp_const_loop kids kids empty_ts false false false [] U (fun _ X => X) (or_introl eq_refl)). intros ((name, nmd), value) N. cbn [fst] in N.
  next (spec_currNamespace d n k). intros ns _. unfold emit1. apply (sp_emit n k n); [apply below_here| | |constructor].
  - split; [rewrite En; reflexivity|split; [reflexivity|]]. cbn [a_name]. rewrite original_SetNamespace. rewrite En. exact N.
  - cbn [a_doc]. intros r E. destruct nmd; [|discriminate]. exact (doc_above (AData _ _ _ _ _ _ _ _ _ _ _) doc D r E).
Qed.
Lemma sp_newGlobalVariable : forall ks, below (Ph PhSimpleVariable ks) n -> spec n k (newGlobalVariable d (Ph PhSimpleVariable ks)) any.
Proof.
  intros ks Bl. unfold newGlobalVariable. cbv zeta. next (sp_phraseText n k _ ks (down _ Bl)). intros s N.
  next (sp_getValidPhpDoc n k (NodeRange d (Ph PhSimpleVariable ks))). intros doc D.
  refine (spec_bind d n k _ _ _ _ any _ _ _).
  - destruct doc as [p|]; [|apply sp_ret]. destruct (find _ _) as [t|] eqn:F; [|apply sp_ret].
    assert (S : safe d -> types_ok (tg_types t)).
    { intros S. pose proof (findTags_ok p (B "@global") (proj1 (D p eq_refl)) S) as X. rewrite Forall_forall in X. apply find_some in F. exact (proj1 (X t (proj1 F))). }
    next (sp_typesFromPhpDoc n k _ S). intros ts _. apply sp_ret.
  - intros types _. next (spec_var_do d n k (RecordVar (MkVar s (NodeRange d (Ph PhSimpleVariable ks))) (r_end (NodeRange d (Ph PhSimpleVariable ks))) true)).
    intros _ _. apply (sp_emit1 n k _ _ Bl); [|reflexivity]. split; [reflexivity|split; [reflexivity|exact N]].
Qed.
Lemma sp_newGlobalDeclaration : forall kids, under kids n -> spec n k (newGlobalDeclaration d kids) any.
Proof.
  intros kids U. unfold newGlobalDeclaration. apply spec_forM. intros c C. destruct c as [ty ks|t|u]; try apply sp_ret.
  destruct ty; try apply sp_ret. apply spec_forM. intros v V. destruct v as [ty vs|t|u]; try apply sp_ret. destruct ty; try apply sp_ret.
  exact (sp_newGlobalVariable vs (under_deeper _ _ _ _ U C _ V)).
Qed.
Lemma sp_isDefine : forall kids, under kids n -> spec n k (isDefine_loop d kids) any.
Proof.
  induction kids as [|c kids IH]; intros U; cbn [isDefine_loop]; [apply sp_ret|]. pose proof (under_head _ _ _ U) as C. apply under_tail in U.
  destruct c as [ty ks|t|u]; try exact (IH U). destruct ty; try exact (IH U).
  all: next (sp_phraseText n k _ ks (down _ C)); intros name _; cbv zeta; destruct (_ || _); [apply sp_ret|exact (IH U)].
Qed.
End Comment.
End Leaf.
