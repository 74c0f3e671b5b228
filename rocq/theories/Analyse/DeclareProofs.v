(** Every declaration in the statements of a file is found. *)
From Coq Require Import String.
From Coq Require Import List Bool ZArith Lia Sorting.Sorted.
From Coq.Strings Require Import Byte.
From Verif Require Import Base.Bytes Base.BytesProofs Base.Protocol Symbols.Symbols Symbols.KeysModel Text.TextModel
  Types.TypesModel Types.ImportModel Ide.VariableModel Rpc.StreamModel Rpc.StreamSpec
  Analyse.SyntaxModel Analyse.AnalyseModel Analyse.AnalyseSpec Analyse.SpecProofs Analyse.LeafProofs Analyse.AnalyseProofs Analyse.DeclareSpec.
Import ListNotations.
Open Scope list_scope.
Open Scope nat_scope.

(** ** Runs that end *)
Lemma bind_done : forall A B (m : M A) (f : A -> M B) s b s'', bind m f s = Done b s'' -> exists a s', m s = Done a s' /\ f a s' = Done b s''.
Proof. intros A B m f s b s'' E. unfold bind in E. destruct (m s) as [a s'| |]; [|discriminate|discriminate]. exists a, s'. auto. Qed.
Lemma ret_done : forall A (a : A) s b s', ret a s = Done b s' -> b = a /\ s' = s.
Proof. intros A a s b s' E. injection E as <- <-. auto. Qed.
Lemma lift_done : forall A (o : option A) s b s', lift o s = Done b s' -> o = Some b /\ s' = s.
Proof. intros A [a|] s b s' E; [|discriminate E]. injection E as <- <-. auto. Qed.
Ltac step E a s F := apply bind_done in E; destruct E as (a & s & F & E).
Ltac done E := apply ret_done in E;
  let A := fresh in let C := fresh in destruct E as (A & C);
  match type of C with ?s' = ?s => first [subst s'|subst s|idtac] end;
  match type of A with ?b = ?a => first [subst b|subst a|idtac] end.

(** a run in [tri G m Q] from a state in [G] ends, if it does, in [Q] *)
Definition tri {A} (G : state -> Prop) (m : M A) (Q : A -> state -> Prop) : Prop := forall s a s', G s -> m s = Done a s' -> Q a s'.
Lemma tri_ret : forall A (a : A) (G : state -> Prop) (Q : A -> state -> Prop), (forall s, G s -> Q a s) -> tri G (ret a) Q.
Proof. intros A a G Q H s b s' g E. done E. exact (H s g). Qed.
Lemma tri_bind : forall A B (m : M A) (f : A -> M B) G Q Q', tri G m Q -> (forall a, tri (Q a) (f a) Q') -> tri G (bind m f) Q'.
Proof. intros A B m f G Q Q' H1 H2 s b s'' g E. step E a s' F. exact (H2 a s' b s'' (H1 s a s' g F) E). Qed.
Lemma tri_forM : forall A (l : list A) (f : A -> M unit) (G : list A -> state -> Prop),
  (forall pre x post, l = pre ++ x :: post -> tri (G pre) (f x) (fun _ => G (pre ++ [x]))) -> tri (G []) (forM l f) (fun _ => G l).
Proof.
  intros A l f G H. enough (X : forall post pre, l = pre ++ post -> tri (G pre) (forM post f) (fun _ => G l)) by exact (X l [] eq_refl).
  induction post as [|x post IH]; intros pre E; cbn [forM].
  - apply tri_ret. intros s g. rewrite E, app_nil_r. exact g.
  - apply (tri_bind _ _ _ _ _ _ _ (H pre x post E)). intros _. apply IH. rewrite <- app_assoc. exact E.
Qed.
Lemma tri_foldM : forall A B (l : list A) (f : B -> A -> M B) (b : B) (G : list A -> B -> state -> Prop),
  (forall pre x post b, l = pre ++ x :: post -> tri (G pre b) (f b x) (G (pre ++ [x]))) -> tri (G [] b) (foldM l f b) (G l).
Proof.
  intros A B l f b G H. enough (X : forall post pre b, l = pre ++ post -> tri (G pre b) (foldM post f b) (G l)) by exact (X l [] b eq_refl).
  induction post as [|x post IH]; intros pre b' E; cbn [foldM].
  - apply tri_ret. intros s g. rewrite E, app_nil_r. exact g.
  - apply (tri_bind _ _ _ _ _ _ _ (H pre x post b' E)). intros b''. apply IH. rewrite <- app_assoc. exact E.
Qed.
Lemma tri_any : forall A (m : M A) (J : Prop), J -> tri (fun _ => J) m (fun _ _ => J).
Proof. intros A m J j s a s' _ _. exact j. Qed.
Lemma tri_weaken : forall A (m : M A) (G G' : state -> Prop) (Q Q' : A -> state -> Prop),
  (forall s, G' s -> G s) -> (forall a s, Q a s -> Q' a s) -> tri G m Q -> tri G' m Q'.
Proof. intros A m G G' Q Q' H1 H2 T s a s' g E. exact (H2 a s' (T s a s' (H1 s g) E)). Qed.

(** ** Runs that add nothing *)
Definition quiet {A} (m : M A) : Prop := forall s a s', m s = Done a s' -> st_out s' = st_out s.
Lemma quiet_ret : forall A (a : A), quiet (ret a).
Proof. intros A a s b s' E. done E. reflexivity. Qed.
Lemma quiet_bind : forall A B (m : M A) (f : A -> M B), quiet m -> (forall a, quiet (f a)) -> quiet (bind m f).
Proof. intros A B m f H1 H2 s b s'' E. step E a s' F. rewrite (H2 a s' b s'' E). exact (H1 s a s' F). Qed.
Lemma quiet_get : forall A (f : state -> A), quiet (get f).
Proof. intros A f s a s' E. injection E as _ <-. reflexivity. Qed.
Lemma quiet_lift : forall A (o : option A), quiet (lift o).
Proof. intros A o s a s' E. apply lift_done in E. destruct E as (_ & ->). reflexivity. Qed.
Lemma quiet_forM : forall A (l : list A) f, (forall x, quiet (f x)) -> quiet (forM l f).
Proof. intros A l f H. induction l as [|x l IH]; cbn [forM]; [apply quiet_ret|]. apply quiet_bind; auto. Qed.
Lemma quiet_foldM : forall A B (l : list A) (f : B -> A -> M B) b, (forall b x, quiet (f b x)) -> quiet (foldM l f b).
Proof. intros A B l f b H. revert b. induction l as [|x l IH]; intros b; cbn [foldM]; [apply quiet_ret|]. apply quiet_bind; auto. Qed.
Lemma quiet_var_do : forall op, quiet (var_do op).
Proof. intros op s a s' E. injection E as _ <-. reflexivity. Qed.
Lemma quiet_change_class : forall i f, quiet (change_class i f).
Proof. intros i f s a s' E. injection E as _ <-. reflexivity. Qed.
Lemma quiet_set_imports : forall l, quiet (set_imports l).
Proof. intros l s a s' E. injection E as _ <-. reflexivity. Qed.
Lemma quiet_addClass : forall c, quiet (addClass c).
Proof. intros c s a s' E. injection E as _ <-. reflexivity. Qed.
Lemma quiet_set_block : forall b, quiet (set_block b).
Proof. intros b s a s' E. injection E as _ <-. reflexivity. Qed.
Lemma quiet_panic : forall A, quiet (@panic A).
Proof. intros A s a s' E. discriminate E. Qed.
Lemma quiet_in_block : forall A b (m : M A), quiet (in_block b m).
Proof. intros A b m s a s' E. unfold in_block in E. destruct (m _) as [x t| |]; try discriminate. injection E as _ <-. reflexivity. Qed.
Ltac hush := repeat match goal with
  | |- quiet (bind _ _) => apply quiet_bind; [|intros]
  | |- quiet (ret _) => apply quiet_ret
  | |- quiet (get _) => apply quiet_get
  | |- quiet (lift _) => apply quiet_lift
  | |- quiet (var_do _) => apply quiet_var_do
  | |- quiet (change_class _ _) => apply quiet_change_class
  | |- quiet (set_imports _) => apply quiet_set_imports
  | |- quiet (addClass _) => apply quiet_addClass
  | |- quiet (set_block _) => apply quiet_set_block
  | |- quiet panic => apply quiet_panic
  | |- quiet (in_block _ _) => apply quiet_in_block
  | |- quiet (forM _ _) => apply quiet_forM; intros
  | |- quiet (foldM _ _ _) => apply quiet_foldM; intros
  end.

Section Quiet.
Context {TX : Text} {TR : TrimSpace} (d : document).
Lemma quiet_currImportTable : quiet (currImportTable d).
Proof. unfold currImportTable. hush. destruct a; unfold pushImportTable; hush. Qed.
Lemma quiet_currNamespace : quiet (currNamespace d).
Proof. unfold currNamespace, get_table. hush. apply quiet_currImportTable. Qed.
Lemma quiet_change_table : forall i f, quiet (change_table i f).
Proof. intros i f. unfold change_table. hush. Qed.
Lemma quiet_resolveClass : forall t, quiet (resolveClass d t).
Proof. intros t. unfold resolveClass, get_table. hush; [apply quiet_currImportTable|]. destruct (GetClassReferenceFQN _ _). hush. apply quiet_change_table. Qed.
Lemma quiet_getValidPhpDoc : forall r, quiet (getValidPhpDoc r).
Proof. intros r. unfold getValidPhpDoc. hush. Qed.
Lemma quiet_getLastClass : quiet getLastClass.
Proof. apply quiet_get. Qed.
Lemma quiet_typesFromPhpDoc : forall s, quiet (typesFromPhpDoc d s).
Proof.
  intros s. unfold typesFromPhpDoc. hush. destruct (str_eqb _ []); [hush|]. destruct (str_eqb _ _); unfold newTypeString, getLastClass; hush.
  apply quiet_resolveClass.
Qed.
Lemma quiet_member_scope : quiet (member_scope d).
Proof. unfold member_scope. hush; [apply quiet_getLastClass|]. destruct a; hush. apply quiet_currNamespace. Qed.
Lemma quiet_class_symbol : forall i doc, quiet (class_symbol i doc).
Proof. intros i doc. unfold class_symbol. hush. destruct (nth_error _ _); hush. Qed.
Lemma pure_isDefine : forall n s b s', isDefine d n s = Done b s' -> s' = s.
Proof.
  intros n s b s' E. destruct n as [ty kids|t|u]; cbn [isDefine] in E; try (done E; reflexivity).
  revert s b s' E. induction kids as [|c kids IH]; intros s b s' E; cbn [isDefine_loop] in E; [done E; reflexivity|].
  destruct c as [ty' ks|t|u]; try exact (IH _ _ _ E). destruct ty'; try exact (IH _ _ _ E).
  all: step E x s1 F; apply lift_done in F; destruct F as (_ & ->); cbv zeta in E; destruct (_ || _); [done E; reflexivity|exact (IH _ _ _ E)].
Qed.
End Quiet.

(** ** Names *)
Lemma last_of_snoc : forall f l c, last_of f (l ++ [c]) = if f c then Some c else last_of f l.
Proof.
  intros f l c. unfold last_of. rewrite filter_app. cbn [List.filter]. destruct (f c); [rewrite rev_app_distr; reflexivity|].
  rewrite app_nil_r. reflexivity.
Qed.
Lemma last_of_app : forall f l l', (forall x, In x l' -> f x = false) -> last_of f (l ++ l') = last_of f l.
Proof.
  intros f l l' H. unfold last_of. rewrite filter_app. assert (E : List.filter f l' = []).
  { induction l' as [|x l' IH]; [reflexivity|]. cbn [List.filter]. rewrite (H x (or_introl eq_refl)). apply IH. intros y Y. exact (H y (or_intror Y)). }
  rewrite E, app_nil_r. reflexivity.
Qed.
Lemma token_is_name : forall t, t_type t = TkName -> name_token (Tk t) = true.
Proof. intros [ty o l] E. cbn in E. subst. reflexivity. Qed.
Lemma token_not_name : forall t, t_type t <> TkName -> name_token (Tk t) = false.
Proof. intros [ty o l] E. cbn in *. destruct ty; try reflexivity. congruence. Qed.
Lemma token_not_name_or : forall t, t_type t <> TkName -> name_or_identifier (Tk t) = false.
Proof. intros t E. unfold name_or_identifier. rewrite (token_not_name t E). reflexivity. Qed.
Lemma token_name_or : forall t, t_type t = TkName -> name_or_identifier (Tk t) = true.
Proof. intros t E. unfold name_or_identifier. rewrite (token_is_name t E). reflexivity. Qed.
Lemma token_variable : forall t, t_type t = TkVariableName -> variable_token (Tk t) = true.
Proof. intros [ty o l] E. cbn in E. subst. reflexivity. Qed.
Lemma token_not_variable : forall t, t_type t <> TkVariableName -> variable_token (Tk t) = false.
Proof. intros [ty o l] E. cbn in *. destruct ty; try reflexivity. congruence. Qed.

(** a plain name keeps its text and is qualified by its namespace *)
Lemma not_in_str : forall s l, ~ In s l -> existsb (str_eqb s) l = false.
Proof.
  intros s l N. induction l as [|x l IH]; [reflexivity|]. cbn [existsb]. destruct (str_eqb s x) eqn:E.
  - apply str_eqb_eq in E. subst. destruct N. left. reflexivity.
  - apply IH. intros X. apply N. right. exact X.
Qed.
Lemma plain_type : forall s, plain_name s -> NewTypeString s = Some (TS s s 0).
Proof.
  intros s (NE & NB & _ & NR). unfold NewTypeString, resolveRawWithArrayLevel. cbn [ts_original ts_fqn ts_array].
  assert (E : strip_arrays (rev s) 0 = Some (Some s, 0%Z)).
  { destruct (rev s) as [|c r] eqn:Er; [apply (f_equal (@rev byte)) in Er; rewrite rev_involutive in Er; destruct (NE Er)|]. cbn [strip_arrays].
    destruct (byte_eqb c x5d) eqn:Ec.
    - apply byte_eqb_eq in Ec. subst c. destruct NB. apply in_rev. rewrite Er. left. reflexivity.
    - cbn [negb]. rewrite <- Er, rev_involutive. reflexivity. }
  rewrite E. cbn [ts_original ts_array]. apply not_in_str in NR. cbn [map existsb] in NR. unfold Aliases.
  apply orb_false_iff in NR as (N1 & NR). apply orb_false_iff in NR as (N2 & _). rewrite N1, N2. reflexivity.
Qed.
Lemma plain_not_fqn : forall s, plain_name s -> IsFQN s = false.
Proof.
  intros s (NE & _ & NS & NR). unfold IsFQN. destruct s as [|b s]; [destruct (NE eq_refl)|]. apply not_in_str in NR. cbn [map existsb] in NR.
  apply orb_false_iff in NR as (_ & NR). apply orb_false_iff in NR as (_ & NR). unfold Natives.
  apply orb_false_iff. split; [exact NR|]. destruct (byte_eqb b BSL) eqn:E; [|reflexivity]. apply byte_eqb_eq in E. subst. destruct NS. left. reflexivity.
Qed.
Lemma plain_namespace : forall s ns, plain_name s -> SetNamespace (TS s s 0) ns = TS (qualify ns s) s 0.
Proof.
  intros s ns P. unfold SetNamespace. cbn [ts_fqn]. rewrite (plain_not_fqn s P). unfold SetFQN, qualify. cbn. destruct ns; reflexivity.
Qed.
Lemma qualified_namespace : forall ns s s' l ns', SetNamespace (TS (qualify ns s) s' l) ns' = TS (qualify ns s) s' l.
Proof. intros ns s s' l ns'. unfold SetNamespace. cbn [ts_fqn]. unfold IsFQN, qualify. rewrite orb_true_r. reflexivity. Qed.

(** ** Runs of the analysis *)
Section Exact.
Context {TX : Text} {TR : TrimSpace} (d : document).
Hypothesis TOK : trim_ok TR.
Notation root := (d_root d).

Lemma scan_Post : forall fuel n k s s', below n root -> height n <= fuel -> Inv d s -> k <= length (st_classes s) ->
  scanNode d fuel n s = Done tt s' -> Post d n k s s'.
Proof.
  intros fuel n k s s' R H I K E. pose proof (proj1 (sp_scanNode d TOK fuel n R H) k s I K) as X. rewrite E in X. exact (proj1 X).
Qed.
Lemma spec_Post : forall n k A (m : M A) Q s a s', spec d n k m Q -> Inv d s -> k <= length (st_classes s) -> m s = Done a s' -> Post d n k s s' /\ Q a.
Proof. intros n k A m Q s a s' S I K E. specialize (S s I K). rewrite E in S. exact S. Qed.
Lemma with_Post : forall W n k A (m : M A) Q s a s', spec_with d W n k m Q -> Inv d s -> W s -> k <= length (st_classes s) -> m s = Done a s' ->
  Post d n k s s' /\ W s' /\ Q a.
Proof. intros W n k A m Q s a s' S I w K E. specialize (S s I w K). rewrite E in S. exact S. Qed.
Lemma construct_none : forall scan expr n ty kids, is_expr_type ty = false -> construct d scan expr n ty kids = ret (None, false).
Proof. intros scan expr n ty kids E. destruct ty; try discriminate E; reflexivity. Qed.
Lemma scan_symbol : forall fuel ty kids s s', is_expr_type ty = false -> typesToScanForChildren ty = false -> ty <> PhNamespaceDefinition ->
  scanNode d (S fuel) (Ph ty kids) s = Done tt s' ->
  symbol_of d (scanNode d fuel) (scanForExpression d fuel) (Ph ty kids) ty kids s = Done tt s'.
Proof.
  intros fuel ty kids s s' Ee Et Nn E. cbn [scanNode] in E. unfold node_body in E.
  assert (X : (def <- isDefine d (Ph ty kids) ;;
    (if def then ret tt else e <- expr_body d (scanNode d fuel) (scanForExpression d fuel) (Ph ty kids) ;; ret tt) ;;;
    if typesToScanForChildren ty then scanForChildren (scanNode d fuel) kids
    else symbol_of d (scanNode d fuel) (scanForExpression d fuel) (Ph ty kids) ty kids) s = Done tt s').
  { destruct ty; try exact E. destruct (Nn eq_refl). }
  clear E. step X df s1 F. apply pure_isDefine in F. subst s1. step X u s2 F. rewrite Et in X.
  destruct df; [done F; exact X|]. step F e s3 G. done F. unfold expr_body in G. rewrite (construct_none _ _ _ _ _ Ee) in G.
  step G r s4 Hr. done Hr. done G. exact X.
Qed.
Lemma scan_kids : forall fuel ty kids s s', typesToScanForChildren ty = true ->
  scanNode d (S fuel) (Ph ty kids) s = Done tt s' -> forM kids (scanNode d fuel) s = Done tt s'.
Proof.
  intros fuel ty kids s s' Et E. cbn [scanNode] in E. unfold node_body in E.
  assert (Ee : is_expr_type ty = false) by (destruct ty; try discriminate Et; reflexivity).
  assert (X : (def <- isDefine d (Ph ty kids) ;;
    (if def then ret tt else e <- expr_body d (scanNode d fuel) (scanForExpression d fuel) (Ph ty kids) ;; ret tt) ;;;
    if typesToScanForChildren ty then scanForChildren (scanNode d fuel) kids
    else symbol_of d (scanNode d fuel) (scanForExpression d fuel) (Ph ty kids) ty kids) s = Done tt s').
  { destruct ty; try exact E. discriminate Et. }
  clear E. step X df s1 F. apply pure_isDefine in F. subst s1. step X u s2 F. rewrite Et in X.
  destruct df; [done F; exact X|]. step F e s3 G. done F. unfold expr_body in G. rewrite (construct_none _ _ _ _ _ Ee) in G.
  step G r s4 Hr. done Hr. done G. exact X.
Qed.
Lemma block_done : forall A b (m : M A) s r s', in_block b m s = Done r s' ->
  exists t, m (St [] b (st_classes s) (st_imports s) (st_doc s) (st_vars s)) = Done (fst r) t /\ snd r = st_out t /\
    s' = St (st_out s) (st_block s) (st_classes t) (st_imports t) (st_doc t) (st_vars t).
Proof.
  intros A b m s r s' E. unfold in_block in E. destruct (m _) as [a t| |]; try discriminate. injection E as <- <-. exists t. auto.
Qed.
Lemma emit_done : forall x s u s', emit x s = Done u s' -> s' = St (st_out s ++ [x]) (st_block s) (st_classes s) (st_imports s) (st_doc s) (st_vars s).
Proof. intros x s u s' E. injection E as _ <-. reflexivity. Qed.
Lemma namespace_done : forall s ns s', currNamespace d s = Done ns s' ->
  ns = current_ns s /\ st_classes s' = st_classes s /\ st_doc s' = st_doc s /\ st_out s' = st_out s /\ current_ns s' = current_ns s.
Proof.
  intros s ns s' F. unfold currNamespace, currImportTable, get_table in F. step F i s2 G. step G l s3 G1. injection G1 as <- <-. step F t s4 G2.
  step G2 l' s5 G3. injection G3 as <- <-. apply lift_done in G2. destruct G2 as (Et & ->). done F. unfold current_ns, current_table.
  destruct (st_imports s) as [|x l] eqn:Ei.
  - unfold pushImportTable in G. step G a b G4. injection G4 as <- <-. step G c e G5. injection G5 as _ <-. done G. cbn [st_imports] in Et. rewrite Ei in Et. cbn in Et.
    injection Et as <-. cbn [st_imports st_classes st_doc st_out]. rewrite Ei. auto.
  - done G. rewrite Ei in Et |- *. rewrite Et. auto.
Qed.
(** the class that a member in this state belongs to *)
Definition scope_at (s : state) : type_string :=
  match nth_error (st_classes s) (length (st_classes s) - 1) with Some c => SetNamespace (c_name c) (current_ns s) | None => empty_ts end.
Lemma member_scope_done : forall s scope s', member_scope d s = Done scope s' ->
  st_classes s' = st_classes s /\ st_doc s' = st_doc s /\ st_out s' = st_out s /\ current_ns s' = current_ns s /\ scope = scope_at s.
Proof.
  intros s scope s' E. unfold member_scope, getLastClass in E. unfold scope_at. step E c s1 F. injection F as <- <-. destruct (nth_error _ _) as [c|].
  - step E ns s2 F. destruct (namespace_done s ns s2 F) as (-> & Hc & Hd & Ho & Hn). done E. auto.
  - done E. auto.
Qed.
Lemma scope_at_same : forall s s', st_classes s' = st_classes s -> current_ns s' = current_ns s -> scope_at s' = scope_at s.
Proof. intros s s' C N. unfold scope_at. rewrite C, N. reflexivity. Qed.
Lemma from_inside : forall n a inside, comes_from d n (ASym a inside) -> Forall (comes_from d n) inside.
Proof.
  intros n a inside C. inversion C as [n' x a' kids BX SX DX KX|n' a' D X]; subst; [|constructor].
  revert KX. apply Forall_impl. intros y. exact (comes_from_mono d x n y BX).
Qed.

(** ** Members *)
(** what a method header says *)
Definition sig_ok (ks : list node) (s : signature) : Prop :=
  sg_vis s = visibility_of (modifiers ks) /\ sg_static s = static_of (modifiers ks) /\
  forall nm, text_at d (last_of name_or_identifier ks) = Some nm -> sg_name s = TS nm nm 0.
Lemma phraseText_done : forall ty ks s x s', phraseText d (Ph ty ks) s = Done x s' -> GetNodeText d (Ph ty ks) = Some x /\ s' = s.
Proof. intros ty ks s x s' E. apply lift_done in E. exact E. Qed.
Lemma tokenText_done : forall t s x s', tokenText d t s = Done x s' -> GetNodeText d (Tk t) = Some x /\ s' = s.
Proof. intros t s x s' E. apply lift_done in E. exact E. Qed.
Lemma method_header_sig : forall ks0 ks s0, tri (fun _ => sig_ok ks0 s0) (method_header d s0 ks) (fun s _ => sig_ok (ks0 ++ ks) s).
Proof.
  intros ks0 ks s0. unfold method_header.
  refine (tri_weaken _ _ (fun _ => sig_ok (ks0 ++ []) s0) _ _ _ _ (fun a s X => X) (tri_foldM _ _ ks _ s0 (fun pre s _ => sig_ok (ks0 ++ pre) s) _)).
  { intros _ X. rewrite app_nil_r. exact X. }
  intros pre c post s E st a st' (V & Sg & Nm) Ed. rewrite app_assoc. set (l := ks0 ++ pre) in *.
  assert (Plain : (forall ms, c <> Ph PhMemberModifierList ms) -> modifiers (l ++ [c]) = modifiers l).
  { intros N. rewrite modifiers_snoc. destruct c as [ty cs|t|u]; try reflexivity. destruct ty; try reflexivity. destruct (N _ eq_refl). }
  assert (Same : name_or_identifier c = false -> (forall ms, c <> Ph PhMemberModifierList ms) -> forall ps, sig_ok (l ++ [c]) (Sig (sg_name s) (sg_vis s) (sg_static s) ps)).
  { intros N P ps. unfold sig_ok. rewrite (Plain P), last_of_snoc, N. auto. }
  assert (Same' : name_or_identifier c = false -> (forall ms, c <> Ph PhMemberModifierList ms) -> ret s st = Done a st' -> sig_ok (l ++ [c]) a).
  { intros N P X. done X. pose proof (Same N P (sg_params s)) as Y. destruct s. exact Y. }
  destruct c as [ty cs|t|u]; [| |apply (Same' eq_refl); [discriminate|exact Ed]].
  - destruct ty; try (apply (Same' eq_refl); [discriminate|exact Ed]).
    + step Ed ps s1 F. done Ed. apply (Same eq_refl). discriminate.
    + step Ed x s1 F. done Ed. apply phraseText_done in F. destruct F as (Tx & ->). unfold sig_ok. rewrite Plain, last_of_snoc by discriminate.
      cbn [name_or_identifier name_token identifier orb text_at sg_vis sg_static sg_name]. split; [exact V|split; [exact Sg|]]. intros nm X. congruence.
    + destruct (getMemberModifier cs) as ((v, sx), m) eqn:G. apply getMemberModifier_spec in G. destruct G as (-> & ->). done Ed.
      unfold sig_ok. rewrite modifiers_snoc, last_of_snoc. cbn [sg_vis sg_static sg_name]. auto.
  - destruct (t_type t) eqn:T; try (apply (Same' (token_not_name_or t ltac:(rewrite T; discriminate))); [discriminate|exact Ed]).
    step Ed x s1 F. done Ed. apply tokenText_done in F. destruct F as (Tx & ->). unfold sig_ok. rewrite Plain, last_of_snoc by discriminate.
    rewrite (token_name_or t T). cbn [text_at sg_vis sg_static sg_name]. split; [exact V|split; [exact Sg|]]. intros nm X. congruence.
Qed.
Lemma rec_of : forall fuel n, below n root -> height n <= S fuel ->
  (forall c, inside_of c n -> forall k, spec d c k (scanNode d fuel c) any) /\ (forall c, inside_of c n -> forall k, spec d c k (scanForExpression d fuel c) any).
Proof.
  intros fuel n R H. split; intros c (Bl & L) k; apply sp_scanNode; try lia; try exact (below_trans _ _ _ Bl R); exact TOK.
Qed.
Lemma header_kids_other : forall f pre c, (forall ty ks, c = Ph ty ks -> f ty = false) -> header_kids f (pre ++ [c]) = header_kids f pre.
Proof. intros f pre c H. rewrite header_kids_snoc, header_kids_not by exact H. apply app_nil_r. Qed.
Lemma header_kids_header : forall f pre ty ks, f ty = true -> header_kids f (pre ++ [Ph ty ks]) = header_kids f pre ++ ks.
Proof. intros f pre ty ks H. rewrite header_kids_snoc. cbn [header_kids flat_map]. rewrite H, app_nil_r. reflexivity. Qed.
Ltac other := let ty := fresh in let ks := fresh in let X := fresh in intros ty ks X; try discriminate X; injection X as <- _; reflexivity.
Lemma exact_method : forall fuel kids s s', newMethod d (scanNode d fuel) (Ph PhMethodDeclaration kids) kids s = Done tt s' ->
  exists a inside, st_out s' = st_out s ++ [ASym a inside] /\ a_kind a = AMethod /\ a_range a = NodeRange d (Ph PhMethodDeclaration kids) /\
    a_vis a = visibility_of (modifiers (header_kids method_header_type kids)) /\ a_static a = static_of (modifiers (header_kids method_header_type kids)) /\
    (forall name, name_of d (Ph PhMethodDeclaration kids) = Some name -> a_name a = TS name name 0) /\ a_scope a = scope_at s'.
Proof.
  intros fuel kids s s' E. unfold newMethod in E. cbv zeta in E. step E doc s1 F1. apply quiet_getValidPhpDoc in F1 as O1.
  step E u2 s2 F2. apply quiet_var_do in F2 as O2. step E b s3 F3. apply quiet_in_block in F3 as O3. destruct b as ((sg, types), inside).
  apply block_done in F3. destruct F3 as (t & F3 & _ & _). cbn [fst] in F3.
  assert (J : sig_ok (header_kids method_header_type kids) sg).
  { refine (tri_foldM _ _ kids _ (Sig empty_ts Public false [], []) (fun pre (r : signature * type_composite) _ => sig_ok (header_kids method_header_type pre) (fst r)) _ _ _ _ _ F3).
    - clear. intros pre c post (sg, ts) Ek st r st' Jp X. cbn [fst] in *.
      assert (K : (forall ty ks, c = Ph ty ks -> method_header_type ty = false) -> fst r = sg -> sig_ok (header_kids method_header_type (pre ++ [c])) (fst r)).
      { intros H ->. rewrite header_kids_other by exact H. exact Jp. }
      destruct c as [ty ks|tk|u]; try (done X; apply K; [other|reflexivity]). destruct ty; try (done X; apply K; [other|reflexivity]).
      + step X sg' st1 Y1. step X u1 st2 Y2. step X ts' st3 Y3. step X u2 st4 Y4. done X. cbn [fst]. rewrite header_kids_header by reflexivity.
        exact (method_header_sig _ ks sg st sg' st1 Jp Y1).
      + step X u st1 Y. done X. apply K; [other|reflexivity].
    - cbn [fst]. split; [reflexivity|split; [reflexivity|]]. intros nm X. discriminate X. }
  step E u4 s4 F4. apply quiet_var_do in F4 as O4. step E scope s5 F5. apply member_scope_done in F5. destruct F5 as (C5 & D5 & O5 & N5 & ->).
  apply emit_done in E. subst s'. cbn [st_out]. destruct J as (V & Sg & Nm). eexists _, inside. split; [rewrite O5, O4, O3, O2, O1; reflexivity|].
  cbn [a_kind a_range a_vis a_static a_name a_scope]. split; [reflexivity|split; [reflexivity|split; [exact V|split; [exact Sg|split; [exact Nm|]]]]].
  symmetry. apply scope_at_same; [exact C5|exact N5].
Qed.
(** properties *)
Definition property_scope (s : state) : type_string :=
  match nth_error (st_classes s) (length (st_classes s) - 1) with
  | Some c => match c_kind c with AClass | ATrait => c_name c | _ => empty_ts end
  | None => empty_ts
  end.
Lemma exact_property : forall fuel es vis static s s', let e := Ph PhPropertyElement es in below e root -> height e <= S (S fuel) -> Inv d s ->
  newProperty d (scanNode d fuel) e es vis static s = Done tt s' ->
  exists value a, st_out s' = st_out s ++ value ++ [ASym a []] /\ Forall (comes_from d e) value /\
    a_kind a = AProperty /\ sits_at d e a /\ a_vis a = vis /\ a_static a = static /\
    (forall name, name_of d e = Some name -> a_name a = TS name name 0) /\ a_scope a = property_scope s.
Proof.
  intros fuel es vis static s s' e R H I E. unfold newProperty in E. cbv zeta in E. step E c s1 F1. injection F1 as <- <-.
  step E name s2 F2.
  assert (J : Post d e 0 s s2 /\ forall nm, text_at d (last_of variable_token es) = Some nm -> name = nm).
  { refine (tri_foldM _ _ es _ [] (fun pre name t => Post d e 0 s t /\ forall nm, text_at d (last_of variable_token pre) = Some nm -> name = nm) _ _ _ _ _ F2).
    2: { split; [exact (Post_refl d e 0 s I)|]. intros nm X. discriminate X. }
    intros pre c post nm Ec st r st' (P & Nm) X. assert (C : In c es) by (rewrite Ec; apply in_elt). clear Ec.
    assert (K : variable_token c = false -> r = nm -> Post d e 0 st st' -> Post d e 0 s st' /\ forall x, text_at d (last_of variable_token (pre ++ [c])) = Some x -> r = x).
    { intros V -> P'. split; [exact (Post_trans d _ _ _ _ _ P P')|]. rewrite last_of_snoc, V. exact Nm. }
    pose proof P as (_ & _ & _ & _ & _ & I').
    assert (K' : variable_token c = false -> ret nm st = Done r st' -> Post d e 0 s st' /\ forall x, text_at d (last_of variable_token (pre ++ [c])) = Some x -> r = x).
    { intros V Y. done Y. apply (K V eq_refl). apply Post_refl. exact I'. }
    destruct c as [ty ks|tk|u]; [| |exact (K' eq_refl X)].
    - destruct ty; try exact (K' eq_refl X). step X u st1 Y. done X. apply (K eq_refl eq_refl).
      set (init := Ph PhPropertyInitialiser ks) in *. assert (Bi : below init e) by exact (below_child _ es init C).
      pose proof (kid_height PhPropertyElement es init C) as Hi. fold e in Hi.
      assert (Hf : height init <= S fuel) by lia. pose proof (below_trans _ _ _ Bi R) as Ri. destruct (rec_of fuel init Ri Hf) as (R1 & R2).
      apply (Post_mono d init e 0 0 _ _ Bi (le_n 0)).
      exact (proj1 (spec_Post _ _ _ _ _ _ _ _ (sp_scanForChildren d _ init R1 0 ks (inner_own init _ ks eq_refl)) I' (Nat.le_0_l _) Y)).
    - destruct (t_type tk) eqn:T; try exact (K' (token_not_variable tk ltac:(rewrite T; discriminate)) X).
      apply tokenText_done in X. destruct X as (Tx & ->). split; [exact P|]. rewrite last_of_snoc, (token_variable tk T). cbn [text_at]. intros x X. congruence. }
  destruct J as (((value & Ov & Fv) & _) & Nm).
  step E doc s3 F3. apply quiet_getValidPhpDoc in F3. step E types s4 F4.
  assert (Q : st_out s4 = st_out s3).
  { destruct doc as [p|]; [|done F4; reflexivity]. destruct (findTags p (B "@var")) as [|tg tgs]; [done F4; reflexivity|].
    step F4 x s5 F5. done F4. exact (quiet_typesFromPhpDoc d _ _ _ _ F5). }
  apply emit_done in E. subst s'. cbn [st_out]. eexists value, _. split; [rewrite Q, F3, Ov, <- app_assoc; reflexivity|]. split; [exact Fv|].
  cbn [a_kind a_vis a_static a_name a_scope]. split; [reflexivity|split; [reflexivity|split; [reflexivity|split; [reflexivity|split; [|reflexivity]]]]].
  intros nm X. rewrite (Nm nm X). reflexivity.
Qed.
(** constants *)
Lemma exact_class_const_loop : forall fuel e, below e root -> height e <= S fuel -> forall kids pre name named eq skip value s r s',
  (forall c, In c kids -> inside_of c e) -> Inv d s ->
  (eq = false -> forall nm, text_at d (last_of identifier pre) = Some nm -> name = nm) ->
  class_const_loop d (scanNode d fuel) kids name named eq skip value s = Done r s' ->
  Post d e 0 s s' /\
  (eq = false -> forall nm, text_at d (last_of identifier (pre ++ before_equals kids)) = Some nm -> fst (fst r) = nm) /\ (eq = true -> fst (fst r) = name).
Proof.
  intros fuel e R H. induction kids as [|c kids IH]; intros pre name named eq skip value s r s' U I Nm E; cbn [class_const_loop] in E.
  { done E. split; [exact (Post_refl d e 0 s I)|]. cbn [before_equals fst]. rewrite app_nil_r. auto. }
  assert (C : inside_of c e) by (apply U; left; reflexivity). assert (U' : forall x, In x kids -> inside_of x e) by (intros x X; apply U; right; exact X).
  assert (Go : forall name named skip value s1, token_is is_equals c = false -> Post d e 0 s s1 -> (eq = false -> forall nm, text_at d (last_of identifier (pre ++ [c])) = Some nm -> name = nm) ->
    class_const_loop d (scanNode d fuel) kids name named eq skip value s1 = Done r s' ->
    Post d e 0 s s' /\ (eq = false -> forall nm, text_at d (last_of identifier (pre ++ before_equals (c :: kids))) = Some nm -> fst (fst r) = nm) /\ (eq = true -> fst (fst r) = name)).
  { intros name' named' skip' value' s1 T P N' X. pose proof P as (_ & _ & _ & _ & _ & I'). destruct (IH (pre ++ [c]) _ _ _ _ _ _ _ _ U' I' N' X) as (P' & A & A').
    split; [exact (Post_trans d _ _ _ _ _ P P')|]. cbn [before_equals]. rewrite T. rewrite <- app_assoc in A. auto. }
  assert (Same : identifier c = false -> eq = false -> forall nm, text_at d (last_of identifier (pre ++ [c])) = Some nm -> name = nm).
  { intros X. rewrite last_of_snoc, X. exact Nm. }
  pose proof (Post_refl d e 0 s I) as Pr.
  destruct c as [ty ks|tk|u]; [| |exact (Go _ _ _ _ _ eq_refl Pr (Same eq_refl) E)].
  - destruct eq.
    + step E v s1 F. apply phraseText_done in F. destruct F as (_ & ->). step E u s2 F2. destruct (rec_of fuel e R H) as (R1 & _).
      destruct (spec_Post _ _ _ _ _ _ _ _ (sp_scan d _ e R1 0 _ C) I (Nat.le_0_l _) F2) as (P & _). exact (Go _ _ _ _ _ eq_refl P ltac:(discriminate) E).
    + destruct ty; try exact (Go _ _ _ _ _ eq_refl Pr (Same eq_refl) E). step E v s1 F. apply phraseText_done in F. destruct F as (Tx & ->).
      assert (Nv : false = false -> forall nm, text_at d (last_of identifier (pre ++ [Ph PhIdentifier ks])) = Some nm -> v = nm).
      { intros _ nm X. rewrite last_of_snoc in X. cbn [identifier text_at] in X. congruence. }
      destruct (Go _ _ _ _ _ eq_refl Pr Nv E) as (P & A & A'). split; [exact P|split; [exact A|intros Z; discriminate Z]].
  - assert (Eq : t_type tk <> TkEquals -> token_is is_equals (Tk tk) = false) by (cbn; destruct (t_type tk); intros Z; try reflexivity; destruct (Z eq_refl)).
    assert (X : t_type tk <> TkEquals -> (if eq then v <- tokenText d tk ;; class_const_loop d (scanNode d fuel) kids name named eq false (value ++ v)
       else class_const_loop d (scanNode d fuel) kids name named eq false value) s = Done r s' ->
       Post d e 0 s s' /\ (eq = false -> forall nm, text_at d (last_of identifier (pre ++ before_equals (Tk tk :: kids))) = Some nm -> fst (fst r) = nm) /\ (eq = true -> fst (fst r) = name)).
    { intros T Y. destruct eq; [|exact (Go _ _ _ _ _ (Eq T) Pr (Same eq_refl) Y)]. step Y v s1 F. apply tokenText_done in F. destruct F as (_ & ->).
      exact (Go _ _ _ _ _ (Eq T) Pr (Same eq_refl) Y). }
    destruct (t_type tk) eqn:T; try (apply X; [discriminate|exact E]).
    + destruct skip; [exact (Go _ _ _ _ _ (Eq ltac:(discriminate)) Pr (Same eq_refl) E)|apply X; [discriminate|exact E]].
    + destruct (IH pre name named true true value s r s' U' I ltac:(discriminate) E) as (P & _ & A). split; [exact P|]. specialize (A eq_refl).
      cbn [before_equals token_is]. rewrite T. cbn [is_equals]. rewrite app_nil_r. split; [|intros _; exact A]. intros Ef nm Y. rewrite A. exact (Nm Ef nm Y).
Qed.
Lemma exact_class_const : forall fuel es vis s s', let e := Ph PhClassConstElement es in below e root -> height e <= S fuel -> Inv d s ->
  newClassConst d (scanNode d fuel) e es vis s = Done tt s' ->
  exists value a, st_out s' = st_out s ++ value ++ [ASym a []] /\ Forall (comes_from d e) value /\
    a_kind a = AClassConst /\ sits_at d e a /\ a_vis a = vis /\ a_static a = true /\
    (forall name, name_of d e = Some name -> a_name a = TS name name 0) /\ a_scope a = scope_at s.
Proof.
  intros fuel es vis s s' e R H I E. unfold newClassConst in E. cbv zeta in E. step E doc s1 F1. assert (s1 = s) as -> by (step F1 l s0 G; injection G as <- <-; done F1; reflexivity).
  step E scope s2 F2. apply member_scope_done in F2. destruct F2 as (C2 & D2 & O2 & N2 & ->). step E r s3 F3.
  assert (I2 : Inv d s2) by (intros p X; rewrite D2 in X; exact (I p X)).
  destruct (exact_class_const_loop fuel e R H es [] [] false false false [] s2 r s3 (fun c C => inside_kid _ es c C) I2 ltac:(intros _ nm X; discriminate X) F3) as (((value & Ov & Fv) & _) & Nm & _).
  destruct r as ((name, nmd), v). apply emit_done in E. subst s'. cbn [st_out]. eexists value, _. split; [rewrite Ov, O2, <- app_assoc; reflexivity|].
  split; [exact Fv|]. cbn [a_kind a_vis a_static a_name a_scope]. split; [reflexivity|split; [reflexivity|split; [reflexivity|split; [reflexivity|split; [|reflexivity]]]]].
  intros nm X. cbn [fst app] in Nm. rewrite (Nm eq_refl nm X). reflexivity.
Qed.

(** ** What a run yields, in pieces *)
Definition yields {A X} (E : state -> Prop) (m : M A) (R : X -> list asym -> Prop) (l : list X) : Prop :=
  forall s a s', E s -> m s = Done a s' -> E s' /\ exists segs, st_out s' = st_out s ++ concat segs /\ Forall2 R l segs.
Lemma yields_nil : forall X E (R : X -> list asym -> Prop), yields E (ret tt) R [].
Proof. intros X E R s a s' e H. done H. split; [exact e|]. exists []. cbn. rewrite app_nil_r. auto. Qed.
Lemma yields_bind : forall A B X E (R : X -> list asym -> Prop) (m : M A) (f : A -> M B) l l', yields E m R l -> (forall a, yields E (f a) R l') -> yields E (bind m f) R (l ++ l').
Proof.
  intros A B X E R m f l l' H1 H2 s b s'' e H. step H a s' F. destruct (H1 s a s' e F) as (e' & g1 & O1 & F1). destruct (H2 a s' b s'' e' H) as (e'' & g2 & O2 & F2).
  split; [exact e''|]. exists (g1 ++ g2). rewrite O2, O1, concat_app, app_assoc. split; [reflexivity|]. apply Forall2_app; assumption.
Qed.
Lemma yields_forM : forall A X E (R : X -> list asym -> Prop) (l : list A) (f : A -> M unit) (g : A -> list X),
  (forall x, In x l -> yields E (f x) R (g x)) -> yields E (forM l f) R (flat_map g l).
Proof.
  intros A X E R l f g H. induction l as [|x l IH]; cbn [forM flat_map]; [apply yields_nil|].
  apply yields_bind; [apply H; left; reflexivity|]. intros _. apply IH. intros y Y. apply H. right. exact Y.
Qed.

(** ** Classes *)
Section Class.
Variables (cls : node) (ns fqn : gostr) (i : nat) (kd : akind) (rg : range) (mkname : type_string).
Hypothesis Rc : below cls root.
Hypothesis NoNs : forall m, below m cls -> ~ is_namespace_node m.
Hypothesis Full : ts_fqn (SetNamespace mkname ns) = fqn.
Hypothesis Own : kd = AClass \/ kd = ATrait -> ts_fqn mkname = fqn.
Lemma no_namespace : forall m, below m cls -> without is_namespace m.
Proof.
  intros m Bm x Bx. destruct (is_namespace x) eqn:E; [|reflexivity]. exfalso. apply (NoNs x (below_trans _ _ _ Bx Bm)).
  destruct x as [ty ks|t|u]; try discriminate E. destruct ty; try discriminate E. reflexivity.
Qed.
Lemma no_class : forall k m, no_class_inside cls -> In k (node_kids cls) -> below m k -> without class_like m.
Proof.
  intros k m N Ik Bm x Bx. destruct (class_like x) eqn:E; [|reflexivity]. exfalso. apply (N k x Ik (below_trans _ _ _ Bx Bm)).
  destruct x as [ty ks|t|u]; try discriminate E. destruct ty; try discriminate E; exact I.
Qed.
(** the states inside the class *)
Definition env (N : type_string -> Prop) (s : state) : Prop :=
  Inv d s /\ current_ns s = ns /\ class_at i kd rg N s /\ (simple_class cls -> length (st_classes s) = S i).
Definition inside_cls (m : node) : Prop := exists k, In k (node_kids cls) /\ below m k.
Lemma inside_below : forall m, inside_cls m -> below m cls.
Proof. intros m (k & Ik & Bl). exact (below_kid m k cls Ik Bl). Qed.
Lemma inside_trans : forall m x, inside_cls m -> below x m -> inside_cls x.
Proof. intros m x (k & Ik & Bl) Bx. exists k. split; [exact Ik|exact (below_trans _ _ _ Bx Bl)]. Qed.
Lemma env_Post : forall N m s s', inside_cls m -> env N s -> Post d m (S i) s s' -> env N s'.
Proof.
  intros N m s s' Im (I & C & A & L) P. pose proof (class_at_Post d i kd rg N m s s' A P) as A'. destruct P as (_ & _ & _ & Pc & Pn & I').
  split; [exact I'|split; [rewrite Pn, C; [reflexivity|exact (no_namespace m (inside_below m Im))]|split; [exact A'|]]].
  intros S. rewrite Pc; [exact (L S)|]. destruct Im as (k & Ik & Bl). exact (no_class k m (proj1 S) Ik Bl).
Qed.
Section Env.
Variable N : type_string -> Prop.
Hypothesis Named : forall x, N x -> simple_class cls -> x = mkname.
Lemma env_scope : forall s, env N s -> simple_class cls -> ts_fqn (scope_at s) = fqn.
Proof.
  intros s (_ & C & (c & E & _ & _ & Nc) & L) S. unfold scope_at. rewrite (L S). replace (Datatypes.S i - 1) with i by lia. rewrite E, C, (Named _ Nc S). exact Full.
Qed.
Lemma env_property : forall s, env N s -> kd <> AInterface -> kd = AClass \/ kd = AInterface \/ kd = ATrait -> simple_class cls -> ts_fqn (property_scope s) = fqn.
Proof.
  intros s (_ & C & (c & E & Kc & _ & Nc) & L) NI K S. unfold property_scope. rewrite (L S). replace (Datatypes.S i - 1) with i by lia. rewrite E, Kc, (Named _ Nc S).
  destruct K as [-> |[-> | ->]]; [|destruct (NI eq_refl)|]; apply Own; auto.
Qed.
Lemma env_length : forall s, env N s -> S i <= length (st_classes s).
Proof. intros s (_ & _ & A & _). exact (class_at_length _ _ _ _ _ A). Qed.
Hypothesis Kind : kd = AClass \/ kd = AInterface \/ kd = ATrait.
Hypothesis Iface : node_type cls <> Some PhInterfaceDeclaration -> kd <> AInterface.
Notation mr := (member_reported d cls fqn).

Notation in_class := (fun scope => simple_class cls -> ts_fqn scope = fqn).
Notation property_at := (fun e => element_reported d AProperty (static_of (fst e)) (fun scope => node_type cls <> Some PhInterfaceDeclaration -> simple_class cls -> ts_fqn scope = fqn)
  (visibility_of (fst e)) (snd e)).
Notation const_at := (fun e => element_reported d AClassConst true (fun scope => simple_class cls -> ts_fqn scope = fqn) (visibility_of (fst e)) (snd e)).
Lemma filter_pairs : forall A B (f : A -> bool) (b : B) l, map (pair b) (List.filter f l) = flat_map (fun x => if f x then [(b, x)] else []) l.
Proof. intros A B f b l. induction l as [|x l IH]; [reflexivity|]. cbn. destruct (f x); cbn; rewrite IH; reflexivity. Qed.
Lemma yields_foldM_cons : forall A S X (E : state -> Prop) (R : X -> list asym -> Prop) (x : A) l (f : S -> A -> M S) b (lx ll : list X),
  (forall s a s', E s -> f b x s = Done a s' -> E s' /\ (exists segs, st_out s' = st_out s ++ concat segs /\ Forall2 R lx segs) /\ yields E (foldM l f a) R ll) ->
  yields E (foldM (x :: l) f b) R (lx ++ ll).
Proof.
  intros A S X E R x l f b lx ll H s r s'' e Y. cbn [foldM] in Y. step Y a s' F. destruct (H s a s' e F) as (e' & (g1 & O1 & F1) & H2). destruct (H2 s' r s'' e' Y) as (e'' & g2 & O2 & F2).
  split; [exact e''|]. exists (g1 ++ g2). rewrite O2, O1, concat_app, app_assoc. split; [reflexivity|]. apply Forall2_app; assumption.
Qed.
Lemma inside_list : forall ty before c kids m, m = Ph ty (before ++ c :: kids) -> inside_of c m.
Proof. intros ty before c kids m ->. exact (inside_kid ty _ c (in_elt c before kids)). Qed.
Lemma yields_property : forall fuel before ks after es vis static, let m := Ph PhPropertyDeclaration (before ++ Ph PhPropertyElementList ks :: after) in
  inside_cls m -> height m <= S fuel -> In (Ph PhPropertyElement es) ks -> vis = visibility_of (modifiers before) -> static = static_of (modifiers before) ->
  yields (env N) (newProperty d (scanNode d fuel) (Ph PhPropertyElement es) es vis static) property_at [(modifiers before, Ph PhPropertyElement es)].
Proof.
  intros fuel before ks after es vis static m Im Hm Ie Ev Es s u s' ev X. destruct u. assert (Rm : below m root) by exact (below_trans _ _ _ (inside_below m Im) Rc).
  destruct (rec_of fuel m Rm Hm) as (R1 & R2). pose proof (inside_list _ before _ after m eq_refl) as (B1 & H1). pose proof (inside_kid PhPropertyElementList ks _ Ie) as (B2 & H2).
  pose proof (sp_newProperty d (scanNode d fuel) m Rm R1 (S i) before ks after es vis static eq_refl Ie Ev Es) as Sp.
  destruct (spec_Post _ _ _ _ _ _ _ _ Sp (proj1 ev) (env_length s ev) X) as (P & _). split; [exact (env_Post N m s s' Im ev P)|].
  assert (Re : below (Ph PhPropertyElement es) root) by exact (below_trans _ _ _ B2 (below_trans _ _ _ B1 Rm)).
  destruct (exact_property fuel es vis static s s' Re ltac:(lia) (proj1 ev) X) as (value & a & O & Fv & K & St & V & Sx & Nm & Sc).
  exists [value ++ [ASym a []]]. cbn [concat]. rewrite app_nil_r. split; [exact O|]. constructor; [|constructor]. cbn [fst snd]. exists value, a.
  split; [reflexivity|split; [exact Fv|split; [exact K|split; [exact St|split; [congruence|split; [congruence|split; [exact Nm|]]]]]]].
  intros NI Sm. rewrite Sc. exact (env_property s ev (Iface NI) Kind Sm).
Qed.
Lemma yields_properties : forall fuel m, inside_cls m -> height m <= S fuel -> forall kids before, m = Ph PhPropertyDeclaration (before ++ kids) ->
  yields (env N) (foldM kids (fun '(vis, static) c => match c with
    | Ph PhMemberModifierList ks => let '(v, s, _) := getMemberModifier ks in ret (v, s)
    | Ph PhPropertyElementList ks =>
        forM ks (fun e => match e with Ph PhPropertyElement es => newProperty d (scanNode d fuel) e es vis static | _ => ret tt end) ;;; ret (vis, static)
    | _ => ret (vis, static)
    end) (visibility_of (modifiers before), static_of (modifiers before))) property_at
    (elements (fun ty => match ty with PhPropertyElementList => true | _ => false end)
           (fun ty => match ty with PhPropertyElement => true | _ => false end) (modifiers before) kids).
Proof.
  intros fuel m Im Hm. induction kids as [|c kids IH]; intros before Em.
  { cbn [foldM elements]. intros s a s' e X. done X. split; [exact e|]. exists []. cbn. rewrite app_nil_r. auto. }
  specialize (IH (before ++ [c])). rewrite <- app_assoc in IH. specialize (IH Em). pose proof (modifiers_snoc before c) as Ms.
  assert (Skip : (forall ks, c <> Ph PhMemberModifierList ks) -> modifiers (before ++ [c]) = modifiers before).
  { intros X. rewrite Ms. destruct c as [ty ks|t|u]; try reflexivity. destruct ty; try reflexivity. destruct (X _ eq_refl). }
  destruct c as [ty ks|t|u]; try (rewrite Skip in IH by discriminate; exact IH). 
  destruct ty; try (rewrite Skip in IH by discriminate; exact IH).
  - rewrite Ms in IH. cbn [foldM elements]. destruct (getMemberModifier ks) as ((v, sx), mo) eqn:G. apply getMemberModifier_spec in G. destruct G as (-> & ->). exact IH.
  - rewrite Skip in IH by discriminate. cbn [elements]. apply yields_foldM_cons. intros s r s' ev X. step X u s1 F. done X. rewrite filter_pairs.
    pose proof (fun H => yields_forM _ _ (env N) property_at ks
       (fun e => match e with Ph PhPropertyElement es => newProperty d (scanNode d fuel) e es (visibility_of (modifiers before)) (static_of (modifiers before)) | _ => ret tt end)
       (fun x => if match x with Ph ty _ => match ty with PhPropertyElement => true | _ => false end | _ => false end then [(modifiers before, x)] else []) H s u s1 ev F) as W.
    destruct W as (ev' & W).
    { intros x Ix. destruct x as [ty xs|t|w]; try apply yields_nil. destruct ty; try apply yields_nil.
      rewrite Em in Im, Hm. exact (yields_property fuel before ks kids xs _ _ Im Hm Ix eq_refl eq_refl). }
    split; [exact ev'|split; [exact W|exact IH]].
Qed.
Lemma yields_class_const : forall fuel before ks after es vis, let m := Ph PhClassConstDeclaration (before ++ Ph PhClassConstElementList ks :: after) in
  inside_cls m -> height m <= S fuel -> In (Ph PhClassConstElement es) ks -> vis = visibility_of (modifiers before) ->
  yields (env N) (newClassConst d (scanNode d fuel) (Ph PhClassConstElement es) es vis) const_at [(modifiers before, Ph PhClassConstElement es)].
Proof.
  intros fuel before ks after es vis m Im Hm Ie Ev s u s' ev X. destruct u. assert (Rm : below m root) by exact (below_trans _ _ _ (inside_below m Im) Rc).
  destruct (rec_of fuel m Rm Hm) as (R1 & R2). pose proof (inside_list _ before _ after m eq_refl) as (B1 & H1). pose proof (inside_kid PhClassConstElementList ks _ Ie) as (B2 & H2).
  pose proof (sp_newClassConst d (scanNode d fuel) m Rm R1 (S i) before ks after es vis eq_refl Ie Ev) as Sp.
  destruct (spec_Post _ _ _ _ _ _ _ _ Sp (proj1 ev) (env_length s ev) X) as (P & _). split; [exact (env_Post N m s s' Im ev P)|].
  assert (Re : below (Ph PhClassConstElement es) root) by exact (below_trans _ _ _ B2 (below_trans _ _ _ B1 Rm)).
  destruct (exact_class_const fuel es vis s s' Re ltac:(lia) (proj1 ev) X) as (value & a & O & Fv & K & St & V & Sx & Nm & Sc).
  exists [value ++ [ASym a []]]. cbn [concat]. rewrite app_nil_r. split; [exact O|]. constructor; [|constructor]. cbn [fst snd]. exists value, a.
  split; [reflexivity|split; [exact Fv|split; [exact K|split; [exact St|split; [congruence|split; [congruence|split; [exact Nm|]]]]]]].
  intros Sm. rewrite Sc. exact (env_scope s ev Sm).
Qed.
Lemma yields_class_consts : forall fuel m, inside_cls m -> height m <= S fuel -> forall kids before, m = Ph PhClassConstDeclaration (before ++ kids) ->
  yields (env N) (foldM kids (fun vis c => match c with
    | Ph PhMemberModifierList ks => let '(v, _, _) := getMemberModifier ks in ret v
    | Ph PhClassConstElementList ks =>
        forM ks (fun e => match e with Ph PhClassConstElement es => newClassConst d (scanNode d fuel) e es vis | _ => ret tt end) ;;; ret vis
    | _ => ret vis
    end) (visibility_of (modifiers before))) const_at
    (elements (fun ty => match ty with PhClassConstElementList => true | _ => false end)
           (fun ty => match ty with PhClassConstElement => true | _ => false end) (modifiers before) kids).
Proof.
  intros fuel m Im Hm. induction kids as [|c kids IH]; intros before Em.
  { cbn [foldM elements]. intros s a s' e X. done X. split; [exact e|]. exists []. cbn. rewrite app_nil_r. auto. }
  specialize (IH (before ++ [c])). rewrite <- app_assoc in IH. specialize (IH Em). pose proof (modifiers_snoc before c) as Ms.
  assert (Skip : (forall ks, c <> Ph PhMemberModifierList ks) -> modifiers (before ++ [c]) = modifiers before).
  { intros X. rewrite Ms. destruct c as [ty ks|t|u]; try reflexivity. destruct ty; try reflexivity. destruct (X _ eq_refl). }
  destruct c as [ty ks|t|u]; try (rewrite Skip in IH by discriminate; exact IH). 
  destruct ty; try (rewrite Skip in IH by discriminate; exact IH).
  2: { rewrite Ms in IH. cbn [foldM elements]. destruct (getMemberModifier ks) as ((v, sx), mo) eqn:G. apply getMemberModifier_spec in G. destruct G as (-> & ->). exact IH. }
  rewrite Skip in IH by discriminate. cbn [elements]. apply yields_foldM_cons. intros s r s' ev X. step X u s1 F. done X. rewrite filter_pairs.
  pose proof (fun H => yields_forM _ _ (env N) const_at ks
       (fun e => match e with Ph PhClassConstElement es => newClassConst d (scanNode d fuel) e es (visibility_of (modifiers before)) | _ => ret tt end)
       (fun x => if match x with Ph ty _ => match ty with PhClassConstElement => true | _ => false end | _ => false end then [(modifiers before, x)] else []) H s u s1 ev F) as W.
  destruct W as (ev' & W).
  { intros x Ix. destruct x as [ty xs|t|w]; try apply yields_nil. destruct ty; try apply yields_nil.
    rewrite Em in Im, Hm. exact (yields_class_const fuel before ks kids xs _ Im Hm Ix eq_refl). }
  split; [exact ev'|split; [exact W|exact IH]].
Qed.
Lemma yields_other : forall fuel m, inside_cls m -> height m <= fuel -> mr m = Forall (comes_from d m) -> yields (env N) (scanNode d fuel m) mr [m].
Proof.
  intros fuel m Im Hm Em s u s' ev X. destruct u. assert (Rm : below m root) by exact (below_trans _ _ _ (inside_below m Im) Rc).
  pose proof (scan_Post fuel m (S i) s s' Rm Hm (proj1 ev) (env_length s ev) X) as P. split; [exact (env_Post N m s s' Im ev P)|].
  destruct P as ((new & O & F) & _). exists [new]. cbn [concat]. rewrite app_nil_r. split; [exact O|]. constructor; [|constructor]. rewrite Em. exact F.
Qed.
Lemma yields_member : forall fuel m, inside_cls m -> height m <= fuel -> yields (env N) (scanNode d fuel m) mr (member_nodes m).
Proof.
  induction fuel as [|fuel IH]; intros m Im Hm; [pose proof (height_pos m); lia|].
  destruct m as [ty kids|t|u]; [|apply yields_other; auto|apply yields_other; auto].
  assert (Lst : typesToScanForChildren ty = true -> yields (env N) (scanNode d (S fuel) (Ph ty kids)) mr (flat_map member_nodes kids)).
  { intros T s u s' ev X. destruct u. apply (scan_kids _ _ _ _ _ T) in X.
    refine (yields_forM _ _ _ mr kids (scanNode d fuel) member_nodes _ s tt s' ev X). intros x Ix. apply IH.
    - exact (inside_trans _ _ Im (below_child ty kids x Ix)).
    - pose proof (kid_height ty kids x Ix). lia. }
  destruct ty; try (apply yields_other; auto; fail); try exact (Lst eq_refl).
  - (* class constants *)
    intros s u s' ev X. destruct u. apply scan_symbol in X; try reflexivity; try discriminate. cbn [symbol_of] in X. unfold newClassConstDeclaration in X.
    step X r s1 F. done X. destruct (yields_class_consts fuel _ Im Hm kids [] eq_refl s _ s1 ev F) as (ev' & segs & O & F2). split; [exact ev'|].
    exists [concat segs]. cbn [concat]. rewrite app_nil_r. split; [exact O|]. constructor; [|constructor]. exists segs. split; [reflexivity|exact F2].
  - (* properties *)
    intros s u s' ev X. destruct u. apply scan_symbol in X; try reflexivity; try discriminate. cbn [symbol_of] in X. unfold newPropertyDeclaration in X.
    step X r s1 F. done X. destruct (yields_properties fuel _ Im Hm kids [] eq_refl s _ s1 ev F) as (ev' & segs & O & F2). split; [exact ev'|].
    exists [concat segs]. cbn [concat]. rewrite app_nil_r. split; [exact O|]. constructor; [|constructor]. exists segs. split; [reflexivity|exact F2].
  - (* a method *)
    intros s u s' ev X. destruct u. assert (Rm : below (Ph PhMethodDeclaration kids) root) by exact (below_trans _ _ _ (inside_below _ Im) Rc).
    pose proof (scan_Post (S fuel) _ (S i) s s' Rm Hm (proj1 ev) (env_length s ev) X) as P. pose proof (env_Post N _ s s' Im ev P) as ev'. split; [exact ev'|].
    apply scan_symbol in X; try reflexivity; try discriminate. cbn [symbol_of] in X. destruct (exact_method _ _ _ _ X) as (a & inside & O & K & Rg & V & Sx & Nm & Sc).
    exists [[ASym a inside]]. cbn [concat]. rewrite app_nil_r. split; [exact O|]. constructor; [|constructor]. exists a, inside. split; [reflexivity|].
    split. { destruct P as ((new & O' & F) & _). rewrite O in O'. apply app_inv_head in O'. subst new. inversion F as [|x l Fx]; subst. exact (from_inside _ _ _ Fx). }
    split; [exact K|split; [exact Rg|split; [exact V|split; [exact Sx|split; [exact Nm|]]]]]. intros Sm. rewrite Sc. exact (env_scope s' ev' Sm).
Qed.
End Env.

(** *** The name in the header *)
Variable mk : gostr -> type_string.
Definition called (hk : list node) (x : type_string) : Prop := forall nm, text_at d (last_of name_token hk) = Some nm -> plain_name nm -> x = mk nm.
Definition hd_state (N : type_string -> Prop) (s : state) : Prop := Inv d s /\ current_ns s = ns /\ class_at i kd rg N s.
Lemma class_at_weaken : forall (N N' : type_string -> Prop) s, (forall x, N x -> N' x) -> class_at i kd rg N s -> class_at i kd rg N' s.
Proof. intros N N' s H (c & E & K & R & X). exists c. auto. Qed.
Lemma hd_spec : forall N hn A (m : M A) Q s a s', inside_cls hn -> spec_with d (class_at i kd rg N) hn i m Q -> hd_state N s -> m s = Done a s' ->
  hd_state N s' /\ Post d hn i s s'.
Proof.
  intros N hn A m Q s a s' Ih H (I & C & W) E. pose proof (class_at_length _ _ _ _ _ W) as L. destruct (with_Post _ _ _ _ _ _ _ _ _ H I W ltac:(lia) E) as (P & W' & _).
  split; [|exact P]. destruct P as (_ & _ & _ & _ & Pn & I'). split; [exact I'|split; [|exact W']]. rewrite Pn; [exact C|]. exact (no_namespace hn (inside_below hn Ih)).
Qed.
Lemma with_single : forall W n k A (h : A -> M unit) c, spec_with d W n k (forM [c] h) any -> spec_with d W n k (h c) any.
Proof.
  intros W n k A h c H s I w L. specialize (H s I w L). cbn [forM] in H. unfold bind in H. destruct (h c s) as [[] s'| |]; cbn in H; exact H.
Qed.
Lemma header_names : forall hn ks (h : node -> M unit) hk0, inside_cls hn ->
  (forall N c, In c ks -> name_token c = false -> spec_with d (class_at i kd rg N) hn i (forM [c] h) any) ->
  (forall N t, In (Tk t) ks -> t_type t = TkName -> tri (hd_state N) (h (Tk t)) (fun _ => hd_state (fun x => forall nm, GetNodeText d (Tk t) = Some nm -> plain_name nm -> x = mk nm))) ->
  tri (hd_state (called hk0)) (forM ks h) (fun _ => hd_state (called (hk0 ++ ks))).
Proof.
  intros hn ks h hk0 Ih Ho Hn. refine (tri_weaken _ _ (fun s => hd_state (called (hk0 ++ [])) s) _ _ _ _ (fun a s X => X) (tri_forM _ ks h (fun pre => hd_state (called (hk0 ++ pre))) _)).
  { rewrite app_nil_r. auto. }
  intros pre c post E. assert (C : In c ks) by (rewrite E; apply in_elt). rewrite app_assoc. set (l := hk0 ++ pre). destruct (name_token c) eqn:T.
  - destruct c as [ty cs|t|u]; try discriminate T. assert (Tt : t_type t = TkName) by (destruct t as [ty o ln]; destruct ty; try discriminate T; reflexivity).
    intros s a s' g X. pose proof (Hn _ t C Tt s a s' g X) as (I & Cn & W). split; [exact I|split; [exact Cn|]]. revert W. apply class_at_weaken. intros x H nm. rewrite last_of_snoc, T. exact (H nm).
  - intros s a s' g X. destruct (hd_spec _ hn _ _ _ s a s' Ih (with_single _ _ _ _ h c (Ho _ c C T)) g X) as ((I & Cn & W) & _). split; [exact I|split; [exact Cn|]]. revert W. apply class_at_weaken.
    intros x H nm. rewrite last_of_snoc, T. exact (H nm).
Qed.
Lemma change_name : forall N (x : type_string) f s a s', hd_state N s -> (forall c, f c = Cls (c_kind c) x (c_range c) (c_extends c) (c_interfaces c) (c_uses c) (c_modifier c)) ->
  change_class i f s = Done a s' -> hd_state (fun y => y = x) s'.
Proof.
  intros N x f s a s' (I & C & (c & E & K & R & _)) F X. injection X as _ <-. split; [exact I|split; [exact C|]]. exists (f c). cbn [st_classes].
  rewrite nth_update, Nat.eqb_refl, E. cbn. rewrite F. cbn. repeat split; assumption.
Qed.
Lemma hd_same : forall N s s', st_classes s' = st_classes s -> current_ns s' = current_ns s -> st_doc s' = st_doc s -> hd_state N s -> hd_state N s'.
Proof.
  intros N s s' C Cn D (I & E & W). split; [|split; [congruence|exact (class_at_classes _ _ _ _ _ _ (eq_sym C) W)]]. intros p X. rewrite D in X. exact (I p X).
Qed.
Lemma class_header_names : forall fuel doc ks hk0, let hn := Ph PhClassDeclarationHeader ks in (forall nm, mk nm = TS (qualify ns nm) nm 0) ->
  inside_cls hn -> height hn <= S fuel -> (forall p, doc = Some p -> doc_ok d p) ->
  tri (hd_state (called hk0)) (class_header d (scanNode d fuel) (scanForExpression d fuel) i doc ks) (fun _ => hd_state (called (hk0 ++ ks))).
Proof.
  intros fuel doc ks hk0 hn Hmk Ih Hh D. assert (Rh : below hn root) by exact (below_trans _ _ _ (inside_below hn Ih) Rc). destruct (rec_of fuel hn Rh Hh) as (R1 & R2).
  pose proof (inner_own hn _ ks eq_refl) as U.
  apply (header_names hn); [exact Ih| |].
  - intros N c C T. refine (w_class_header d (scanNode d fuel) (scanForExpression d fuel) hn Rh R1 R2 i i kd rg N (le_n i) doc [c] _ D _).
    + intros x [<-|[]]. exact (U c C).
    + intros t x y z [->|[]] Tt. rewrite (token_is_name t Tt) in T. discriminate T.
  - intros N t C T s a s' g X. rewrite T in X. step X text s1 F1. apply tokenText_done in F1. destruct F1 as (Tx & ->).
    step X name s2 F2. apply lift_done in F2. destruct F2 as (Nt & ->). step X nsp s3 F3. apply namespace_done in F3. destruct F3 as (-> & C3 & D3 & O3 & N3).
    cbv zeta in X. step X u s4 F4. apply (hd_same _ _ _ C3 N3 D3) in g. pose proof (change_name _ _ _ _ _ _ g (fun _ => eq_refl) F4) as g4.
    destruct g as (_ & Cn & _). rewrite N3 in Cn. rewrite Cn in *.
    assert (g' : hd_state (fun y => y = SetNamespace name ns) s').
    { assert (Sp : spec d hn (S i) (match doc with
            | Some p =>
                forM (findTags p (B "@property")) (doc_property d p (SetNamespace name ns)) ;;;
                forM (findTags p (B "@property-read")) (doc_property d p (SetNamespace name ns)) ;;;
                forM (findTags p (B "@property-write")) (doc_property d p (SetNamespace name ns)) ;;;
                forM (findTags p (B "@method")) (doc_method d p (SetNamespace name ns))
            | None => ret tt
            end) any).
      { destruct doc as [p|]; [|apply sp_ret]. specialize (D p eq_refl).
        assert (P : forall nm, spec d hn (S i) (forM (findTags p nm) (doc_property d p (SetNamespace name ns))) any).
        { intros nm. apply spec_forM. intros tg Tg. exact (sp_doc_property d hn (S i) p _ nm tg D Tg). }
        next (P (B "@property")). intros _ _. next (P (B "@property-read")). intros _ _. next (P (B "@property-write")). intros _ _.
        apply spec_forM. intros tg Tg. exact (sp_doc_method d hn (S i) p _ _ tg D Tg). }
      destruct a. destruct g4 as (I4 & C4 & W4). destruct (spec_Post _ _ _ _ _ _ _ _ Sp I4 (class_at_length _ _ _ _ _ W4) X) as (P & _).
      pose proof (class_at_Post d _ _ _ _ _ _ _ W4 P) as W5. destruct P as (_ & _ & _ & _ & Pn & I5).
      split; [exact I5|split; [|exact W5]]. rewrite Pn; [exact C4|]. exact (no_namespace hn (inside_below hn Ih)). }
    destruct g' as (I' & Cn' & W'). split; [exact I'|split; [exact Cn'|]]. revert W'. apply class_at_weaken. intros x -> nm Ex Pl. rewrite Hmk.
    assert (text = nm) as -> by congruence. rewrite (plain_type nm Pl) in Nt. injection Nt as <-. exact (plain_namespace nm ns Pl).
Qed.
Lemma trait_header_names : forall fuel ks hk0, let hn := Ph PhTraitDeclarationHeader ks in (forall nm, mk nm = TS (qualify ns nm) nm 0) ->
  inside_cls hn -> height hn <= S fuel ->
  tri (hd_state (called hk0)) (trait_header d i ks) (fun _ => hd_state (called (hk0 ++ ks))).
Proof.
  intros fuel ks hk0 hn Hmk Ih Hh. assert (Rh : below hn root) by exact (below_trans _ _ _ (inside_below hn Ih) Rc).
  pose proof (inner_own hn _ ks eq_refl) as U.
  apply (header_names hn); [exact Ih| |].
  - intros N c C T. refine (w_trait_header d hn Rh i i kd rg N (le_n i) [c] _ _).
    + intros x [<-|[]]. exact (U c C).
    + intros t x y z [->|[]] Tt. rewrite (token_is_name t Tt) in T. discriminate T.
  - intros N t C T s a s' g X. rewrite T in X. step X text s1 F1. apply tokenText_done in F1. destruct F1 as (Tx & ->).
    step X name s2 F2. apply lift_done in F2. destruct F2 as (Nt & ->). step X nsp s3 F3. apply namespace_done in F3. destruct F3 as (-> & C3 & D3 & O3 & N3).
    apply (hd_same _ _ _ C3 N3 D3) in g. pose proof (change_name _ _ _ _ _ _ g (fun _ => eq_refl) X) as g4.
    destruct g as (_ & Cn & _). rewrite N3 in Cn. rewrite Cn in *.
    destruct g4 as (I' & Cn' & W'). split; [exact I'|split; [exact Cn'|]]. revert W'. apply class_at_weaken. intros x -> nm Ex Pl. rewrite Hmk.
    assert (text = nm) as -> by congruence. rewrite (plain_type nm Pl) in Nt. injection Nt as <-. exact (plain_namespace nm ns Pl).
Qed.
Lemma interface_header_names : forall fuel ks hk0, let hn := Ph PhInterfaceDeclarationHeader ks in (forall nm, mk nm = TS nm nm 0) ->
  inside_cls hn -> height hn <= S fuel ->
  tri (hd_state (called hk0)) (interface_header d i ks) (fun _ => hd_state (called (hk0 ++ ks))).
Proof.
  intros fuel ks hk0 hn Hmk Ih Hh. assert (Rh : below hn root) by exact (below_trans _ _ _ (inside_below hn Ih) Rc).
  pose proof (inner_own hn _ ks eq_refl) as U.
  apply (header_names hn); [exact Ih| |].
  - intros N c C T. refine (w_interface_header d hn Rh i i kd rg N (le_n i) [c] _ _).
    + intros x [<-|[]]. exact (U c C).
    + intros t x y [->|[]] Tt. rewrite (token_is_name t Tt) in T. discriminate T.
  - intros N t C T s a s' g X. rewrite T in X. step X text s1 F1. apply tokenText_done in F1. destruct F1 as (Tx & ->).
    step X name s2 F2. apply lift_done in F2. destruct F2 as (Nt & ->). pose proof (change_name _ _ _ _ _ _ g (fun _ => eq_refl) X) as g4.
    destruct g4 as (I' & Cn' & W'). split; [exact I'|split; [exact Cn'|]]. revert W'. apply class_at_weaken. intros x -> nm Ex Pl. rewrite Hmk.
    assert (text = nm) as -> by congruence. rewrite (plain_type nm Pl) in Nt. congruence.
Qed.

(** *** The parts of a class *)
Hypothesis Kind : kd = AClass \/ kd = AInterface \/ kd = ATrait.
Hypothesis Iface : node_type cls <> Some PhInterfaceDeclaration -> kd <> AInterface.
Lemma class_loop : forall fuel cty kids hty bty (hdr : list node -> M unit) nm s s',
  cls = Ph cty kids -> height cls <= S fuel ->
  (forall ty, hty ty = true -> ty = PhClassDeclarationHeader \/ ty = PhInterfaceDeclarationHeader \/ ty = PhTraitDeclarationHeader) ->
  (forall ty, bty ty = true -> ty = PhClassDeclarationBody \/ ty = PhInterfaceDeclarationBody \/ ty = PhTraitDeclarationBody) ->
  (forall ty ks, hty ty = true -> In (Ph ty ks) kids -> spec_with d (class_at i kd rg (fun _ => True)) (Ph ty ks) i (hdr ks) any) ->
  (forall ty ks hk0, hty ty = true -> In (Ph ty ks) kids -> tri (hd_state (called hk0)) (hdr ks) (fun _ => hd_state (called (hk0 ++ ks)))) ->
  text_at d (last_of name_token (header_kids hty kids)) = Some nm -> plain_name nm -> mkname = mk nm ->
  env (called []) s -> st_out s = [] ->
  forM kids (fun c => match c with Ph ty ks => if hty ty then hdr ks else if bty ty then forM ks (scanNode d fuel) else ret tt | _ => ret tt end) s = Done tt s' ->
  env (called (header_kids hty kids)) s' /\ exists segs, st_out s' = concat segs /\ Forall2 (member_reported d cls fqn) (class_parts hty bty kids) segs.
Proof.
  intros fuel cty kids hty bty hdr nm s s' Ec Hc Hh Hb Sp Nm Tn Pl Em ev O X.
  refine (tri_forM _ kids _ (fun pre s => env (called (header_kids hty pre)) s /\ exists segs, st_out s = concat segs /\ Forall2 (member_reported d cls fqn) (class_parts hty bty pre) segs) _ s tt s' _ X).
  2: { split; [exact ev|]. exists []. split; [exact O|constructor]. }
  clear X. intros pre c post E st u st' (ev1 & segs & O1 & F1) X.
  assert (C : In c kids) by (rewrite E; apply in_elt). assert (Cc : In c (node_kids cls)) by (rewrite Ec; exact C).
  assert (Ic : inside_cls c) by (exists c; split; [exact Cc|apply below_here]).
  unfold class_parts. rewrite flat_map_app. cbn [flat_map]. rewrite app_nil_r. fold (class_parts hty bty pre).
  assert (Skip : (forall ty ks, c = Ph ty ks -> hty ty = false) -> st = st' -> env (called (header_kids hty (pre ++ [c]))) st' /\
     exists segs, st_out st' = concat segs /\ Forall2 (member_reported d cls fqn) (class_parts hty bty pre ++ []) segs).
  { intros N <-. rewrite header_kids_other by exact N. split; [exact ev1|]. exists segs. rewrite app_nil_r. auto. }
  destruct c as [ty ks|t|w]; [|done X; apply Skip; [discriminate|reflexivity]|done X; apply Skip; [discriminate|reflexivity]].
  destruct (hty ty) eqn:Th; [|destruct (bty ty) eqn:Tb].
  - (* the header *)
    rewrite (header_kids_header _ _ _ _ Th). destruct ev1 as (I1 & C1 & W1 & L1).
    pose proof (Nm ty ks (header_kids hty pre) Th C st u st' (conj I1 (conj C1 W1)) X) as (I2 & C2 & W2).
    pose proof (class_at_length _ _ _ _ _ W1) as Li. destruct u.
    destruct (with_Post _ _ _ _ _ _ _ _ _ (Sp ty ks Th C) I1 (class_at_weaken _ _ _ (fun _ _ => I) W1) ltac:(lia) X) as (P & _ & _).
    split. { split; [exact I2|split; [exact C2|split; [exact W2|]]]. intros S. destruct P as (_ & _ & _ & Pc & _). rewrite Pc; [exact (L1 S)|]. exact (no_class _ _ (proj1 S) Cc (below_here _)). }
    destruct P as ((new & O2 & F2) & _). exists (segs ++ [new]). rewrite concat_app. cbn [concat]. rewrite app_nil_r, O2, O1. split; [reflexivity|].
    apply Forall2_app; [exact F1|]. constructor; [|constructor]. destruct (Hh ty Th) as [-> |[-> | ->]]; exact F2.
  - (* the body *)
    rewrite header_kids_other by (intros ty' ks' Z; injection Z as <- <-; exact Th).
    assert (Named : forall x, called (header_kids hty pre) x -> simple_class cls -> x = mkname).
    { intros x H (_ & S). rewrite Em. apply H; [|exact Pl]. rewrite <- Tn, E. f_equal. f_equal. unfold header_kids at 2. rewrite flat_map_app. fold (header_kids hty pre).
      cbn [flat_map]. rewrite Th. replace (flat_map _ post) with (@nil node); [rewrite app_nil_r; reflexivity|]. symmetry.
      assert (Q : forall k, In k post -> match node_type k with Some (PhClassDeclarationHeader | PhInterfaceDeclarationHeader | PhTraitDeclarationHeader) => False | _ => True end).
      { intros k Ik. apply (S pre (Ph ty ks) post k); [rewrite Ec; exact E|exact Ik|]. destruct (Hb ty Tb) as [-> |[-> | ->]]; exact I. }
      clear -Q Hh. induction post as [|k post IH]; [reflexivity|]. cbn [flat_map]. rewrite IH by (intros x X; apply Q; right; exact X). rewrite app_nil_r.
      specialize (Q k (or_introl eq_refl)). destruct k as [ty ks|t|u]; try reflexivity. destruct (hty ty) eqn:T; [|reflexivity]. destruct (Hh ty T) as [-> |[-> | ->]]; destruct Q. }
    destruct (yields_forM _ _ (env (called (header_kids hty pre))) (member_reported d cls fqn) ks (scanNode d fuel) member_nodes) with (s := st) (a := u) (s' := st') as (ev2 & segs2 & O2 & F2).
    + intros x Ix. apply yields_member; try assumption.
      * exact (inside_trans _ _ Ic (below_child ty ks x Ix)).
      * pose proof (kid_height ty ks x Ix). pose proof (kid_height cty kids _ C). rewrite <- Ec in *. lia.
    + exact ev1.
    + exact X.
    + split; [exact ev2|]. exists (segs ++ segs2). rewrite concat_app, O2, O1. split; [reflexivity|]. apply Forall2_app; assumption.
  - done X. apply Skip; [|reflexivity]. intros ty' ks' Z. injection Z as <- <-. exact Th.
Qed.
End Class.
Lemma with_under : forall W m n k A (x : M A) Q, below m n -> spec_with d W m k x Q -> spec_with d W n k x Q.
Proof.
  intros W m n k A x Q Bl H s I w L. specialize (H s I w L). destruct (x s) as [a s'| |]; try exact H. destruct H as (P & H). split; [|exact H].
  exact (Post_mono d m n k k s s' Bl (le_n k) P).
Qed.
Lemma forM_ext : forall A (l : list A) (f g : A -> M unit), (forall x s, In x l -> f x s = g x s) -> forall s, forM l f s = forM l g s.
Proof.
  induction l as [|x l IH]; intros f g H s; [reflexivity|]. cbn [forM]. unfold bind. rewrite (H x s (or_introl eq_refl)). destruct (g x s) as [u s1| |]; [|reflexivity|reflexivity].
  apply IH. intros y t Y. apply H. right. exact Y.
Qed.
Lemma class_run : forall fuel cls cty kids hty bty (hdr : list node -> M unit) (f : node -> M unit) kd mk ns i rg s r s',
  cls = Ph cty kids -> below cls root -> (forall m, below m cls -> ~ is_namespace_node m) -> height cls <= S fuel ->
  kd = AClass \/ kd = AInterface \/ kd = ATrait -> (node_type cls <> Some PhInterfaceDeclaration -> kd <> AInterface) ->
  (forall ty, hty ty = true -> ty = PhClassDeclarationHeader \/ ty = PhInterfaceDeclarationHeader \/ ty = PhTraitDeclarationHeader) ->
  (forall ty, bty ty = true -> ty = PhClassDeclarationBody \/ ty = PhInterfaceDeclarationBody \/ ty = PhTraitDeclarationBody) ->
  (forall ty ks, hty ty = true -> In (Ph ty ks) kids -> spec_with d (class_at i kd rg (fun _ => True)) (Ph ty ks) i (hdr ks) any) ->
  (forall ty ks hk0, hty ty = true -> In (Ph ty ks) kids -> tri (hd_state ns i kd rg (called mk hk0)) (hdr ks) (fun _ => hd_state ns i kd rg (called mk (hk0 ++ ks)))) ->
  (forall nm, plain_name nm -> ts_fqn (SetNamespace (mk nm) ns) = qualify ns nm /\ (kd = AClass \/ kd = ATrait -> ts_fqn (mk nm) = qualify ns nm)) ->
  (forall c s, f c s = match c with Ph ty ks => if hty ty then hdr ks else if bty ty then forM ks (scanNode d fuel) else ret tt | _ => ret tt end s) ->
  Inv d s -> current_ns s = ns -> class_at i kd rg (fun _ => True) s -> length (st_classes s) = S i ->
  in_block None (forM kids f) s = Done r s' ->
  hd_state ns i kd rg (fun _ => True) s' /\ st_out s' = st_out s /\
  forall nm, text_at d (last_of name_token (header_kids hty kids)) = Some nm -> plain_name nm ->
    hd_state ns i kd rg (fun x => x = mk nm) s' /\
    exists segs, snd r = concat segs /\ Forall2 (member_reported d cls (qualify ns nm)) (class_parts hty bty kids) segs.
Proof.
  intros fuel cls cty kids hty bty hdr f kd mk ns i rg s r s' Ec Rc NoNs Hc Kind Iface Hh Hb Sp Nm Mk Ext I0 C0 W0 L0 E.
  apply block_done in E. destruct E as (t & X & Er & ->). destruct r as (u, out). destruct u. cbn [fst snd] in *. subst out.
  rewrite (forM_ext _ _ _ _ (fun c s _ => Ext c s)) in X.
  set (s0 := St [] None (st_classes s) (st_imports s) (st_doc s) (st_vars s)) in X.
  assert (I1 : Inv d s0) by exact I0. assert (W1 : class_at i kd rg (fun _ => True) s0) by (revert W0; apply class_at_classes; reflexivity).
  assert (Back : forall N, hd_state ns i kd rg N t -> hd_state ns i kd rg N (St (st_out s) (st_block s) (st_classes t) (st_imports t) (st_doc t) (st_vars t))).
  { intros N. apply hd_same; reflexivity. }
  split; [|split; [reflexivity|]].
  - apply Back. destruct (rec_of fuel cls Rc Hc) as (R1 & _). pose proof (inner_own cls _ kids Ec) as U.
    assert (Spec : spec_with d (class_at i kd rg (fun _ => True)) cls i (forM kids (fun c => match c with Ph ty ks => if hty ty then hdr ks else if bty ty then forM ks (scanNode d fuel) else ret tt | _ => ret tt end)) any).
    { apply with_forM. intros c C. destruct c as [ty ks|tk|e]; try apply (w_ret d cls i i). destruct (hty ty) eqn:Th; [|destruct (bty ty); [|apply (w_ret d cls i i)]].
      - refine (with_under _ _ _ _ _ _ _ (proj1 (U _ C)) (Sp ty ks Th C)).
      - apply (w_any d cls i i _ _ _ (le_n i)). exact (sp_scanForChildren d (scanNode d fuel) cls R1 (S i) ks (inner_deeper _ _ _ _ U C)). }
    destruct (with_Post _ _ _ _ _ _ _ _ _ Spec I1 W1 ltac:(cbn; lia) X) as (P & W' & _). destruct P as (_ & _ & _ & _ & Pn & I').
    split; [exact I'|split; [|exact W']]. rewrite Pn; [exact C0|]. exact (no_namespace cls NoNs cls (below_here cls)).
  - intros nm Tn Pl. destruct (Mk nm Pl) as (M1 & M2).
    destruct (class_loop cls ns (qualify ns nm) i kd rg (mk nm) Rc NoNs M1 M2 mk Kind Iface fuel cty kids hty bty hdr nm s0 t Ec Hc Hh Hb Sp Nm Tn Pl eq_refl) as (ev & segs & O & F).
    + split; [exact I1|split; [exact C0|split; [|intros _; exact L0]]]. revert W1. apply class_at_weaken. intros x _ nm' Z. discriminate Z.
    + reflexivity.
    + exact X.
    + split; [|exists segs; split; assumption]. apply Back. destruct ev as (I' & C' & W' & _). split; [exact I'|split; [exact C'|]]. revert W'. apply class_at_weaken.
      intros x H. exact (H nm Tn Pl).
Qed.

Lemma class_symbol_done : forall i kd rg (N : type_string -> Prop) doc s a s', class_at i kd rg N s -> class_symbol i doc s = Done a s' ->
  s' = s /\ a_kind a = kd /\ a_range a = rg /\ N (a_name a).
Proof.
  intros i kd rg N doc s a s' (c & E & K & R & X) F. unfold class_symbol in F. step F l s1 G. injection G as <- <-. rewrite E in F. done F. cbn. auto.
Qed.
Lemma class_added : forall c s i s', addClass c s = Done i s' ->
  i = length (st_classes s) /\ class_at i (c_kind c) (c_range c) (fun x => True) s' /\ length (st_classes s') = S i /\ st_doc s' = st_doc s /\ current_ns s' = current_ns s /\ st_out s' = st_out s.
Proof.
  intros c s i s' E. injection E as <- <-. split; [reflexivity|split; [|split; [|auto]]].
  - exists c. cbn [st_classes]. rewrite nth_error_app2, Nat.sub_diag by lia. auto.
  - cbn [st_classes]. rewrite app_length. cbn. lia.
Qed.
Lemma doc_done : forall r s doc s', Inv d s -> getValidPhpDoc r s = Done doc s' -> s' = s /\ forall p, doc = Some p -> doc_ok d p.
Proof.
  intros r s doc s' I E. assert (s' = s) as -> by (unfold getValidPhpDoc in E; step E l s1 F; injection F as <- <-; done E; reflexivity).
  split; [reflexivity|]. destruct (spec_Post (d_root d) 0 _ _ _ s doc s (sp_getValidPhpDoc d (d_root d) 0 r) I (Nat.le_0_l _) E) as (_ & D). intros p X. exact (proj1 (D p X)).
Qed.
Definition class_reported (ns : gostr) (n : node) (k : akind) (s s' : state) : Prop :=
  exists a inside, st_out s' = st_out s ++ [ASym a inside] /\ a_kind a = k /\ a_range a = NodeRange d n /\
    forall name, name_of d n = Some name -> plain_name name -> a_name a = TS (qualify ns name) name 0 /\
      exists segs, inside = concat segs /\ Forall2 (member_reported d n (qualify ns name)) (parts n) segs.
Lemma Inv_doc : forall s s', st_doc s' = st_doc s -> Inv d s -> Inv d s'.
Proof. intros s s' D I p X. rewrite D in X. exact (I p X). Qed.

Lemma exact_class : forall fuel kids s s', let n := Ph PhClassDeclaration kids in
  below n root -> height n <= S fuel -> (forall m, below m n -> ~ is_namespace_node m) -> Inv d s ->
  newClass d (scanNode d fuel) (scanForExpression d fuel) n kids s = Done tt s' -> class_reported (current_ns s) n AClass s s'.
Proof.
  intros fuel kids s s' n R H NoNs I E. unfold newClass in E. cbv zeta in E. step E i s1 F1. apply class_added in F1. destruct F1 as (Ei & W1 & L1 & D1 & N1 & O1).
  cbn [c_kind c_range] in W1. step E doc s2 F2. apply (doc_done _ _ _ _ (Inv_doc _ _ D1 I)) in F2. destruct F2 as (-> & D).
  step E b s3 F3. match type of F3 with in_block _ (forM _ ?f0) _ = _ => set (f := f0) in F3 end. destruct (rec_of fuel n R H) as (R1 & R2).
  destruct (class_run fuel n _ kids class_header_type class_body_type (class_header d (scanNode d fuel) (scanForExpression d fuel) i doc) f AClass
    (fun nm => TS (qualify (current_ns s) nm) nm 0) (current_ns s) i (NodeRange d n) s1 b s3 eq_refl R NoNs H) as (G3 & O3 & K3); try exact F3; try assumption.
  - left. reflexivity.
  - discriminate.
  - intros ty. destruct ty; try discriminate. left. reflexivity.
  - intros ty. destruct ty; try discriminate. left. reflexivity.
  - intros ty ks T C. assert (ty = PhClassDeclarationHeader) as -> by (destruct ty; try discriminate; reflexivity).
    assert (Bh : below (Ph PhClassDeclarationHeader ks) n) by exact (below_child _ _ _ C).
    assert (Hk : height (Ph PhClassDeclarationHeader ks) <= S fuel) by (pose proof (kid_height PhClassDeclaration kids _ C); subst n; lia).
    destruct (rec_of fuel (Ph PhClassDeclarationHeader ks) (below_trans _ _ _ Bh R) Hk) as (R3 & R4).
    refine (w_class_header d _ _ _ (below_trans _ _ _ Bh R) R3 R4 i i AClass _ _ (le_n i) doc ks (inner_own _ _ _ eq_refl) D _). auto.
  - intros ty ks hk0 T C. assert (ty = PhClassDeclarationHeader) as -> by (destruct ty; try discriminate; reflexivity).
    refine (class_header_names n (current_ns s) i AClass _ R NoNs _ fuel doc ks hk0 (fun _ => eq_refl) _ _ D).
    + exists (Ph PhClassDeclarationHeader ks). split; [exact C|apply below_here].
    + pose proof (kid_height PhClassDeclaration kids _ C). subst n. lia.
  - intros nm Pl. split; [rewrite qualified_namespace; reflexivity|reflexivity].
  - intros c st. destruct c as [ty ks|t|u]; try reflexivity. destruct ty; reflexivity.
  - exact (Inv_doc _ _ D1 I).
  - destruct G3 as (I3 & C3 & W3). step E a s4 F4. pose proof (class_symbol_done _ _ _ _ _ _ _ _ W3 F4) as (-> & Ka & Ra & _).
    apply emit_done in E. subst s'. exists a, (snd b). cbn [st_out]. rewrite O3, O1. split; [reflexivity|split; [exact Ka|split; [exact Ra|]]].
    intros nm Tn Pl. destruct (K3 nm Tn Pl) as ((_ & _ & Wn) & Segs). pose proof (class_symbol_done _ _ _ _ _ _ _ _ Wn F4) as (_ & _ & _ & ->). split; [reflexivity|exact Segs].
Qed.
Lemma exact_trait : forall fuel kids s s', let n := Ph PhTraitDeclaration kids in
  below n root -> height n <= S fuel -> (forall m, below m n -> ~ is_namespace_node m) -> Inv d s ->
  newTrait d (scanNode d fuel) n kids s = Done tt s' -> class_reported (current_ns s) n ATrait s s'.
Proof.
  intros fuel kids s s' n R H NoNs I E. unfold newTrait in E. cbv zeta in E. step E i s1 F1. apply class_added in F1. destruct F1 as (Ei & W1 & L1 & D1 & N1 & O1).
  cbn [c_kind c_range] in W1.
  step E b s3 F3. match type of F3 with in_block _ (forM _ ?f0) _ = _ => set (f := f0) in F3 end. destruct (rec_of fuel n R H) as (R1 & R2).
  destruct (class_run fuel n _ kids trait_header_type trait_body_type (trait_header d i) f ATrait
    (fun nm => TS (qualify (current_ns s) nm) nm 0) (current_ns s) i (NodeRange d n) s1 b s3 eq_refl R NoNs H) as (G3 & O3 & K3); try exact F3; try assumption.
  - right. right. reflexivity.
  - discriminate.
  - intros ty. destruct ty; try discriminate. right. right. reflexivity.
  - intros ty. destruct ty; try discriminate. right. right. reflexivity.
  - intros ty ks T C. assert (ty = PhTraitDeclarationHeader) as -> by (destruct ty; try discriminate; reflexivity).
    assert (Bh : below (Ph PhTraitDeclarationHeader ks) n) by exact (below_child _ _ _ C).
    refine (w_trait_header d _ (below_trans _ _ _ Bh R) i i ATrait _ _ (le_n i) ks (inner_own _ _ _ eq_refl) _). auto.
  - intros ty ks hk0 T C. assert (ty = PhTraitDeclarationHeader) as -> by (destruct ty; try discriminate; reflexivity).
    refine (trait_header_names n (current_ns s) i ATrait _ R NoNs _ fuel ks hk0 (fun _ => eq_refl) _ _).
    + exists (Ph PhTraitDeclarationHeader ks). split; [exact C|apply below_here].
    + pose proof (kid_height PhTraitDeclaration kids _ C). subst n. lia.
  - intros nm Pl. split; [rewrite qualified_namespace; reflexivity|reflexivity].
  - intros c st. destruct c as [ty ks|t|u]; try reflexivity. destruct ty; reflexivity.
  - exact (Inv_doc _ _ D1 I).
  - destruct G3 as (I3 & C3 & W3). step E a s4 F4. pose proof (class_symbol_done _ _ _ _ _ _ _ _ W3 F4) as (-> & Ka & Ra & _).
    apply emit_done in E. subst s'. exists a, (snd b). cbn [st_out]. rewrite O3, O1. split; [reflexivity|split; [exact Ka|split; [exact Ra|]]].
    intros nm Tn Pl. destruct (K3 nm Tn Pl) as ((_ & _ & Wn) & Segs). pose proof (class_symbol_done _ _ _ _ _ _ _ _ Wn F4) as (_ & _ & _ & ->). split; [reflexivity|exact Segs].
Qed.
Lemma exact_interface : forall fuel kids s s', let n := Ph PhInterfaceDeclaration kids in
  below n root -> height n <= S fuel -> (forall m, below m n -> ~ is_namespace_node m) -> Inv d s ->
  newInterface d (scanNode d fuel) n kids s = Done tt s' -> class_reported (current_ns s) n AInterface s s'.
Proof.
  intros fuel kids s s' n R H NoNs I E. unfold newInterface in E. cbv zeta in E. step E i s1 F1. apply class_added in F1. destruct F1 as (Ei & W1 & L1 & D1 & N1 & O1).
  cbn [c_kind c_range] in W1. step E doc s2 F2. apply (doc_done _ _ _ _ (Inv_doc _ _ D1 I)) in F2. destruct F2 as (-> & D).
  step E b s3 F3. match type of F3 with in_block _ (forM _ ?f0) _ = _ => set (f := f0) in F3 end. destruct (rec_of fuel n R H) as (R1 & R2).
  destruct (class_run fuel n _ kids interface_header_type interface_body_type (interface_header d i) f AInterface
    (fun nm => TS nm nm 0) (current_ns s) i (NodeRange d n) s1 b s3 eq_refl R NoNs H) as (G3 & O3 & K3); try exact F3; try assumption.
  - right. left. reflexivity.
  - intros Z. destruct (Z eq_refl).
  - intros ty. destruct ty; try discriminate. right. left. reflexivity.
  - intros ty. destruct ty; try discriminate. right. left. reflexivity.
  - intros ty ks T C. assert (ty = PhInterfaceDeclarationHeader) as -> by (destruct ty; try discriminate; reflexivity).
    assert (Bh : below (Ph PhInterfaceDeclarationHeader ks) n) by exact (below_child _ _ _ C).
    refine (w_interface_header d _ (below_trans _ _ _ Bh R) i i AInterface _ _ (le_n i) ks (inner_own _ _ _ eq_refl) _). auto.
  - intros ty ks hk0 T C. assert (ty = PhInterfaceDeclarationHeader) as -> by (destruct ty; try discriminate; reflexivity).
    refine (interface_header_names n (current_ns s) i AInterface _ R NoNs _ fuel ks hk0 (fun _ => eq_refl) _ _).
    + exists (Ph PhInterfaceDeclarationHeader ks). split; [exact C|apply below_here].
    + pose proof (kid_height PhInterfaceDeclaration kids _ C). subst n. lia.
  - intros nm Pl. rewrite (plain_namespace _ _ Pl). split; [reflexivity|]. intros [Z|Z]; discriminate Z.
  - intros c st. destruct c as [ty ks|t|u]; try reflexivity. destruct ty; reflexivity.
  - exact (Inv_doc _ _ D1 I).
  - step E nsp s4 F4. apply namespace_done in F4. destruct F4 as (-> & C4 & D4 & O4 & N4).
    step E u5 s5 F5. assert (Chg : forall (N M : type_string -> Prop), (forall x, N x -> M (SetNamespace x (current_ns s))) ->
      hd_state (current_ns s) i AInterface (NodeRange d n) N s3 -> class_at i AInterface (NodeRange d n) M s5).
    { intros N M NM (I3 & C3 & W3). apply (class_at_classes _ _ _ _ _ s4 (eq_sym C4)) in W3. destruct W3 as (c & Ec & Kc & Rg & Nc). injection F5 as _ <-.
      eexists. cbn [st_classes]. rewrite nth_update, Nat.eqb_refl, Ec. cbn. rewrite C3. split; [reflexivity|]. cbn. auto. }
    assert (O5 : st_out s5 = st_out s4) by (injection F5 as _ <-; reflexivity).
    step E a s6 F6. pose proof (class_symbol_done _ _ _ _ _ _ _ _ (Chg _ (fun _ => True) (fun _ _ => Logic.I) G3) F6) as (-> & Ka & Ra & _).
    apply emit_done in E. subst s'. exists a, (snd b). cbn [st_out]. rewrite O5, O4, O3, O1. split; [reflexivity|split; [exact Ka|split; [exact Ra|]]].
    intros nm Tn Pl. destruct (K3 nm Tn Pl) as (Wn & Segs). split; [|exact Segs].
    assert (Fin : forall x, x = TS nm nm 0 -> SetNamespace x (current_ns s) = TS (qualify (current_ns s) nm) nm 0) by (intros x ->; rewrite (plain_namespace _ _ Pl); reflexivity).
    exact (proj2 (proj2 (proj2 (class_symbol_done _ _ _ _ _ _ _ _ (Chg _ (fun y => y = TS (qualify (current_ns s) nm) nm 0) Fin Wn) F6)))).
Qed.

(** ** Functions and constants *)
Definition type_named (ks : list node) (can_be : node -> bool) (x : type_string) : Prop :=
  forall nm, text_at d (last_of can_be ks) = Some nm -> NewTypeString nm = Some x.
Lemma function_header_named : forall ks0 ks s0, tri (fun _ => type_named ks0 name_or_identifier (sg_name s0)) (function_header d s0 ks) (fun s _ => type_named (ks0 ++ ks) name_or_identifier (sg_name s)).
Proof.
  intros ks0 ks s0. unfold function_header.
  refine (tri_weaken _ _ (fun _ => type_named (ks0 ++ []) name_or_identifier (sg_name s0)) _ _ _ _ (fun a s X => X)
    (tri_foldM _ _ ks _ s0 (fun pre s _ => type_named (ks0 ++ pre) name_or_identifier (sg_name s)) _)).
  { intros _ X. rewrite app_nil_r. exact X. }
  intros pre c post s E st a st' Nm Ed. rewrite app_assoc. set (l := ks0 ++ pre) in *. unfold type_named. rewrite last_of_snoc.
  destruct c as [ty cs|t|u]; [| |done Ed; exact Nm].
  - destruct ty; try (done Ed; exact Nm).
    + step Ed ps s1 F. done Ed. exact Nm.
    + step Ed x s1 F. apply phraseText_done in F. destruct F as (Tx & ->). step Ed y s2 F. apply lift_done in F. destruct F as (Ty & ->). done Ed.
      cbn [name_or_identifier name_token identifier orb text_at sg_name]. intros nm X. congruence.
  - destruct (t_type t) eqn:T; try (rewrite (token_not_name_or t) by (rewrite T; discriminate); done Ed; exact Nm).
    rewrite (token_name_or t T). step Ed x s1 F. apply tokenText_done in F. destruct F as (Tx & ->). step Ed y s2 F. apply lift_done in F. destruct F as (Ty & ->). done Ed.
    cbn [text_at sg_name]. intros nm X. congruence.
Qed.
Lemma var_same : forall op s u s', var_do op s = Done u s' -> st_out s' = st_out s /\ current_ns s' = current_ns s.
Proof. intros op s u s' E. injection E as _ <-. auto. Qed.
Lemma named_fqn : forall x nm ns, NewTypeString nm = Some x -> plain_name nm -> SetNamespace x ns = TS (qualify ns nm) nm 0.
Proof. intros x nm ns E P. rewrite (plain_type nm P) in E. injection E as <-. rewrite (plain_namespace nm ns P). reflexivity. Qed.
Definition declared (n : node) (k : akind) (s s' : state) : Prop :=
  exists a inside, st_out s' = st_out s ++ [ASym a inside] /\ a_kind a = k /\ a_range a = NodeRange d n /\
    forall name, name_of d n = Some name -> plain_name name -> a_name a = TS (qualify (current_ns s') name) name 0.
Lemma exact_function : forall scan kids s s', let n := Ph PhFunctionDeclaration kids in newFunction d scan n kids s = Done tt s' -> declared n AFunction s s'.
Proof.
  intros scan kids s s' n E. unfold newFunction in E. cbv zeta in E. step E doc s1 F1. apply quiet_getValidPhpDoc in F1 as O1.
  step E u2 s2 F2. apply quiet_var_do in F2 as O2. step E b s3 F3. apply quiet_in_block in F3 as O3. destruct b as ((sg, types), inside).
  apply block_done in F3. destruct F3 as (t & F3 & _ & _). cbn [fst] in F3.
  assert (J : type_named (header_kids function_header_type kids) name_or_identifier (sg_name sg)).
  { refine (tri_foldM _ _ kids _ (Sig empty_ts Public false [], []) (fun pre (r : signature * type_composite) _ => type_named (header_kids function_header_type pre) name_or_identifier (sg_name (fst r))) _ _ _ _ _ F3).
    - clear. intros pre c post (sg, ts) Ek st r st' Jp X. cbn [fst] in *.
      assert (K : (forall ty ks, c = Ph ty ks -> function_header_type ty = false) -> fst r = sg -> type_named (header_kids function_header_type (pre ++ [c])) name_or_identifier (sg_name (fst r))).
      { intros H ->. rewrite header_kids_other by exact H. exact Jp. }
      destruct c as [ty ks|tk|u]; try (done X; apply K; [other|reflexivity]). destruct ty; try (done X; apply K; [other|reflexivity]).
      + step X sg' st1 Y1. step X u1 st2 Y2. step X ts' st3 Y3. done X. cbn [fst]. rewrite header_kids_header by reflexivity.
        exact (function_header_named _ ks sg st sg' st1 Jp Y1).
      + step X u st1 Y. done X. apply K; [other|reflexivity].
    - cbn [fst]. intros nm X. discriminate X. }
  step E ns s4 F4. apply namespace_done in F4. destruct F4 as (-> & _ & _ & O4 & N4). step E u5 s5 F5. apply var_same in F5. destruct F5 as (O5 & N5).
  apply emit_done in E. subst s'. eexists _, inside. cbn [st_out]. split; [rewrite O5, O4, O3, O2, O1; reflexivity|].
  cbn [a_kind a_range a_name]. split; [reflexivity|split; [reflexivity|]]. intros nm Tn Pl. unfold current_ns, current_table. cbn [st_imports]. fold (current_table s5). fold (current_ns s5).
  rewrite N5, N4. exact (named_fqn _ nm _ (J nm Tn) Pl).
Qed.
Lemma const_loop_named : forall kids pre x named eq skip value s r s', type_named pre name_token x ->
  const_loop d kids x named eq skip value s = Done r s' -> s' = s /\ type_named (pre ++ kids) name_token (fst (fst r)).
Proof.
  induction kids as [|c kids IH]; intros pre x named eq skip value s r s' Nm E; cbn [const_loop] in E; [done E; rewrite app_nil_r; auto|].
  replace (pre ++ c :: kids) with ((pre ++ [c]) ++ kids) by (rewrite <- app_assoc; reflexivity).
  assert (Same : name_token c = false -> type_named (pre ++ [c]) name_token x) by (intros T nm; rewrite last_of_snoc, T; apply Nm).
  destruct c as [ty ks|t|u]; [| |exact (IH _ _ _ _ _ _ _ _ _ (Same eq_refl) E)].
  - destruct eq; [|exact (IH _ _ _ _ _ _ _ _ _ (Same eq_refl) E)]. step E v s1 F. apply phraseText_done in F. destruct F as (_ & ->). exact (IH _ _ _ _ _ _ _ _ _ (Same eq_refl) E).
  - assert (X : t_type t <> TkName -> (if eq then v <- tokenText d t ;; const_loop d kids x named eq false (value ++ v) else const_loop d kids x named eq false value) s = Done r s' ->
      s' = s /\ type_named ((pre ++ [Tk t]) ++ kids) name_token (fst (fst r))).
    { intros T Y. destruct eq; [|exact (IH _ _ _ _ _ _ _ _ _ (Same (token_not_name t T)) Y)]. step Y v s1 F. apply tokenText_done in F. destruct F as (_ & ->).
      exact (IH _ _ _ _ _ _ _ _ _ (Same (token_not_name t T)) Y). }
    destruct (t_type t) eqn:T; try (apply X; [discriminate|exact E]).
    + step E v s1 F. apply tokenText_done in F. destruct F as (Tx & ->). step E y s2 F. apply lift_done in F. destruct F as (Ty & ->).
      refine (IH _ _ _ _ _ _ _ _ _ _ E). intros nm. rewrite last_of_snoc, (token_is_name t T). cbn [text_at]. intros Z. congruence.
    + destruct skip; [|apply X; [discriminate|exact E]]. refine (IH _ _ _ _ _ _ _ _ _ (Same (token_not_name t _)) E). rewrite T. discriminate.
    + refine (IH _ _ _ _ _ _ _ _ _ (Same (token_not_name t _)) E). rewrite T. discriminate.
Qed.
Lemma exact_const : forall kids s s', let n := Ph PhConstElement kids in newConst d n kids s = Done tt s' -> declared n AConst s s'.
Proof.
  intros kids s s' n E. unfold newConst in E. cbv zeta in E. step E doc s1 F1. apply quiet_getValidPhpDoc in F1 as O1. step E r s2 F2.
  apply (const_loop_named kids []) in F2; [|intros nm X; discriminate X]. destruct F2 as (-> & J). destruct r as ((x, nmd), value). cbn [fst app] in J.
  step E ns s3 F3. apply namespace_done in F3. destruct F3 as (-> & _ & _ & O3 & N3). apply emit_done in E. subst s'. eexists _, []. cbn [st_out].
  split; [rewrite O3, O1; reflexivity|]. cbn [a_kind a_range a_name]. split; [reflexivity|split; [reflexivity|]]. intros nm Tn Pl.
  unfold current_ns, current_table. cbn [st_imports]. fold (current_table s3). fold (current_ns s3). rewrite N3. exact (named_fqn _ nm _ (J nm Tn) Pl).
Qed.
Lemma calls_define_true : forall kids s b s', calls_define d kids -> isDefine_loop d kids s = Done b s' -> b = true.
Proof.
  intros kids s b s' (ty & ks & x & X & Ty & Nx & Low) E. revert s E. induction kids as [|c kids IH]; intros s E; [destruct X|]. cbn [isDefine_loop] in E.
  destruct X as [->|X].
  - assert (Go : (name <- phraseText d (Ph ty ks) ;; let l := to_lower name in if str_eqb l (BSL :: B "define") || str_eqb l (B "define") then ret true else isDefine_loop d kids) s = Done b s').
    { destruct Ty as [-> | ->]; exact E. }
    step Go v s1 F. apply phraseText_done in F. destruct F as (Tx & ->). assert (v = x) as -> by (unfold named in Nx; congruence). cbv zeta in Go.
    assert (Z : str_eqb (to_lower x) (BSL :: B "define") || str_eqb (to_lower x) (B "define") = true).
    { apply orb_true_iff. destruct Low as [L|L]; [right|left]; apply str_eqb_eq; exact L. }
    rewrite Z in Go. done Go. reflexivity.
  - destruct c as [ty' ks'|t|u]; try exact (IH X s E). destruct ty'; try exact (IH X s E).
    all: step E v s1 F; apply lift_done in F; destruct F as (_ & ->); cbv zeta in E; destruct (_ || _); [done E; reflexivity|exact (IH X _ E)].
Qed.
Definition argument_lists (kids : list node) : list (list node) := flat_map (fun k => match k with Ph PhArgumentExpressionList ks => [ks] | _ => [] end) kids.
Lemma exact_define : forall scan kids s s', let n := Ph PhFunctionCallExpression kids in newDefine d scan n kids s = Done tt s' ->
  exists a inside, st_out s' = st_out s ++ [ASym a inside] /\ a_kind a = ADefine /\ a_range a = NodeRange d n /\
    forall name, quoted d (first_argument kids) name -> plain_name name -> a_name a = TS (qualify (current_ns s') name) name 0.
Proof.
  intros scan kids s s' n E. unfold newDefine in E. cbv zeta in E. step E doc s1 F1. apply quiet_getValidPhpDoc in F1 as O1.
  step E b s3 F3. apply quiet_in_block in F3 as O3. destruct b as ((x, value), inside). apply block_done in F3. destruct F3 as (t & F3 & _ & _). cbn [fst] in F3.
  assert (J : forall ks nm, argument_lists kids = [ks] -> quoted d (hd_error (List.filter is_argument ks)) nm -> NewTypeString nm = Some x).
  { refine (tri_foldM _ _ kids _ (empty_ts, []) (fun pre (r : type_string * gostr) _ => forall ks nm, argument_lists pre = [ks] -> quoted d (hd_error (List.filter is_argument ks)) nm -> NewTypeString nm = Some (fst r)) _ _ _ _ _ F3).
    - clear. intros pre c post acc Ek st r st' Jp X ks0 nm.
      assert (Al : argument_lists (pre ++ [c]) = argument_lists pre ++ argument_lists [c]) by apply flat_map_app. rewrite Al. clear Al.
      assert (K : argument_lists [c] = [] -> r = acc -> argument_lists pre ++ argument_lists [c] = [ks0] -> quoted d (hd_error (List.filter is_argument ks0)) nm -> NewTypeString nm = Some (fst r)).
      { intros Z ->. rewrite Z, app_nil_r. apply Jp. }
      destruct c as [ty ks|tk|u]; try (done X; apply K; reflexivity). destruct ty; try (done X; apply K; reflexivity). clear K.
      step X args st1 Y1. unfold newArgumentList in Y1. step Y1 b1 st2 Y2. step Y1 u3 st3 Y3. done Y1. cbn [argument_lists flat_map app]. intros Z (o & l & q1 & q2 & Q & Tx).
      assert (ks0 = ks) as -> by (destruct (argument_lists pre) as [|z0 zs]; [injection Z as ->; reflexivity|injection Z as _ Z; destruct zs; discriminate Z]).
      destruct (List.filter is_argument ks) as [|a rest]; [discriminate Q|]. injection Q as ->. unfold define_args in X. cbn [t_type] in X. step X name st4 X1. step X1 text st5 X2.
      apply tokenText_done in X2. destruct X2 as (Tx' & ->). cbn [GetNodeText] in Tx'. assert (text = q1 :: nm ++ [q2]) as -> by congruence.
      assert (Ll : length (q1 :: nm ++ [q2]) = S (S (length nm))) by (cbn; rewrite app_length; cbn; lia).
      rewrite Ll in X1. cbn [Nat.ltb Nat.leb] in X1. apply lift_done in X1. destruct X1 as (Nt & ->).
      assert (Sl : slice (q1 :: nm ++ [q2]) 1 (S (S (length nm)) - 1) = nm).
      { unfold slice. cbn [skipn]. replace (S (S (length nm)) - 1 - 1) with (length nm + 0) by lia. rewrite firstn_app_2. cbn. apply app_nil_r. }
      rewrite Sl in Nt. step X v st6 X3. done X. exact Nt.
    - intros ks nm Z. discriminate Z. }
  step E ns s4 F4. apply namespace_done in F4. destruct F4 as (-> & _ & _ & O4 & N4). apply emit_done in E. subst s'. eexists _, inside. cbn [st_out].
  split; [rewrite O4, O3, O1; reflexivity|]. cbn [a_kind a_range a_name]. split; [reflexivity|split; [reflexivity|]]. intros nm Q Pl.
  unfold current_ns, current_table. cbn [st_imports]. fold (current_table s4). fold (current_ns s4). rewrite N4. unfold first_argument in Q. fold (argument_lists kids) in Q.
  destruct (argument_lists kids) as [|ks [|? ?]] eqn:Al; try (destruct Q as (oo & ll & qq1 & qq2 & ZZ & _); discriminate ZZ). exact (named_fqn _ nm _ (J ks nm eq_refl Q) Pl).
Qed.

(** ** Statements *)
Lemma exact_single : forall fuel n s s', below n root -> height n <= fuel -> (forall m, below m n -> ~ is_namespace_node m) -> Inv d s ->
  scanNode d fuel n s = Done tt s' -> current_ns s' = current_ns s /\ Inv d s' /\ exists seg, st_out s' = st_out s ++ seg /\ reported d (current_ns s) n seg.
Proof.
  intros fuel n s s' R H NoNs I E. pose proof (scan_Post fuel n 0 s s' R H I (Nat.le_0_l _) E) as P.
  destruct P as ((new & O & F) & _ & _ & _ & Pn & I'). specialize (Pn (no_namespace n NoNs n (below_here n))).
  split; [exact Pn|split; [exact I'|]]. exists new. split; [exact O|]. split; [exact F|].
  assert (Same : forall a inside, st_out s' = st_out s ++ [ASym a inside] -> new = [ASym a inside]).
  { intros a inside X. rewrite O in X. apply app_inv_head in X. exact X. }
  destruct fuel as [|fuel]; [destruct n; cbn in H; lia|]. destruct n as [ty kids|t|u]; try exact Logic.I.
  assert (Sy : is_expr_type ty = false -> typesToScanForChildren ty = false -> ty <> PhNamespaceDefinition ->
    symbol_of d (scanNode d fuel) (scanForExpression d fuel) (Ph ty kids) ty kids s = Done tt s') by (intros; apply (scan_symbol fuel); assumption).
  Ltac finish Same Oa Ka Ra Na := eexists _, _; split; [exact (Same _ _ Oa)|split; [exact Ka|split; [exact Ra|exact Na]]].
  assert (Df : ty = PhFunctionCallExpression -> calls_define d kids -> tryToNewDefine d (scanNode d fuel) (Ph PhFunctionCallExpression kids) kids s = Done tt s').
  { intros -> Cd. cbn [scanNode] in E. unfold node_body in E. step E df s1 F1. pose proof (pure_isDefine _ _ _ _ _ F1). subst s1. pose proof (calls_define_true _ _ _ _ Cd F1). subst df.
    step E u s2 F2. done F2. exact E. }
  destruct ty; try exact Logic.I; try specialize (Sy eq_refl eq_refl ltac:(discriminate)).
  all: try (destruct (exact_class fuel kids s s' R H NoNs I Sy) as (a & inside & Oa & Ka & Ra & Na); finish Same Oa Ka Ra Na).
  all: try (destruct (exact_interface fuel kids s s' R H NoNs I Sy) as (a & inside & Oa & Ka & Ra & Na); finish Same Oa Ka Ra Na).
  all: try (destruct (exact_trait fuel kids s s' R H NoNs I Sy) as (a & inside & Oa & Ka & Ra & Na); finish Same Oa Ka Ra Na).
  all: try (destruct (exact_const kids s s' Sy) as (a & inside & Oa & Ka & Ra & Na); rewrite Pn in Na; finish Same Oa Ka Ra Na).
  all: try (destruct (exact_function _ kids s s' Sy) as (a & inside & Oa & Ka & Ra & Na); rewrite Pn in Na; finish Same Oa Ka Ra Na).
  intros Cd. specialize (Df eq_refl Cd). unfold tryToNewDefine in Df. step Df df s1 F1. pose proof (pure_isDefine _ _ _ _ _ F1). subst s1.
  pose proof (calls_define_true _ _ _ _ Cd F1). subst df. destruct (exact_define _ kids s s' Df) as (a & inside & Oa & Ka & Ra & Na). rewrite Pn in Na. finish Same Oa Ka Ra Na.
Qed.

Fixpoint walk_namespace (ns : gostr) (kids : list node) : list (gostr * node) * gostr :=
  match kids with
  | [] => ([], ns)
  | Ph PhNamespaceName _ as k :: kids => walk_namespace (text_or_nothing d k) kids
  | Ph PhStatementList _ as k :: kids => let (l, ns) := walk d ns k in let (l', ns) := walk_namespace ns kids in (l ++ l', ns)
  | _ :: kids => walk_namespace ns kids
  end.
Lemma walk_is_block : forall ns ty kids, is_block ty = true -> walk d ns (Ph ty kids) = walk_all d ns kids.
Proof.
  intros ns ty kids T. set (all := fix all (ns : gostr) (kids : list node) : list (gostr * node) * gostr :=
    match kids with
    | [] => ([], ns)
    | k :: kids => let (l, ns) := walk d ns k in let (l', ns) := all ns kids in (l ++ l', ns)
    end).
  transitivity (all ns kids); [destruct ty; try discriminate T; reflexivity|]. clear T. revert ns. induction kids as [|k kids IH]; intros ns; [reflexivity|].
  cbn [all walk_all]. destruct (walk d ns k) as (l, ns1). rewrite IH. reflexivity.
Qed.
Lemma walk_is_namespace : forall ns kids, walk d ns (Ph PhNamespaceDefinition kids) = walk_namespace [] kids.
Proof.
  intros ns kids. set (block := fix block (ns : gostr) (kids : list node) : list (gostr * node) * gostr :=
         match kids with
         | [] => ([], ns)
         | Ph PhNamespaceName _ as k :: kids => block (text_or_nothing d k) kids
         | Ph PhStatementList _ as k :: kids => let (l, ns) := walk d ns k in let (l', ns) := block ns kids in (l ++ l', ns)
         | _ :: kids => block ns kids
         end).
  transitivity (block [] kids); [reflexivity|]. generalize (@nil byte) as ns1. clear ns. induction kids as [|k kids IH]; intros ns1; [reflexivity|].
  destruct k as [ty ks|t|u]; try exact (IH _). destruct ty; try exact (IH _).
  change (block ns1 (Ph PhStatementList ks :: kids)) with (let (l, ns) := walk d ns1 (Ph PhStatementList ks) in let (l', ns) := block ns kids in (l ++ l', ns)).
  change (walk_namespace ns1 (Ph PhStatementList ks :: kids)) with (let (l, ns) := walk d ns1 (Ph PhStatementList ks) in let (l', ns) := walk_namespace ns kids in (l ++ l', ns)).
  destruct (walk d ns1 (Ph PhStatementList ks)) as (l, ns2). rewrite IH. reflexivity.
Qed.

Hypothesis Header : forall n before l after k, below n root -> is_namespace_node n ->
  node_kids n = before ++ Ph PhStatementList l :: after -> In k after -> node_type k <> Some PhNamespaceName.
Definition plain (w : list (gostr * node)) : Prop := forall ns n m, In (ns, n) w -> below m n -> ~ is_namespace_node m.
Definition walked (w : list (gostr * node) * gostr) (s s' : state) : Prop :=
  current_ns s' = snd w /\ Inv d s' /\ exists segs, st_out s' = st_out s ++ concat segs /\ Forall2 (fun p seg => reported d (fst p) (snd p) seg) (fst w) segs.
Lemma walked_single : forall ns n s s', current_ns s = ns -> (current_ns s' = current_ns s /\ Inv d s' /\ exists seg, st_out s' = st_out s ++ seg /\ reported d (current_ns s) n seg) ->
  walked ([(ns, n)], ns) s s'.
Proof.
  intros ns n s s' <- (N & I & seg & O & Rp). split; [exact N|split; [exact I|]]. exists [seg]. cbn [concat]. rewrite app_nil_r. split; [exact O|]. constructor; [exact Rp|constructor].
Qed.
Lemma walked_nil : forall s, Inv d s -> walked ([], current_ns s) s s.
Proof. intros s I. split; [reflexivity|split; [exact I|]]. exists []. cbn. rewrite app_nil_r. split; [reflexivity|constructor]. Qed.
Lemma walked_app : forall l1 ns1 l2 ns2 s1 s2 s3, walked (l1, ns1) s1 s2 -> walked (l2, ns2) s2 s3 -> walked (l1 ++ l2, ns2) s1 s3.
Proof.
  intros l1 ns1 l2 ns2 s1 s2 s3 (_ & _ & seg1 & O1 & F1) (N2 & I2 & seg2 & O2 & F2). split; [exact N2|split; [exact I2|]]. exists (seg1 ++ seg2).
  rewrite concat_app, O2, O1, <- app_assoc. split; [reflexivity|]. apply Forall2_app; assumption.
Qed.
Lemma plain_app : forall l1 l2, plain (l1 ++ l2) -> plain l1 /\ plain l2.
Proof. intros l1 l2 H. split; intros ns n m X; apply (H ns n m); apply in_or_app; [left|right]; exact X. Qed.
Lemma walk_kids : forall fuel kids, (forall k, In k kids -> forall s s', Inv d s -> plain (fst (walk d (current_ns s) k)) -> scanNode d fuel k s = Done tt s' -> walked (walk d (current_ns s) k) s s') ->
  forall s s', Inv d s -> plain (fst (walk_all d (current_ns s) kids)) -> forM kids (scanNode d fuel) s = Done tt s' -> walked (walk_all d (current_ns s) kids) s s'.
Proof.
  intros fuel kids. induction kids as [|k kids IH]; intros H s s' I P E; cbn [forM walk_all] in *; [done E; exact (walked_nil _ I)|].
  step E u s1 F. destruct u. pose proof (H k (or_introl eq_refl) s s1 I) as Hk. destruct (walk d (current_ns s) k) as (l1, ns1). cbn [fst] in *.
  destruct (walk_all d ns1 kids) as (l2, ns2) eqn:E2. cbn [fst] in P. apply plain_app in P. destruct P as (P1 & P2). specialize (Hk P1 F). pose proof Hk as (N1 & I1 & _). cbn [snd] in N1.
  refine (walked_app _ _ _ _ _ _ _ Hk _). specialize (IH (fun k X => H k (or_intror X)) s1 s' I1). rewrite N1, E2 in IH. exact (IH P2 E).
Qed.
Lemma current_pushed : forall n s i s', pushImportTable d n s = Done i s' -> length (st_imports s') = S i /\ st_out s' = st_out s /\ st_doc s' = st_doc s.
Proof.
  intros n s i s' E. unfold pushImportTable in E. step E l s1 F. injection F as <- <-. step E u s2 F. injection F as _ <-. done E. cbn [st_imports st_out st_doc].
  rewrite app_length. cbn. split; [lia|auto].
Qed.
Lemma update_length : forall A (l : list A) i f, length (update_nth l i f) = length l.
Proof. induction l as [|x l IH]; intros [|i] f; cbn; auto. Qed.
Lemma namespace_set : forall i ns s u s', length (st_imports s) = S i -> change_table i (fun t => setNamespace t ns) s = Done u s' ->
  length (st_imports s') = S i /\ st_out s' = st_out s /\ st_doc s' = st_doc s /\ current_ns s' = ns.
Proof.
  intros i ns s u s' L E. unfold change_table in E. step E l s1 F. injection F as <- <-. injection E as _ <-. cbn [st_imports st_out st_doc]. rewrite update_length.
  split; [exact L|split; [reflexivity|split; [reflexivity|]]]. unfold current_ns, current_table. cbn [st_imports]. rewrite update_length, L. replace (S i - 1) with i by lia. rewrite nth_update, Nat.eqb_refl.
  destruct (nth_error (st_imports s) i) eqn:X; [reflexivity|]. apply nth_error_None in X. lia.
Qed.
Lemma walk_scan : forall fuel n s s', below n root -> height n <= fuel -> Inv d s -> plain (fst (walk d (current_ns s) n)) -> scanNode d fuel n s = Done tt s' ->
  walked (walk d (current_ns s) n) s s'.
Proof.
  induction fuel as [|fuel IH]; intros n s s' R H I P E; [destruct n; cbn in H; lia|].
  assert (Single : walk d (current_ns s) n = ([(current_ns s, n)], current_ns s) -> walked (walk d (current_ns s) n) s s').
  { intros W. rewrite W in *. apply walked_single; [reflexivity|]. apply (exact_single (S fuel)); try assumption. intros m Bm. apply (P (current_ns s) n m); [left; reflexivity|exact Bm]. }
  destruct n as [ty kids|t|u]; try exact (Single eq_refl).
  assert (Kid : forall k s s', In k kids -> Inv d s -> plain (fst (walk d (current_ns s) k)) -> scanNode d fuel k s = Done tt s' -> walked (walk d (current_ns s) k) s s').
  { intros k t t' K. apply IH; [exact (below_trans _ _ _ (below_child ty kids k K) R)|]. pose proof (kid_height ty kids k K). lia. }
  destruct (is_block ty) eqn:Bk.
  { rewrite (walk_is_block _ _ _ Bk) in *. assert (T : typesToScanForChildren ty = true) by (destruct ty; try discriminate Bk; reflexivity).
    apply (scan_kids fuel ty kids s s' T) in E. exact (walk_kids fuel kids (fun k K t t' => Kid k t t' K) s s' I P E). }
  destruct ty; try discriminate Bk; try exact (Single eq_refl).
  - (* const *)
    apply (scan_symbol fuel) in E; [|reflexivity|reflexivity|discriminate]. cbn [symbol_of] in E. unfold newConstDeclaration in E. cbn [walk fst] in *.
    assert (Kc : forall k, In k kids -> below k root /\ height k <= fuel).
    { intros k K. split; [exact (below_trans _ _ _ (below_child _ kids k K) R)|]. pose proof (kid_height PhConstDeclaration kids k K). lia. }
    clear Kid IH Single H R. revert s I P E. induction kids as [|k kids IHk]; intros s I P E; cbn [forM flat_map] in *; [done E; exact (walked_nil _ I)|].
    apply plain_app in P. destruct P as (P1 & P2). step E u s1 F.
    assert (W : walked (match k with Ph PhConstElementList ks => map (pair (current_ns s)) ks | _ => [] end, current_ns s) s s1).
    { destruct (Kc k (or_introl eq_refl)) as (R & H). destruct k as [ty ks|t|w]; try (done F; exact (walked_nil _ I)). destruct ty; try (done F; exact (walked_nil _ I)).
      assert (Ks : forall x, In x ks -> below x root /\ height x <= fuel).
      { intros x X. split; [exact (below_trans _ _ _ (below_child _ ks x X) R)|]. pose proof (kid_height PhConstElementList ks x X). lia. }
      clear -F I P1 Ks TOK. destruct u. remember (current_ns s) as ns eqn:En. revert s En I F. induction ks as [|x ks IHs]; intros s En I F; cbn [forM map] in *.
      - unfold scanForChildren in F. cbn [forM] in F. done F. rewrite En. exact (walked_nil _ I).
      - unfold scanForChildren in F. cbn [forM] in F. step F u s2 F1. destruct u. destruct (Ks x (or_introl eq_refl)) as (R & H).
        assert (Nx : forall m, below m x -> ~ is_namespace_node m) by (intros m Bm; apply (P1 ns x m); [left; reflexivity|exact Bm]).
        pose proof (exact_single fuel x s s2 R H Nx I F1) as S1. pose proof S1 as (N1 & I1 & _).
        refine (walked_app [(ns, x)] ns _ _ s s2 s1 (walked_single ns x s s2 (eq_sym En) S1) _).
        apply IHs; [|intros y Y; apply Ks; right; exact Y|congruence|exact I1|exact F]. intros a b c Y. exact (P1 a b c (or_intror Y)). }
    pose proof W as (N1 & I1 & _). cbn [snd] in N1. refine (walked_app _ _ _ _ _ _ _ W _). rewrite <- N1. apply IHk; [intros y Y; apply Kc; right; exact Y|exact I1|rewrite N1; exact P2|exact E].
  - (* namespace *)
    rewrite walk_is_namespace in *. cbn [scanNode] in E. unfold node_body, newNamespace in E. step E i s1 F1. apply current_pushed in F1. destruct F1 as (L1 & O1 & D1).
    step E u s2 F2. destruct (namespace_set _ _ _ _ _ L1 F2) as (L2 & O2 & D2 & N2). clear F2.
    assert (Out : forall w, walked w s2 s' -> walked w s s').
    { intros w (N & I' & segs & O & F). split; [exact N|split; [exact I'|]]. exists segs. rewrite O, O2, O1. auto. }
    apply Out. clear Out O1 O2. assert (I2 : Inv d s2) by (apply (Inv_doc s); [congruence|exact I]). clear I D1 D2.
    assert (Hd : forall before l after k, kids = before ++ Ph PhStatementList l :: after -> In k after -> node_type k <> Some PhNamespaceName).
    { intros before l after k Ek K. exact (Header (Ph PhNamespaceDefinition kids) before l after k R eq_refl Ek K). }
    assert (Gen : forall ks before ns s, kids = before ++ ks -> current_ns s = ns -> Inv d s ->
      (length (st_imports s) = S i \/ exists b l a, before = b ++ Ph PhStatementList l :: a) -> plain (fst (walk_namespace ns ks)) ->
      forM ks (fun c => match c with
        | Ph PhNamespaceName _ => name <- phraseText d c ;; change_table i (fun t => setNamespace t name)
        | Ph PhStatementList ks => scanForChildren (scanNode d fuel) ks
        | _ => ret tt
        end) s = Done tt s' -> walked (walk_namespace ns ks) s s').
    { clear E. induction ks as [|c ks IHk]; intros before ns st Ek Ns Is Ph0 Pl E; cbn [forM] in E; [done E; subst ns; exact (walked_nil _ Is)|].
      assert (C : In c kids) by (rewrite Ek; apply in_elt). assert (Ek' : kids = (before ++ [c]) ++ ks) by (rewrite <- app_assoc; exact Ek).
      assert (Ph1 : length (st_imports st) = S i \/ (exists b l a, before ++ [c] = b ++ Ph PhStatementList l :: a)).
      { destruct Ph0 as [L|(b & l & a & Eb)]; [left; exact L|right]. exists b, l, (a ++ [c]). rewrite Eb, <- app_assoc. reflexivity. }
      step E u3 s3 F. destruct c as [ty cs|t|w]; [|done F; exact (IHk _ _ _ Ek' Ns Is Ph1 Pl E)|done F; exact (IHk _ _ _ Ek' Ns Is Ph1 Pl E)].
      destruct ty; try (done F; exact (IHk _ _ _ Ek' Ns Is Ph1 Pl E)).
      - (* its statements *)
        change (walk_namespace ns (Ph PhStatementList cs :: ks)) with (let (l, ns) := walk d ns (Ph PhStatementList cs) in let (l', ns) := walk_namespace ns ks in (l ++ l', ns)) in *.
        rewrite (walk_is_block _ PhStatementList) in * by reflexivity.
        pose proof (walk_kids fuel cs) as Wk. destruct u3. subst ns.
        assert (Hc : forall k, In k cs -> forall s s', Inv d s -> plain (fst (walk d (current_ns s) k)) -> scanNode d fuel k s = Done tt s' -> walked (walk d (current_ns s) k) s s').
        { intros k K t t'. apply IH.
          - refine (below_trans _ _ _ (below_child _ cs k K) (below_trans _ _ _ (below_child _ kids _ C) R)).
          - pose proof (kid_height PhStatementList cs k K). pose proof (kid_height PhNamespaceDefinition kids _ C). lia. }
        specialize (Wk Hc st s3 Is). destruct (walk_all d (current_ns st) cs) as (l1, ns1). cbn [fst] in *.
        destruct (walk_namespace ns1 ks) as (l2, ns2) eqn:W2. cbn [fst] in Pl. apply plain_app in Pl. destruct Pl as (Pl1 & Pl2). specialize (Wk Pl1 F).
        refine (walked_app _ _ _ _ _ _ _ Wk _). destruct Wk as (N3 & I3 & _). cbn [snd] in N3.
        specialize (IHk (before ++ [Ph PhStatementList cs]) ns1 s3 Ek' N3 I3). rewrite W2 in IHk. apply IHk; [right; exists before, cs, []; reflexivity|exact Pl2|exact E].
      - (* its name *) destruct Ph0 as [L|(b & l & a & Eb)].
        + step F name s4 G. apply phraseText_done in G. destruct G as (Tx & ->). destruct (namespace_set _ _ _ _ _ L F) as (L3 & O3 & D3 & N3).
          cbn [walk_namespace] in *. unfold text_or_nothing in *. rewrite Tx in *.
          destruct (IHk (before ++ [Ph PhNamespaceName cs]) name s3 Ek' N3 (Inv_doc _ _ D3 Is) (or_introl L3) Pl E) as (Na & Ia & segs & Oa & Fa).
          split; [exact Na|split; [exact Ia|]]. exists segs. rewrite <- O3. auto.
        + exfalso. refine (Hd b l (a ++ Ph PhNamespaceName cs :: ks) (Ph PhNamespaceName cs) _ _ eq_refl).
          * rewrite Ek, Eb, <- app_assoc. reflexivity.
          * apply in_elt. }
    apply (Gen kids [] [] s2 eq_refl N2 I2 (or_introl L2) P E).
Qed.
End Exact.

(** ** The whole file *)
Theorem statements_reported : forall {TX : Text} {TR : TrimSpace} d s, trim_ok TR -> namespaces_outside d -> analyse d = Done tt s ->
  exists segs, st_out s = concat segs /\ Forall2 (fun p seg => reported d (fst p) (snd p) seg) (statements d) segs.
Proof.
  intros TX TR d s TOK (H1 & H2) E. unfold analyse, Load in E. step E u s1 F. destruct u. step E i s2 G. apply quiet_currImportTable in G as O. done E.
  assert (W : walked d (walk_all d [] (node_kids (d_root d))) initial s1).
  { pose proof (walk_scan d TOK H2) as WS. unfold statements in H1. destruct (d_root d) as [ty kids|t|u] eqn:Er.
    - refine (walk_kids d (height (Ph ty kids)) kids _ initial s1 (Inv_initial d) H1 F). intros k K t t'. apply WS.
      + exact (below_child ty kids k K).
      + pose proof (kid_height ty kids k K). lia.
    - done F. exact (walked_nil d initial (Inv_initial d)).
    - done F. exact (walked_nil d initial (Inv_initial d)). }
  destruct W as (_ & _ & segs & O1 & Fs). exists segs. rewrite O, O1. split; [reflexivity|exact Fs].
Qed.
Print Assumptions statements_reported.
