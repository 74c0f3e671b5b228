(** Every variable in the code the analysis reads is recorded, in the scope of
    the function it is written in.

    The walk over the analysis is that of Analyse.UseProofs, which follows the
    symbols; here it follows the operations on the variable tables. *)
From Coq Require Import String.
From Coq Require Import List Bool ZArith Lia.
From Coq.Strings Require Import Byte.
From Verif Require Import Base.Bytes Base.BytesProofs Base.Protocol Symbols.Symbols Symbols.KeysModel Text.TextModel
  Types.TypesModel Types.ImportModel Ide.VariableModel Ide.VariableSpec Rpc.StreamModel Rpc.StreamSpec
  Analyse.SyntaxModel Analyse.AnalyseModel Analyse.AnalyseSpec Analyse.SpecProofs Analyse.LeafProofs Analyse.AnalyseProofs
  Analyse.DeclareSpec Analyse.DeclareProofs Analyse.UseSpec Rename.TraceSpec Rename.RecordSpec.
From Verif Require Analyse.UseProofs Rename.TraceProofs Rename.ParameterProofs.
Import ListNotations.
Open Scope list_scope.
Open Scope nat_scope.

(** ** Balanced operations *)
Definition level (ops : list var_op) : Prop := balanced 0 ops.
Lemma balanced_app : forall a k b j, balanced k a -> balanced j b -> balanced (k + j) (a ++ b).
Proof.
  induction a as [|op a IH]; intros k b j A B0; cbn [balanced app] in *; [subst k; exact B0|].
  destruct op; try exact (IH k b j A B0); [exact (IH (S k) b j A B0)|]. destruct k as [|k]; [destruct A|]. exact (IH k b j A B0).
Qed.
Lemma level_app : forall a b, level a -> level b -> level (a ++ b).
Proof. intros a b A B0. exact (balanced_app a 0 b 0 A B0). Qed.
Lemma level_scope : forall r a b, level a -> level b -> level (OpenScope r :: a ++ CloseScope :: b).
Proof. intros r a b A B0. unfold level. cbn [balanced]. apply (balanced_app a 0 (CloseScope :: b) 1 A). exact B0. Qed.
(** [P] holds of a part of the operations at their own level *)
Definition held (P : list var_op -> Prop) (l : list var_op) : Prop := exists a x b, l = a ++ x ++ b /\ level a /\ level b /\ level x /\ P x.
Lemma held_level : forall P l, held P l -> level l.
Proof. intros P l (a & x & b & -> & A & B0 & X & _). apply level_app; [exact A|apply level_app; assumption]. Qed.
Lemma held_app_l : forall P a b, held P a -> level b -> held P (a ++ b).
Proof.
  intros P a b (u & x & w & -> & A & B0 & X & p) Lb. exists u, x, (w ++ b). rewrite <- !app_assoc. split; [reflexivity|].
  split; [exact A|]. split; [exact (level_app _ _ B0 Lb)|auto].
Qed.
Lemma held_app_r : forall P a b, level a -> held P b -> held P (a ++ b).
Proof.
  intros P a b La (u & x & w & -> & A & B0 & X & p). exists (a ++ u), x, w. rewrite <- !app_assoc. split; [reflexivity|].
  split; [exact (level_app _ _ La A)|auto].
Qed.

Section Calm.
Context {TX : Text} {TR : TrimSpace} (d : document).
(** Nothing is asked of the import tables or of the nodes here. *)
Definition G (_ : list ImportTable) : Prop := True.
Definition unconditional : Prop := True.
Definition calm {A} (m : M A) : Prop := forall s a s', G (st_imports s) -> m s = Done a s' -> G (st_imports s') /\ exists new, st_vars s' = st_vars s ++ new /\ level new.
Definition finds {A} (P : list var_op -> Prop) (m : M A) : Prop := forall s a s', G (st_imports s) -> m s = Done a s' ->
  G (st_imports s') /\ exists new, st_vars s' = st_vars s ++ new /\ held P new.

Lemma calm_quiet : forall A (m : M A), TraceProofs.quiet m -> calm m.
Proof. intros A m Q s a s' g E. split; [exact g|]. exists []. rewrite (Q s a s' E), app_nil_r. split; reflexivity. Qed.
Lemma calm_ret : forall A (a : A), calm (ret a).
Proof. intros A a. apply calm_quiet. apply TraceProofs.q_ret. Qed.
Lemma calm_bind : forall A B (m : M A) (f : A -> M B), calm m -> (forall a, calm (f a)) -> calm (bind m f).
Proof.
  intros A B m f H1 H2 s b s'' g E. step E a s' F. destruct (H1 s a s' g F) as (g' & n1 & O1 & L1). destruct (H2 a s' b s'' g' E) as (g'' & n2 & O2 & L2).
  split; [exact g''|]. exists (n1 ++ n2). rewrite O2, O1, app_assoc. split; [reflexivity|exact (level_app _ _ L1 L2)].
Qed.
Lemma calm_value : forall A B (m : M A) (f : A -> M B) (Q : A -> Prop), calm m -> (forall s a s', G (st_imports s) -> m s = Done a s' -> Q a) ->
  (forall a, Q a -> calm (f a)) -> calm (bind m f).
Proof.
  intros A B m f Q H1 HQ H2 s b s'' g E. step E a s' F. destruct (H1 s a s' g F) as (g' & n1 & O1 & L1).
  destruct (H2 a (HQ s a s' g F) s' b s'' g' E) as (g'' & n2 & O2 & L2).
  split; [exact g''|]. exists (n1 ++ n2). rewrite O2, O1, app_assoc. split; [reflexivity|exact (level_app _ _ L1 L2)].
Qed.
Lemma finds_calm : forall A P (m : M A), finds P m -> calm m.
Proof. intros A P m H s a s' g E. destruct (H s a s' g E) as (g' & new & O & X). split; [exact g'|]. exists new. split; [exact O|exact (held_level P new X)]. Qed.
Lemma finds_left : forall A B P (m : M A) (f : A -> M B), finds P m -> (forall a, calm (f a)) -> finds P (bind m f).
Proof.
  intros A B P m f H1 H2 s b s'' g E. step E a s' F. destruct (H1 s a s' g F) as (g' & n1 & O1 & X). destruct (H2 a s' b s'' g' E) as (g'' & n2 & O2 & L2).
  split; [exact g''|]. exists (n1 ++ n2). rewrite O2, O1, app_assoc. split; [reflexivity|]. exact (held_app_l P n1 n2 X L2).
Qed.
Lemma finds_value : forall A B P (m : M A) (f : A -> M B) (Q : A -> Prop), calm m -> (forall s a s', G (st_imports s) -> m s = Done a s' -> Q a) ->
  (forall a, Q a -> finds P (f a)) -> finds P (bind m f).
Proof.
  intros A B P m f Q H1 HQ H2 s b s'' g E. step E a s' F. destruct (H1 s a s' g F) as (g' & n1 & O1 & L1). destruct (H2 a (HQ s a s' g F) s' b s'' g' E) as (g'' & n2 & O2 & X).
  split; [exact g''|]. exists (n1 ++ n2). rewrite O2, O1, app_assoc. split; [reflexivity|]. exact (held_app_r P n1 n2 L1 X).
Qed.
Lemma finds_right : forall A B P (m : M A) (f : A -> M B), calm m -> (forall a, finds P (f a)) -> finds P (bind m f).
Proof. intros A B P m f H1 H2. apply (finds_value _ _ P m f (fun _ => True)); auto. Qed.
Lemma calm_forM : forall A (l : list A) f, (forall x, In x l -> calm (f x)) -> calm (forM l f).
Proof. intros A l f H. induction l as [|x l IH]; cbn [forM]; [apply calm_ret|]. apply calm_bind; [apply H; left; reflexivity|intros _; apply IH; intros y Y; apply H; right; exact Y]. Qed.
Lemma calm_foldM : forall A B (l : list A) (f : B -> A -> M B) b, (forall b x, In x l -> calm (f b x)) -> calm (foldM l f b).
Proof.
  intros A B l f b H. revert b. induction l as [|x l IH]; intros b; cbn [foldM]; [apply calm_ret|].
  apply calm_bind; [apply H; left; reflexivity|intros b'; apply IH; intros b'' y Y; apply H; right; exact Y].
Qed.
Lemma finds_forM : forall A P (l : list A) f x, (forall y, In y l -> calm (f y)) -> In x l -> finds P (f x) -> finds P (forM l f).
Proof.
  intros A P l f x H I F. induction l as [|y l IH]; [destruct I|]. cbn [forM]. destruct I as [->|I].
  - apply finds_left; [exact F|]. intros _. apply calm_forM. intros z Z. apply H. right. exact Z.
  - apply finds_right; [apply H; left; reflexivity|]. intros _. apply IH; [|exact I]. intros z Z. apply H. right. exact Z.
Qed.
Lemma finds_foldM : forall A B P (l : list A) (f : B -> A -> M B) b x, (forall b y, In y l -> calm (f b y)) -> In x l -> (forall b, finds P (f b x)) -> finds P (foldM l f b).
Proof.
  intros A B P l f b x H I F. revert b. induction l as [|y l IH]; intros b; [destruct I|]. cbn [foldM]. destruct I as [->|I].
  - apply finds_left; [apply F|]. intros b'. apply calm_foldM. intros b'' z Z. apply H. right. exact Z.
  - apply finds_right; [apply H; left; reflexivity|]. intros b'. apply IH; [|exact I]. intros b'' z Z. apply H. right. exact Z.
Qed.
Ltac prim := intros; apply calm_quiet; intros ? ? ? E; injection E as <- <-; reflexivity.
Lemma calm_emit : forall t, calm (emit t).
Proof. prim. Qed.
Lemma calm_emit1 : forall t, calm (emit1 t).
Proof. prim. Qed.
Lemma calm_get : forall A (f : state -> A), calm (get f).
Proof. prim. Qed.
Lemma calm_lift : forall A (o : option A), calm (lift o).
Proof. intros A o. apply calm_quiet. apply TraceProofs.q_lift. Qed.
Lemma calm_panic : forall A, calm (@panic A).
Proof. intros A s a s' g E. discriminate E. Qed.
Lemma calm_addClass : forall c, calm (addClass c).
Proof. prim. Qed.
Lemma calm_change_class : forall i f, calm (change_class i f).
Proof. prim. Qed.
Lemma calm_set_block : forall b, calm (set_block b).
Proof. prim. Qed.
Lemma calm_set_doc : forall p, calm (set_doc p).
Proof. prim. Qed.
Lemma calm_change_table : forall i f, calm (change_table i f).
Proof. prim. Qed.
Lemma calm_getLastClass : calm getLastClass.
Proof. apply calm_get. Qed.
Lemma var_do_done : forall op s a s', var_do op s = Done a s' -> st_vars s' = st_vars s ++ [op].
Proof. intros op s a s' E. injection E as _ <-. reflexivity. Qed.
Lemma calm_record : forall v st dc, calm (var_do (RecordVar v st dc)).
Proof. intros v st dc s a s' g E. split; [exact g|]. exists [RecordVar v st dc]. split; [exact (var_do_done _ _ _ _ E)|reflexivity]. Qed.
Lemma calm_capture : forall v, calm (var_do (Capture v)).
Proof. intros v s a s' g E. split; [exact g|]. exists [Capture v]. split; [exact (var_do_done _ _ _ _ E)|reflexivity]. Qed.
Lemma finds_record : forall (P : list var_op -> Prop) v st dc, P [RecordVar v st dc] -> finds P (var_do (RecordVar v st dc)).
Proof.
  intros P v st dc p s a s' g E. split; [exact g|]. exists [RecordVar v st dc]. split; [exact (var_do_done _ _ _ _ E)|].
  exists [], [RecordVar v st dc], []. repeat split. exact p.
Qed.
Lemma calm_in_block : forall A b (m : M A), calm m -> calm (in_block b m).
Proof.
  intros A b m H s a s' g E. unfold in_block in E. destruct (m _) as [x t| |] eqn:F; try discriminate. injection E as _ <-. cbn [st_vars].
  exact (H (St [] b (st_classes s) (st_imports s) (st_doc s) (st_vars s)) x t g F).
Qed.
Lemma finds_block : forall A P b (m : M A), finds P m -> finds P (in_block b m).
Proof.
  intros A P b m H s a s' g E. unfold in_block in E. destruct (m _) as [x t| |] eqn:F; try discriminate. injection E as _ <-. cbn [st_vars].
  exact (H (St [] b (st_classes s) (st_imports s) (st_doc s) (st_vars s)) x t g F).
Qed.
Lemma calm_finds : forall A (m : M A), calm m -> finds (fun _ => True) m.
Proof.
  intros A m H s a s' g E. destruct (H s a s' g E) as (g' & new & O & L). split; [exact g'|]. exists new. split; [exact O|].
  exists new, [], []. rewrite app_nil_r. split; [reflexivity|]. split; [exact L|]. split; [reflexivity|]. split; [reflexivity|exact I].
Qed.
Lemma finds_in_block : forall A B P b (m : M A) (f : A * list asym -> M B), finds P m -> (forall x, calm (f x)) -> finds P (bind (in_block b m) f).
Proof.
  intros A B P b m f H1 H2. apply finds_left; [|exact H2]. intros s a s' g E. unfold in_block in E. destruct (m _) as [x t| |] eqn:F; try discriminate. injection E as _ <-. cbn [st_vars].
  exact (H1 (St [] b (st_classes s) (st_imports s) (st_doc s) (st_vars s)) x t g F).
Qed.
(** a scope: what closes it *)
Definition closes {A} (m : M A) : Prop := forall s a s', m s = Done a s' -> exists x y, st_vars s' = st_vars s ++ x ++ CloseScope :: y /\ level x /\ level y.
Lemma closes_before : forall A B (m : M A) (f : A -> M B), calm m -> (forall a, closes (f a)) -> closes (bind m f).
Proof.
  intros A B m f H1 H2 s b s'' E. step E a s' F. destruct (H1 s a s' I F) as (_ & n1 & O1 & L1). destruct (H2 a s' b s'' E) as (x & y & O2 & Lx & Ly).
  exists (n1 ++ x), y. rewrite O2, O1, <- !app_assoc. split; [reflexivity|]. split; [exact (level_app _ _ L1 Lx)|exact Ly].
Qed.
Lemma closes_now : forall A (m : M A), calm m -> closes (var_do CloseScope ;;; m).
Proof.
  intros A m H s a s' E. step E u s1 F. destruct (H s1 a s' I E) as (_ & n & O & L). exists [], n. rewrite O, (var_do_done _ _ _ _ F), <- app_assoc. repeat split. exact L.
Qed.
Lemma calm_scope : forall A B r (m : M A) (k : A -> M B), calm m -> (forall a, closes (k a)) -> calm (var_do (OpenScope r) ;;; bind m k).
Proof.
  intros A B r m k H1 H2 s b s' g E. step E u s1 F. step E a s2 F2. destruct (H1 s1 a s2 I F2) as (_ & n & O & L). destruct (H2 a s2 b s' E) as (x & y & O2 & Lx & Ly).
  split; [exact I|]. exists (OpenScope r :: (n ++ x) ++ CloseScope :: y). rewrite O2, O, (var_do_done _ _ _ _ F), <- !app_assoc. split; [reflexivity|].
  rewrite app_assoc. apply level_scope; [exact (level_app _ _ L Lx)|exact Ly].
Qed.
Lemma finds_scope : forall A B r P Q (m : M A) (k : A -> M B), finds P m -> (forall a, closes (k a)) ->
  (forall x, held P x -> held Q (OpenScope r :: x ++ [CloseScope])) -> finds Q (var_do (OpenScope r) ;;; bind m k).
Proof.
  intros A B r P Q m k H1 H2 W s b s' g E. step E u s1 F. step E a s2 F2. destruct (H1 s1 a s2 I F2) as (_ & n & O & X). destruct (H2 a s2 b s' E) as (x & y & O2 & Lx & Ly).
  split; [exact I|]. exists ((OpenScope r :: (n ++ x) ++ [CloseScope]) ++ y). rewrite O2, O, (var_do_done _ _ _ _ F). split.
  - rewrite <- !app_assoc. cbn [app]. rewrite <- !app_assoc. reflexivity.
  - apply held_app_l; [|exact Ly]. apply W. apply held_app_l; assumption.
Qed.
Lemma finds_impl : forall A (P Q : list var_op -> Prop) (m : M A), (forall x, P x -> Q x) -> finds P m -> finds Q m.
Proof.
  intros A P Q m H F s a s' g E. destruct (F s a s' g E) as (g' & new & O & u & x & w & X & Lu & Lw & Lx & p). split; [exact g'|]. exists new. split; [exact O|].
  exists u, x, w. repeat (split; [assumption|]). exact (H x p).
Qed.
Lemma calm_currImportTable : calm (currImportTable d).
Proof. unfold currImportTable, pushImportTable. apply calm_bind; [apply calm_get|]. intros [|t l]; [|apply calm_ret]. prim. Qed.
Lemma calm_pushImportTable : forall p, calm (pushImportTable d p).
Proof. intros p. unfold pushImportTable. prim. Qed.
Lemma calm_get_table : forall i, calm (get_table i).
Proof. intros i. unfold get_table. apply calm_bind; [apply calm_get|intros l; apply calm_lift]. Qed.

(** *** The functions that do not scan *)
Definition ok (_ : node) : Prop := True.
Definition oks (l : list node) : Prop := forall c, In c l -> ok c.
Lemma ok_kids : forall ty ks, ok (Ph ty ks) -> oks ks.
Proof. intros ty ks _ c _. exact I. Qed.
Lemma ok_below : forall m n, below m n -> ok n -> ok m.
Proof. intros m n _ _. exact I. Qed.
Lemma oks_tail : forall c l, oks (c :: l) -> oks l.
Proof. intros c l H x X. apply H. right. exact X. Qed.
Lemma oks_skip : forall f l, oks l -> oks (SkipToken f l).
Proof. intros f l H c I. exact (H c (UseProofs.in_skip f l c I)). Qed.
Lemma oks_skipn : forall n l, oks l -> oks (skipn n l).
Proof. intros n l H c I. apply H. rewrite <- (firstn_skipn n l). apply in_or_app. right. exact I. Qed.
Lemma oks_nth : forall l i c, oks l -> nth_error l i = Some c -> ok c.
Proof. intros l i c H E. exact (H c (nth_error_In l i E)). Qed.
Lemma oks_snoc : forall l c, oks l -> ok c -> oks (l ++ [c]).
Proof. intros l c H K x X. apply in_app_or in X. destruct X as [X|[<-|[]]]; auto. Qed.
Lemma oks_nil : oks [].
Proof. intros c []. Qed.
Lemma ok_use : forall kids, ok (Ph PhNamespaceUseDeclaration kids) -> unconditional.
Proof. intros kids _. exact I. Qed.
Lemma ok_namespace : forall kids, ok (Ph PhNamespaceDefinition kids) -> unconditional.
Proof. intros kids _. exact I. Qed.

Ltac know := repeat match goal with
  | K : oks ?l, I : In (Ph ?ty ?ks) ?l |- _ => lazymatch goal with _ : oks ks |- _ => fail | _ => pose proof (ok_kids ty ks (K _ I)) end
  | K : ok (Ph ?ty ?ks) |- _ => lazymatch goal with _ : oks ks |- _ => fail | _ => pose proof (ok_kids ty ks K) end
  | K : oks (?c :: ?l) |- _ => lazymatch goal with _ : oks l |- _ => fail | _ => pose proof (oks_tail c l K) end
  | K : oks (Ph ?ty ?ks :: ?l) |- _ => lazymatch goal with _ : oks ks |- _ => fail | _ => pose proof (ok_kids ty ks (K _ (or_introl eq_refl))) end
  end.
Ltac fine := know; first
  [ assumption
  | solve [match goal with K : oks _ |- ok _ => apply K; first [assumption|left; reflexivity|right; assumption] end]
  | apply oks_nil
  | solve [match goal with K : oks _ |- oks _ => first [apply oks_skipn; exact K|apply oks_skip; exact K] end] ].
Hint Extern 2 (ok _) => fine : calm.
Hint Extern 2 (oks _) => fine : calm.
Hint Resolve calm_ret calm_emit calm_emit1 calm_get calm_lift calm_panic calm_addClass calm_change_class calm_set_block calm_set_doc calm_record calm_capture calm_change_table
  calm_getLastClass calm_currImportTable calm_get_table : calm.
Ltac cm1 := match goal with
  | |- calm (bind _ _) => apply calm_bind; [|intros ?]
  | |- calm (forM _ _) => apply calm_forM; intros ? ?
  | |- calm (foldM _ _ _) => apply calm_foldM; intros ? ? ?
  | |- calm (in_block _ _) => apply calm_in_block
  | |- calm (match ?x with _ => _ end) => destruct x
  | |- calm ((match ?x with _ => _ end) _) => destruct x
  | |- calm (let _ := _ in _) => cbv zeta
  | _ => progress cbv beta
  end.
Ltac cm := repeat first [solve [auto with calm nocore]|cm1].

Lemma calm_resolveClass : forall t, calm (resolveClass d t).
Proof. intros t. unfold resolveClass. cm. Qed.
Hint Resolve calm_resolveClass : calm.
Lemma calm_currNamespace : calm (currNamespace d).
Proof. unfold currNamespace. cm. Qed.
Lemma calm_tokenText : forall t, calm (tokenText d t).
Proof. intros. apply calm_lift. Qed.
Lemma calm_phraseText : forall n, calm (phraseText d n).
Proof. intros. apply calm_lift. Qed.
Lemma calm_nodeText : forall n, calm (nodeText d n).
Proof. intros. apply calm_lift. Qed.
Lemma calm_newTypeString : forall s, calm (newTypeString s).
Proof. intros. apply calm_lift. Qed.
Hint Resolve calm_currNamespace calm_tokenText calm_phraseText calm_nodeText calm_newTypeString : calm.
Lemma calm_transform : forall n, calm (transformQualifiedName d n).
Proof. intros. unfold transformQualifiedName. cm. Qed.
Hint Resolve calm_transform : calm.
Lemma calm_classReference : forall n, calm (classReference d n).
Proof. intros. unfold classReference. cm. Qed.
Lemma calm_getValidPhpDoc : forall r, calm (getValidPhpDoc r).
Proof. intros. unfold getValidPhpDoc. cm. Qed.
Lemma calm_typesFromPhpDoc : forall s, calm (typesFromPhpDoc d s).
Proof. intros. unfold typesFromPhpDoc. cm. Qed.
Hint Resolve calm_classReference calm_getValidPhpDoc calm_typesFromPhpDoc : calm.
Lemma calm_merge_tags : forall t l, calm (merge_tags d t l).
Proof. intros. unfold merge_tags. cm. Qed.
Lemma calm_newTypeDeclaration : forall n, calm (newTypeDeclaration d n).
Proof. intros. unfold newTypeDeclaration. cm. Qed.
Lemma calm_newDirectory : forall t, calm (newDirectoryConstantAccess d t).
Proof. intros. unfold newDirectoryConstantAccess. cm. Qed.
Lemma calm_newConstantAccess : forall n, calm (newConstantAccess d n).
Proof. intros. unfold newConstantAccess. cm. Qed.
Lemma calm_relativeTypes : calm relativeTypes.
Proof. unfold relativeTypes. cm. Qed.
Lemma calm_parentTypes : calm parentTypes.
Proof. unfold parentTypes. cm. Qed.
Hint Resolve calm_merge_tags calm_newTypeDeclaration calm_newDirectory calm_newConstantAccess calm_relativeTypes calm_parentTypes : calm.
Lemma calm_newVariableWithoutPushing : forall n, calm (newVariableWithoutPushing d n).
Proof. intros. unfold newVariableWithoutPushing. cm. Qed.
Lemma calm_pushVariable : forall v p b, calm (pushVariable v p b).
Proof. intros. unfold pushVariable. cm. Qed.
Hint Resolve calm_newVariableWithoutPushing calm_pushVariable : calm.
Lemma calm_newVariable : forall n b, calm (newVariable d n b).
Proof. intros. unfold newVariable. cm. Qed.
Lemma calm_newNameAccess : forall k n, calm (newNameAccess d k n).
Proof. intros. unfold newNameAccess. cm. Qed.
Lemma calm_parameter_loop : forall kids p e s, calm (parameter_loop d kids p e s).
Proof. induction kids as [|c kids IH]; intros p e s; cbn [parameter_loop]; [cm|]. destruct c as [ty ks|t|u]; [destruct ty|destruct (t_type t)|]; cm. Qed.
Hint Resolve calm_newVariable calm_newNameAccess calm_parameter_loop : calm.
Lemma calm_newParameter : forall n, calm (newParameter d n).
Proof. intros. unfold newParameter. cm. Qed.
Hint Resolve calm_newParameter : calm.
Lemma calm_parameters : forall l, calm (analyseParameterDeclarationList d l).
Proof. intros. unfold analyseParameterDeclarationList. cm. Qed.
Lemma calm_declare_params : forall h l, calm (declare_params d h l).
Proof. intros. unfold declare_params. cm. Qed.
Lemma calm_apply_function_doc : forall p l, calm (apply_function_doc d p l).
Proof. intros. unfold apply_function_doc. cm. Qed.
Lemma calm_processTypeNode : forall n, calm (processTypeNode d n).
Proof. intros. unfold processTypeNode. cm. Qed.
Hint Resolve calm_parameters calm_declare_params calm_apply_function_doc calm_processTypeNode : calm.
Lemma calm_processTypeUnionNode : forall l, calm (processTypeUnionNode d l).
Proof. intros. unfold processTypeUnionNode. cm. Qed.
Hint Resolve calm_processTypeUnionNode : calm.
Lemma calm_tag_type : forall l c, calm (tag_type d l c).
Proof. intros. unfold tag_type. cm. Qed.
Hint Resolve calm_tag_type : calm.
Lemma calm_typeTag : forall n b l, calm (typeTag d n b l).
Proof. intros. unfold typeTag. cm. Qed.
Lemma calm_methodParam : forall l, calm (methodParam d l).
Proof. intros. unfold methodParam. cm. Qed.
Hint Resolve calm_typeTag calm_methodParam : calm.
Lemma calm_processParamList : forall l, calm (processParamList d l).
Proof. intros. unfold processParamList. cm. Qed.
Hint Resolve calm_processParamList : calm.
Lemma calm_methodTag : forall n l, calm (methodTag d n l).
Proof. intros. unfold methodTag. cm. Qed.
Lemma calm_getTagName : forall l, calm (getTagName d l).
Proof. induction l as [|c l IH]; cbn [getTagName]; [cm|]. destruct c as [ty ks|t|u]; cm. Qed.
Hint Resolve calm_methodTag calm_getTagName : calm.
Lemma calm_parseTag : forall l, calm (parseTag d l).
Proof. intros. unfold parseTag. cm. Qed.
Hint Resolve calm_parseTag : calm.
Lemma calm_newPhpDoc : forall n l, calm (newPhpDocFromNode d n l).
Proof. intros. unfold newPhpDocFromNode. cm. Qed.
Hint Resolve calm_newPhpDoc : calm.
Lemma calm_free : unconditional -> forall i f, calm (change_table i f).
Proof. intros _ i f. apply calm_change_table. Qed.
Lemma calm_push_free : unconditional -> forall n, calm (pushImportTable d n).
Proof. intros _ n. apply calm_pushImportTable. Qed.
Lemma calm_addUse : unconditional -> forall u a n r, calm (addUseToImportTable d u a n r).
Proof. intros U u a n r. unfold addUseToImportTable. cm. Qed.
Lemma calm_alias : forall l, calm (getAliasFromNode d l).
Proof. induction l as [|c l IH]; cbn [getAliasFromNode]; [cm|]. destruct c as [ty ks|t|u]; cm. Qed.
Hint Resolve calm_alias : calm.
Lemma calm_use_clause : forall l, calm (use_clause d l).
Proof. intros. unfold use_clause. cm. Qed.
Hint Resolve calm_use_clause : calm.
Lemma calm_use : unconditional -> forall l, calm (processNamespaceUseDeclaration d l).
Proof.
  intros U l. pose proof (calm_addUse U) as A. unfold processNamespaceUseDeclaration, processNamespaceUseClauseList, processNamespaceUseGroupClauseList. cm.
Qed.
Lemma calm_const_loop : forall l n b1 b2 b3 v, calm (const_loop d l n b1 b2 b3 v).
Proof. induction l as [|c l IH]; intros n b1 b2 b3 v; cbn [const_loop]; [cm|]. destruct c as [ty ks|t|u]; [|destruct (t_type t)|]; cm. Qed.
Hint Resolve calm_const_loop : calm.
Lemma calm_newConst : forall n l, calm (newConst d n l).
Proof. intros. unfold newConst. cm. Qed.
Lemma calm_newGlobalVariable : forall n, calm (newGlobalVariable d n).
Proof. intros. unfold newGlobalVariable. cm. Qed.
Hint Resolve calm_newConst calm_newGlobalVariable : calm.
Lemma calm_newGlobalDeclaration : forall l, calm (newGlobalDeclaration d l).
Proof. intros. unfold newGlobalDeclaration. cm. Qed.
Lemma calm_isDefine_loop : forall l, calm (isDefine_loop d l).
Proof. induction l as [|c l IH]; cbn [isDefine_loop]; [cm|]. destruct c as [ty ks|t|u]; [destruct ty|..]; cm. Qed.
Hint Resolve calm_newGlobalDeclaration calm_isDefine_loop : calm.
Lemma calm_isDefine : forall n, calm (isDefine d n).
Proof. intros. unfold isDefine. cm. Qed.
Hint Resolve calm_isDefine : calm.

(** *** The functions that scan *)
Section Open.
Variable scan : node -> M unit.
Variable expr : node -> M (option adata).
Hypothesis Sc : forall c, ok c -> calm (scan c).
Hypothesis Ex : forall c, ok c -> calm (expr c).
Hint Resolve Sc Ex : calm.
Lemma calm_children : forall l, oks l -> calm (scanForChildren scan l).
Proof. intros l K. unfold scanForChildren. cm. Qed.
Lemma calm_newArgumentList : forall n l, oks l -> calm (newArgumentList d scan n l).
Proof. intros n l K. unfold newArgumentList. cm. Qed.
Lemma calm_newClassAccess : forall n, ok n -> calm (newClassAccess d expr n).
Proof. intros n K. unfold newClassAccess. cm. Qed.
Hint Resolve calm_children calm_newArgumentList calm_newClassAccess : calm.
Lemma calm_class_extends : forall i l, oks l -> calm (class_extends d expr i l).
Proof. intros i l K. unfold class_extends. apply calm_bind; [cm|]. intros [c|]; [|cm]. assert (ok c) by exact I. cm. Qed.
Lemma calm_class_implements : forall i l, oks l -> calm (class_implements d i l).
Proof. intros i l. induction l as [|c l IH]; intros K; cbn [class_implements]; [cm|]. pose proof (IH (oks_tail _ _ K)). destruct c as [ty ks|t|u]; [destruct ty|..]; cm. Qed.
Lemma calm_doc_property : forall p s t, calm (doc_property d p s t).
Proof. intros. unfold doc_property. cm. Qed.
Lemma calm_doc_method : forall p s t, calm (doc_method d p s t).
Proof. intros. unfold doc_method. cm. Qed.
Hint Resolve calm_class_extends calm_class_implements calm_doc_property calm_doc_method : calm.
Lemma calm_class_header : forall i doc l, oks l -> calm (class_header d scan expr i doc l).
Proof. intros i doc l K. unfold class_header. cm. Qed.
Lemma calm_class_symbol : forall i doc, calm (class_symbol i doc).
Proof. intros. unfold class_symbol. cm. Qed.
Hint Resolve calm_class_header calm_class_symbol : calm.
Lemma calm_newClass : forall n l, oks l -> calm (newClass d scan expr n l).
Proof. intros n l K. unfold newClass. cm. Qed.
Lemma calm_newAnonymousClass : forall n l, oks l -> calm (newAnonymousClass d scan expr n l).
Proof. intros n l K. unfold newAnonymousClass. cm. Qed.
Lemma calm_interface_extends : forall i l, calm (interface_extends d i l).
Proof. intros. unfold interface_extends. cm. Qed.
Hint Resolve calm_newClass calm_newAnonymousClass calm_interface_extends : calm.
Lemma calm_interface_header : forall i l, calm (interface_header d i l).
Proof. intros. unfold interface_header. cm. Qed.
Hint Resolve calm_interface_header : calm.
Lemma calm_newInterface : forall n l, oks l -> calm (newInterface d scan n l).
Proof. intros n l K. unfold newInterface. cm. Qed.
Lemma calm_trait_header : forall i l, calm (trait_header d i l).
Proof. intros. unfold trait_header. cm. Qed.
Hint Resolve calm_newInterface calm_trait_header : calm.
Lemma calm_newTrait : forall n l, oks l -> calm (newTrait d scan n l).
Proof. intros n l K. unfold newTrait. cm. Qed.
Lemma calm_processTraitUseClause : forall l, calm (processTraitUseClause d l).
Proof. intros. unfold processTraitUseClause. cm. Qed.
Lemma calm_function_header : forall s l, calm (function_header d s l).
Proof. intros. unfold function_header. cm. Qed.
Lemma calm_method_header : forall s l, calm (method_header d s l).
Proof. intros. unfold method_header. cm. Qed.
Lemma calm_member_scope : calm (member_scope d).
Proof. unfold member_scope. cm. Qed.
Hint Resolve calm_newTrait calm_processTraitUseClause calm_function_header calm_method_header calm_member_scope : calm.
Lemma calm_newFunction : forall n l, oks l -> calm (newFunction d scan n l).
Proof.
  intros n l K. unfold newFunction. cbv zeta. apply calm_bind; [cm|]. intros doc. apply calm_scope; [cm|].
  intros ((sg, tys), inside). apply closes_before; [cm|]. intros ns. apply closes_now. cm.
Qed.
Lemma calm_newMethod : forall n l, oks l -> calm (newMethod d scan n l).
Proof.
  intros n l K. unfold newMethod. cbv zeta. apply calm_bind; [cm|]. intros doc. apply calm_scope; [cm|].
  intros ((sg, tys), inside). apply closes_now. cm.
Qed.
Lemma calm_analyseUseClause : forall l, calm (analyseUseClause d l).
Proof. intros. unfold analyseUseClause. cm. Qed.
Hint Resolve calm_newFunction calm_newMethod calm_analyseUseClause : calm.
Lemma calm_newAnonymousFunction : forall n l, oks l -> calm (newAnonymousFunction d scan n l).
Proof. intros n l K. unfold newAnonymousFunction. cbv zeta. apply calm_scope; [cm|]. intros b. apply closes_now. cm. Qed.
Lemma calm_newProperty : forall n l v s, oks l -> calm (newProperty d scan n l v s).
Proof. intros n l v s K. unfold newProperty. cm. Qed.
Hint Resolve calm_newAnonymousFunction calm_newProperty : calm.
Lemma calm_newPropertyDeclaration : forall l, oks l -> calm (newPropertyDeclaration d scan l).
Proof. intros l K. unfold newPropertyDeclaration. cm. Qed.
Lemma calm_class_const_loop : forall l n b1 b2 b3 v, oks l -> calm (class_const_loop d scan l n b1 b2 b3 v).
Proof.
  induction l as [|c l IH]; intros n b1 b2 b3 v K; cbn [class_const_loop]; [cm|]. assert (IH' := fun n b1 b2 b3 v => IH n b1 b2 b3 v (oks_tail _ _ K)).
  destruct c as [ty ks|t|u]; [|destruct (t_type t)|]; cm.
Qed.
Hint Resolve calm_newPropertyDeclaration calm_class_const_loop : calm.
Lemma calm_newClassConst : forall n l v, oks l -> calm (newClassConst d scan n l v).
Proof. intros n l v K. unfold newClassConst. cm. Qed.
Hint Resolve calm_newClassConst : calm.
Lemma calm_newClassConstDeclaration : forall l, oks l -> calm (newClassConstDeclaration d scan l).
Proof. intros l K. unfold newClassConstDeclaration. cm. Qed.
Lemma calm_newConstDeclaration : forall l, oks l -> calm (newConstDeclaration scan l).
Proof. intros l K. unfold newConstDeclaration. cm. Qed.
Lemma calm_define_args : forall l o, calm (define_args d l o).
Proof. intros. unfold define_args. cm. Qed.
Hint Resolve calm_newClassConstDeclaration calm_newConstDeclaration calm_define_args : calm.
Lemma calm_newDefine : forall n l, oks l -> calm (newDefine d scan n l).
Proof. intros n l K. unfold newDefine. cm. Qed.
Hint Resolve calm_newDefine : calm.
Lemma calm_tryToNewDefine : forall n l, oks l -> calm (tryToNewDefine d scan n l).
Proof. intros n l K. unfold tryToNewDefine. cm. Qed.
Lemma calm_processCatchNameList : forall l, oks l -> calm (processCatchNameList d expr l).
Proof. intros l K. unfold processCatchNameList. cm. Qed.
Lemma calm_newNamespace : unconditional -> forall n l, calm (newNamespace d scan n l).
Proof.
  intros U n l. assert (K : oks l) by (intros c _; exact I). unfold newNamespace. pose proof (calm_free U). pose proof (calm_push_free U). cm.
Qed.
Lemma calm_first_arguments : forall l, oks l -> calm (first_arguments scan l).
Proof. induction l as [|c l IH]; intros K; cbn [first_arguments]; [cm|]. pose proof (IH (oks_tail _ _ K)). destruct c as [ty ks|t|u]; [destruct ty|..]; cm. Qed.
Hint Resolve calm_tryToNewDefine calm_processCatchNameList calm_first_arguments : calm.
Lemma calm_newFunctionCall : forall l, oks l -> calm (newFunctionCall d scan expr l).
Proof. intros l K. unfold newFunctionCall. cm. Qed.
Lemma calm_member_name_of : forall o, calm (member_name_of d o).
Proof. intros. unfold member_name_of. cm. Qed.
Lemma calm_scope_access : forall l, oks l -> calm (scope_access d expr l).
Proof. intros l K. unfold scope_access. cm. Qed.
Hint Resolve calm_newFunctionCall calm_member_name_of calm_scope_access : calm.
Lemma calm_newScopedAccess : forall k l, oks l -> calm (newScopedAccess d expr k l).
Proof. intros k l K. unfold newScopedAccess. cm. Qed.
Lemma calm_newScopedMethodAccess : forall l, oks l -> calm (newScopedMethodAccess d scan expr l).
Proof. intros l K. unfold newScopedMethodAccess. cm. Qed.
Lemma calm_member_name_loop : forall l x, calm (member_name_loop d l x).
Proof. induction l as [|c l IH]; intros x; cbn [member_name_loop]; [cm|]. destruct c as [ty ks|t|u]; [destruct ty|..]; cm. Qed.
Hint Resolve calm_newScopedAccess calm_newScopedMethodAccess calm_member_name_loop : calm.
Lemma calm_readMemberName : forall l, calm (readMemberName d l).
Proof. intros l. unfold readMemberName. cm. Qed.
Lemma calm_receiver : forall l, oks l -> calm (receiver expr l).
Proof. intros l K. unfold receiver. cm. Qed.
Hint Resolve calm_readMemberName calm_receiver : calm.
Lemma calm_newPropertyAccess : forall l, oks l -> calm (newPropertyAccess d expr l).
Proof. intros l K. unfold newPropertyAccess. cm. Qed.
Lemma calm_newMethodAccess : forall l, oks l -> calm (newMethodAccess d scan expr l).
Proof.
  intros l K. unfold newMethodAccess. apply calm_bind; [cm|intros _]. apply (calm_value _ _ _ _ (fun m => oks (snd m))); [cm| |intros m Km; cm].
  intros s a s' _ E c I. exact (oks_skipn 2 l K c (UseProofs.read_rest d _ _ _ _ E c I)).
Qed.
Lemma calm_designator_node : forall l, calm (designator_node d l).
Proof. intros. unfold designator_node. cm. Qed.
Hint Resolve calm_newPropertyAccess calm_newMethodAccess calm_designator_node : calm.
Lemma calm_newClassTypeDesignator : forall l, oks l -> calm (newClassTypeDesignator d scan l).
Proof. intros l K. unfold newClassTypeDesignator. cm. Qed.
Lemma calm_foreach : forall l, oks l -> calm (analyseForeachStatement d scan expr l).
Proof. intros l K. unfold analyseForeachStatement. cm. Qed.
Definition oko (o : option node) : Prop := forall c, o = Some c -> ok c.
Lemma oko_nth : forall l i, oks l -> oko (nth_error l i).
Proof. intros l i K c E. exact (oks_nth l i c K E). Qed.
Lemma calm_scan_opt : forall o, oko o -> calm (scan_opt scan o).
Proof. intros o K. unfold scan_opt. destruct o as [n|]; [|cm]. pose proof (K n eq_refl). cm. Qed.
Lemma calm_var_assignment : forall ty p lhs rest, oks rest -> calm (analyseVariableAssignment d scan expr ty p lhs rest).
Proof.
  intros ty p lhs rest K. unfold analyseVariableAssignment. cbv zeta.
  match goal with |- context [nth_error ?r 0] => assert (Kr : oko (nth_error r 0)); [apply oko_nth; destruct ty; repeat apply oks_skip; apply oks_skipn; exact K|];
    set (o := nth_error r 0) in *; clearbody o end.
  destruct o as [[ty' ks|t|u]|]; [pose proof (Kr _ eq_refl)|pose proof (Kr _ eq_refl)|pose proof (Kr _ eq_refl)|]; unfold scan_opt; cm.
Qed.
Lemma calm_property_assignment : forall l, oks l -> calm (processPropertyAccessAssignment scan expr l).
Proof.
  intros l K. unfold processPropertyAccessAssignment. cbv zeta. apply calm_bind; [cm|intros _].
  match goal with |- context [nth_error ?r 0] => assert (Kr : oko (nth_error r 0)); [apply oko_nth; repeat apply oks_skip; apply oks_skipn; exact K|];
    set (o := nth_error r 0) in *; clearbody o end.
  destruct o as [[ty' ks|t|u]|]; [pose proof (Kr _ eq_refl)|pose proof (Kr _ eq_refl)|pose proof (Kr _ eq_refl)|]; unfold scan_opt; cm.
Qed.
Hint Resolve calm_newClassTypeDesignator calm_foreach calm_var_assignment calm_property_assignment : calm.
Lemma calm_newAssignment : forall n ty l, oks l -> calm (newAssignment d scan expr n ty l).
Proof. intros n ty l K. unfold newAssignment. cm. Qed.
Lemma calm_designator : forall l, oks l -> calm (newInstanceOfTypeDesignator d expr l).
Proof. induction l as [|c l IH]; intros K; cbn [newInstanceOfTypeDesignator]; [cm|]. pose proof (IH (oks_tail _ _ K)). destruct c as [ty ks|t|u]; [destruct ty|..]; cm. Qed.
Lemma calm_instanceof : forall l, oks l -> calm (processInstanceOfExpression expr l).
Proof.
  intros l K. unfold processInstanceOfExpression. cbv zeta.
  match goal with |- context [SkipToken is_whitespace ?r] => match r with context [SkipToken is_instanceof] => assert (Kr : oks (SkipToken is_whitespace r)); [repeat apply oks_skip; apply oks_skipn; exact K|];
    set (o := SkipToken is_whitespace r) in *; clearbody o end end.
  cm.
Qed.
Lemma calm_derived_loop : forall l b, oks l -> calm (derived_loop expr l b).
Proof.
  induction l as [|c l IH]; intros b K; cbn [derived_loop]; [cm|]. assert (IH' := fun b => IH b (oks_tail _ _ K)). destruct c as [ty ks|t|u]; cbv zeta; cm.
Qed.
Lemma derived_ok : forall l b s a s', oks l -> oks b -> derived_loop expr l b s = Done a s' -> oks a.
Proof.
  induction l as [|c l IH]; intros b s a s' K Kb E; cbn [derived_loop] in E; [done E; exact Kb|]. pose proof (K c (or_introl eq_refl)) as Kc. pose proof (oks_tail _ _ K) as Kl.
  destruct c as [ty ks|t|u]; try exact (IH _ _ _ _ Kl (oks_snoc _ _ Kb Kc) E). cbv zeta in E. step E x s1 F.
  assert (Kb' : oks (if is_expr_type ty then b else b ++ [Ph ty ks])) by (destruct (is_expr_type ty); [exact Kb|exact (oks_snoc _ _ Kb Kc)]).
  destruct x; [done E; exact Kb'|exact (IH _ _ _ _ Kl Kb' E)].
Qed.
Lemma calm_newDerived : forall n l, oks l -> calm (newDerivedExpression d scan expr n l).
Proof.
  intros n l K. unfold newDerivedExpression. cbv zeta. apply calm_bind; [|intros; cm]. apply calm_in_block.
  apply (calm_value _ _ _ _ oks); [exact (calm_derived_loop l [] K)| |intros a Ka; cm]. intros s a s' _ E. exact (derived_ok l [] s a s' K oks_nil E).
Qed.
Hint Resolve calm_newAssignment calm_designator calm_instanceof calm_newDerived : calm.
Lemma calm_construct : forall n ty l, oks l -> calm (construct d scan expr n ty l).
Proof. intros n ty l K. unfold construct. destruct ty; cm. Qed.
Lemma calm_expr_body : forall n, ok n -> calm (expr_body d scan expr n).
Proof. intros n K. destruct n as [ty ks|t|u]; cbn [expr_body]; [|cm|cm]. apply calm_bind; [apply calm_construct; fine|intros e; cm]. Qed.
Lemma calm_symbol_of : forall n ty l, (ty = PhNamespaceUseDeclaration -> unconditional) -> oks l -> calm (symbol_of d scan expr n ty l).
Proof. intros n ty l U K. unfold symbol_of. destruct ty; cm. apply calm_use. apply U. reflexivity. Qed.
Lemma calm_node_body : forall n, ok n -> calm (node_body d scan expr n).
Proof.
  intros n K. destruct n as [ty ks|t|u]; cbn [node_body]; [|destruct (t_type t); cm|cm].
  assert (X : calm (def <- isDefine d (Ph ty ks) ;; (if def then ret tt else e <- expr_body d scan expr (Ph ty ks) ;; ret tt) ;;;
      if typesToScanForChildren ty then scanForChildren scan ks else symbol_of d scan expr (Ph ty ks) ty ks)).
  { apply calm_bind; [cm|intros def]. apply calm_bind; [destruct def; [cm|]; apply calm_bind; [apply calm_expr_body; exact K|intros; cm]|intros _].
    destruct (typesToScanForChildren ty); [apply calm_children; fine|]. apply calm_symbol_of; [|fine]. intros ->. exact (ok_use ks K). }
  destruct ty; try exact X. exact (calm_newNamespace (ok_namespace ks K) _ _).
Qed.

(** *** What a node reads is found in it *)
Variable P : list var_op -> Prop.
Hypothesis Nx : forall ty ks, is_expr_type ty = false -> forall s a s', expr (Ph ty ks) s = Done a s' -> a = None.
Ltac fr := apply finds_right; [solve [cm]|intros ?].
Ltac fl := apply finds_left; [|intros ?; solve [cm]].
Lemma node_body_eq : forall ty ks, ty <> PhNamespaceDefinition -> node_body d scan expr (Ph ty ks) =
  (def <- isDefine d (Ph ty ks) ;; (if def then ret tt else e <- expr_body d scan expr (Ph ty ks) ;; ret tt) ;;;
   if typesToScanForChildren ty then scanForChildren scan ks else symbol_of d scan expr (Ph ty ks) ty ks).
Proof. intros ty ks H. destruct ty; try reflexivity. congruence. Qed.
Lemma calm_define_expr : forall (b : bool) n, ok n -> calm (if b then ret tt else e <- expr_body d scan expr n ;; ret tt).
Proof. intros [|] n K; [cm|]. apply calm_bind; [apply calm_expr_body; exact K|intros; cm]. Qed.
Lemma find_symbol : forall ty ks, ok (Ph ty ks) -> ty <> PhNamespaceDefinition -> typesToScanForChildren ty = false ->
  finds P (symbol_of d scan expr (Ph ty ks) ty ks) -> finds P (node_body d scan expr (Ph ty ks)).
Proof.
  intros ty ks K N T F. rewrite (node_body_eq ty ks N), T. fr. apply finds_right; [apply calm_define_expr; exact K|intros _]. exact F.
Qed.
Lemma find_children : forall l c, oks l -> In c l -> finds P (scan c) -> finds P (scanForChildren scan l).
Proof. intros l c K I F. unfold scanForChildren. apply (finds_forM _ P l scan c); [intros; cm|exact I|exact F]. Qed.
(** an expression *)
Lemma find_expr : forall ty ks, ok (Ph ty ks) -> is_expr_type ty = true -> ~ calls_define d ks -> finds P (expr_body d scan expr (Ph ty ks)) ->
  finds P (node_body d scan expr (Ph ty ks)) /\ (is_expression (Ph ty ks) = true -> finds P (expr_body d scan expr (Ph ty ks))).
Proof.
  intros ty ks K X N F. split; [|intros _; exact F]. rewrite node_body_eq by (intros ->; discriminate X).
  apply (finds_value _ _ P _ _ (fun b => b = false)); [cm| |].
  - intros s b s' _ E. exact (UseProofs.not_define d ks s b s' N E).
  - intros b ->. apply finds_left; [apply finds_left; [exact F|intros; cm]|]. intros _. destruct (typesToScanForChildren ty); [apply calm_children; fine|].
    apply calm_symbol_of; [intros ->; discriminate X|fine].
Qed.
Lemma find_construct : forall ty ks, ok (Ph ty ks) -> is_expr_type ty = true -> ~ calls_define d ks -> finds P (construct d scan expr (Ph ty ks) ty ks) ->
  finds P (node_body d scan expr (Ph ty ks)) /\ (is_expression (Ph ty ks) = true -> finds P (expr_body d scan expr (Ph ty ks))).
Proof. intros ty ks K X N F. apply find_expr; auto. cbn [expr_body]. apply finds_left; [exact F|intros e; cm]. Qed.

Lemma class_const_after : forall kids c n b v sk, oks kids -> In c kids -> is_phrase c -> finds P (scan c) -> finds P (class_const_loop d scan kids n b true sk v).
Proof.
  induction kids as [|k kids IH]; intros c n b v sk K I Ph_ F; [destruct I|]. cbn [class_const_loop]. pose proof (oks_tail _ _ K) as Kt. destruct I as [->|I].
  - destruct c as [ty ks|t|u]; [|elim Ph_; reflexivity|elim Ph_; reflexivity]. fr. fl. exact F.
  - assert (R : forall n b v sk, finds P (class_const_loop d scan kids n b true sk v)) by (intros; apply (IH c); assumption).
    destruct k as [ty ks|t|u]; [fr; fr; apply R| |apply R]. destruct (t_type t); try (fr; apply R); try apply R. destruct sk; [apply R|fr; apply R].
Qed.
Lemma class_const_value : forall before eq after c, oks (before ++ eq :: after) -> is_token (fun t => t = TkEquals) eq -> In c after -> is_phrase c -> finds P (scan c) ->
  forall n b e sk v, finds P (class_const_loop d scan (before ++ eq :: after) n b e sk v).
Proof.
  intros before eq after c K (t & -> & T) I Ph_ F. induction before as [|k before IH]; intros n b e sk v; cbn [app class_const_loop].
  - rewrite T. apply (class_const_after after c); auto. intros x X. apply K. apply in_or_app. right. right. exact X.
  - assert (R : forall n b e sk v, finds P (class_const_loop d scan (before ++ Tk t :: after) n b e sk v)) by (apply IH; exact (oks_tail _ _ K)).
    cbn [app] in K. pose proof (K k (or_introl eq_refl)) as Kk.
    destruct k as [ty ks|t'|u]; [destruct e; [fr; fr; apply R|destruct ty; try apply R; fr; apply R]| |apply R].
    destruct (t_type t'); try apply R; try (destruct e; [fr; apply R|apply R]). destruct sk; [apply R|]. destruct e; [fr; apply R|apply R].
Qed.
Lemma find_arguments : forall n args c, oks args -> In c args -> is_phrase c -> finds P (scan c) -> finds P (newArgumentList d scan n args).
Proof.
  intros n args c K I Ph_ F. unfold newArgumentList. apply finds_in_block.
  - apply (finds_forM _ P args _ c); [intros; cm|exact I|]. destruct c as [ty ks|t|u]; [exact F|elim Ph_; reflexivity|elim Ph_; reflexivity].
  - intros x. cm.
Qed.
Lemma find_first : forall kids args, oks kids -> hd_error (argument_lists_of kids) = Some args -> finds P (scan (Ph PhArgumentExpressionList args)) -> finds P (first_arguments scan kids).
Proof.
  induction kids as [|k kids IH]; intros args K H F; [discriminate H|]. pose proof (oks_tail _ _ K) as Kt. cbn [first_arguments].
  destruct k as [ty ks|t|u]; try exact (IH args Kt H F). destruct ty; try exact (IH args Kt H F). injection H as ->. exact F.
Qed.
(** what is assigned to a variable *)
Lemma find_assigned_var : forall ty p lhs rest right more, ok right -> is_phrase right -> finds P (scan right) -> (is_expression right = true -> finds P (expr right)) ->
  (let rest := SkipToken is_whitespace (skipn 1 rest) in
   let rest := match ty with PhCompoundAssignmentExpression => SkipToken is_dot_equals rest | _ => SkipToken is_equals rest end in
   let rest := SkipToken is_whitespace rest in
   match ty with PhByRefAssignmentExpression => SkipToken is_whitespace (SkipToken is_ampersand rest) | _ => rest end) = right :: more ->
  finds P (analyseVariableAssignment d scan expr ty p lhs rest).
Proof.
  intros ty p lhs rest right more K Ph_ Fs Fe R. unfold analyseVariableAssignment. cbv zeta in *. rewrite R. cbn [nth_error]. clear R.
  destruct right as [ty' ks|t|u]; [|elim Ph_; reflexivity|elim Ph_; reflexivity]. rewrite UseProofs.is_expression_type in Fe. fr. fr. fr. fr.
  destruct (is_expr_type ty') eqn:X.
  - apply finds_left; [exact (Fe eq_refl)|intros x; cm].
  - apply (finds_value _ _ P _ _ (fun x => x = None)); [cm|intros s x s' _ E; exact (Nx ty' ks X s x s' E)|]. intros x ->. fr. exact Fs.
Qed.
Lemma find_assigned_property : forall kids right more, oks kids -> ok right -> is_phrase right -> finds P (scan right) -> (is_expression right = true -> finds P (expr right)) ->
  SkipToken is_whitespace (SkipToken is_equals (SkipToken is_whitespace (skipn 1 kids))) = right :: more -> finds P (processPropertyAccessAssignment scan expr kids).
Proof.
  intros kids right more Kk K Ph_ Fs Fe R. unfold processPropertyAccessAssignment. cbv zeta in *. rewrite R. cbn [nth_error]. clear R. fr.
  destruct right as [ty' ks|t|u]; [|elim Ph_; reflexivity|elim Ph_; reflexivity]. rewrite UseProofs.is_expression_type in Fe.
  destruct (is_expr_type ty') eqn:X.
  - apply finds_left; [exact (Fe eq_refl)|intros x; unfold scan_opt; cm].
  - apply (finds_value _ _ P _ _ (fun x => x = None)); [cm|intros s x s' _ E; exact (Nx ty' ks X s x s' E)|]. intros x ->. exact Fs.
Qed.
Ltac only_symbol := split; [apply find_symbol; [assumption|discriminate|reflexivity|]|intros Zx; rewrite UseProofs.is_expression_type in Zx; discriminate Zx].
Lemma find_derived : forall before c after b, oks (before ++ c :: after) -> oks b -> (forall x, In x before -> is_expression x = false) ->
  finds P (scan c) -> (is_expression c = true -> finds P (expr c)) -> finds P (to_scan <- derived_loop expr (before ++ c :: after) b ;; forM to_scan scan).
Proof.
  intros before c after b K Kb Nb Fs Fe.
  destruct (is_expression c) eqn:X.
  - (* found by the loop *)
    assert (F : forall b, oks b -> finds P (derived_loop expr (before ++ c :: after) b)).
    { clear b Kb. induction before as [|x before IH]; intros b Kb; cbn [app derived_loop] in *.
      - destruct c as [ty ks|t|u]; try discriminate X. apply finds_left; [exact (Fe eq_refl)|]. intros x. pose proof (oks_tail _ _ K). pose proof calm_derived_loop. cm.
      - pose proof (K x (or_introl eq_refl)) as Kx. assert (IH' : forall b, oks b -> finds P (derived_loop expr (before ++ c :: after) b)).
        { apply IH; [exact (oks_tail _ _ K)|]. intros y Y. apply Nb. right. exact Y. }
        destruct x as [ty ks|t|u]; try (apply IH'; apply oks_snoc; assumption). assert (Z := Nb _ (or_introl eq_refl)). rewrite UseProofs.is_expression_type in Z. cbv zeta. rewrite Z.
        apply (finds_value _ _ P _ _ (fun x => x = None)); [cm|intros s x s' _ E; exact (Nx ty ks Z s x s' E)|]. intros x ->. apply IH'. apply oks_snoc; assumption. }
    apply finds_left; [exact (F b Kb)|]. intros l. apply calm_forM. intros y _. assert (ok y) by exact I. cm.
  - (* scanned afterwards *)
    assert (L : forall before b s a s', (forall x, In x before -> is_expression x = false) -> derived_loop expr (before ++ c :: after) b s = Done a s' -> In c a).
    { clear -X Nx. assert (Keep : forall l b s a s' x, In x b -> derived_loop expr l b s = Done a s' -> In x a).
      { induction l as [|y l IH]; intros b s a s' x I E; cbn [derived_loop] in E; [done E; exact I|].
        destruct y as [ty ks|t|u]; try exact (IH _ _ _ _ x (in_or_app _ _ _ (or_introl I)) E). cbv zeta in E. step E z s1 F.
        assert (I' : In x (if is_expr_type ty then b else b ++ [Ph ty ks])) by (destruct (is_expr_type ty); [exact I|apply in_or_app; left; exact I]).
        destruct z; [done E; exact I'|exact (IH _ _ _ _ x I' E)]. }
      induction before as [|y before IH]; intros b s a s' Nb E; cbn [app derived_loop] in E.
      - destruct c as [ty ks|t|u]; try (refine (Keep _ _ _ _ _ _ _ E); apply in_or_app; right; left; reflexivity).
        rewrite UseProofs.is_expression_type in X. cbv zeta in E. rewrite X in E. step E z s1 F. destruct z; [done E; apply in_or_app; right; left; reflexivity|].
        refine (Keep _ _ _ _ _ _ _ E); apply in_or_app; right; left; reflexivity.
      - assert (Nb' : forall x, In x before -> is_expression x = false) by (intros x I; apply Nb; right; exact I).
        destruct y as [ty ks|t|u]; try exact (IH _ _ _ _ Nb' E). assert (Z := Nb _ (or_introl eq_refl)). rewrite UseProofs.is_expression_type in Z. cbv zeta in E. rewrite Z in E. step E z s1 F.
        rewrite (Nx ty ks Z _ _ _ F) in E. exact (IH _ _ _ _ Nb' E). }
    apply (finds_value _ _ P _ _ (fun a => oks a /\ In c a)); [apply calm_derived_loop; exact K| |].
    + intros s a s' _ E. split; [exact (derived_ok _ _ _ _ _ K Kb E)|exact (L _ _ _ _ _ Nb E)].
    + intros a (Ka & Ia). apply (finds_forM _ P a scan c); [intros; cm|exact Ia|exact Fs].
Qed.

Definition step_goal (n : node) : Prop := finds P (node_body d scan expr n) /\ (is_expression n = true -> finds P (expr_body d scan expr n)).
(** what the body of a function holds *)
Lemma find_body : forall Q ty part kids ks, oks kids -> function_node (Ph ty kids) -> has_body ty part = true -> In (Ph part ks) kids ->
  finds P (scanForChildren scan ks) -> (forall x, held P x -> held Q (OpenScope (NodeRange d (Ph ty kids)) :: x ++ [CloseScope])) ->
  finds Q (symbol_of d scan expr (Ph ty kids) ty kids).
Proof.
  intros Q ty part kids ks K F H I0 Fc W. destruct ty; try destruct F; destruct part; try discriminate H; cbn [symbol_of].
  - unfold newMethod. cbv zeta. apply finds_right; [solve [cm]|]. intros doc. apply (finds_scope _ _ _ P Q); [| |exact W].
    + apply finds_block. apply (finds_foldM _ _ P kids _ _ (Ph PhMethodDeclarationBody ks)); [intros; cm|exact I0|]. intros (sg, tys). fl. exact Fc.
    + intros ((sg, tys), inside). apply closes_now. cm.
  - unfold newFunction. cbv zeta. apply finds_right; [solve [cm]|]. intros doc. apply (finds_scope _ _ _ P Q); [| |exact W].
    + apply finds_block. apply (finds_foldM _ _ P kids _ _ (Ph PhFunctionDeclarationBody ks)); [intros; cm|exact I0|]. intros (sg, tys). fl. exact Fc.
    + intros ((sg, tys), inside). apply closes_before; [cm|]. intros ns. apply closes_now. cm.
  - unfold newAnonymousFunction. cbv zeta. apply (finds_scope _ _ _ P Q); [| |exact W].
    + apply finds_block. apply (finds_foldM _ _ P kids _ _ (Ph PhFunctionDeclarationBody ks)); [intros; cm|exact I0|]. intros ps. fl. exact Fc.
    + intros b. apply closes_now. cm.
Qed.
(** the scope of a function *)
Lemma find_opened : forall ty kids, oks kids -> function_node (Ph ty kids) ->
  finds (fun x => exists i, x = OpenScope (NodeRange d (Ph ty kids)) :: i ++ [CloseScope] /\ level i) (symbol_of d scan expr (Ph ty kids) ty kids).
Proof.
  intros ty kids K F. set (Q := fun x => exists i, _ /\ _).
  assert (W : forall x, held (fun _ => True) x -> held Q (OpenScope (NodeRange d (Ph ty kids)) :: x ++ [CloseScope])).
  { intros x X. exists [], (OpenScope (NodeRange d (Ph ty kids)) :: x ++ [CloseScope]), []. rewrite app_nil_r. split; [reflexivity|]. split; [reflexivity|]. split; [reflexivity|].
    pose proof (held_level _ _ X) as L. split; [exact (level_scope _ x [] L eq_refl)|]. exists x. auto. }
  destruct ty; try destruct F; cbn [symbol_of].
  - unfold newMethod. cbv zeta. apply finds_right; [solve [cm]|]. intros doc. apply (finds_scope _ _ _ (fun _ => True) Q); [| |exact W].
    + apply finds_block. apply calm_finds. cm.
    + intros ((sg, tys), inside). apply closes_now. cm.
  - unfold newFunction. cbv zeta. apply finds_right; [solve [cm]|]. intros doc. apply (finds_scope _ _ _ (fun _ => True) Q); [| |exact W].
    + apply finds_block. apply calm_finds. cm.
    + intros ((sg, tys), inside). apply closes_before; [cm|]. intros ns. apply closes_now. cm.
  - unfold newAnonymousFunction. cbv zeta. apply (finds_scope _ _ _ (fun _ => True) Q); [| |exact W].
    + apply finds_block. apply calm_finds. cm.
    + intros b. apply closes_now. cm.
Qed.
(** the parameters of a function *)
Lemma find_parameter : forall Q ty kids header hs ps before t after name, oks kids -> is_function_like ty header = true -> In (Ph header hs) kids ->
  In (Ph PhParameterDeclarationList ps) hs -> In (Ph PhParameterDeclaration (before ++ Tk t :: after)) ps -> t_type t = TkVariableName ->
  (forall u, In (Tk u) after -> t_type u <> TkVariableName) -> GetNodeText d (Tk t) = Some name ->
  (forall dc, P [RecordVar (MkVar name (NodeRange d (Tk t))) (header_end d ty (Ph header hs)) dc]) ->
  (forall x, held P x -> held Q (OpenScope (NodeRange d (Ph ty kids)) :: x ++ [CloseScope])) ->
  finds Q (symbol_of d scan expr (Ph ty kids) ty kids).
Proof.
  intros Q ty kids header hs ps before t after name K F Ih Il Ip Tt N Nt Rc W.
  assert (Dp : forall h l, ParameterProofs.has_it d t name l -> (forall u dc, LastToken h = Some u -> P [RecordVar (MkVar name (NodeRange d (Tk t))) (pos_at d (t_end u)) dc]) -> finds P (declare_params d h l)).
  { intros h l (p & I0 & Np & Rp) Rh. unfold declare_params. apply (finds_forM _ P l _ p); [intros; cm|exact I0|].
    destruct (LastToken h) as [u|]; [|intros s a s' g E; discriminate E]. apply finds_record. rewrite Np, Rp. apply Rh. reflexivity. }
  destruct ty; try discriminate F; destruct header; try discriminate F; cbn [symbol_of].
  - unfold newMethod. cbv zeta. apply finds_right; [solve [cm]|]. intros doc. apply (finds_scope _ _ _ P Q); [| |exact W].
    + apply finds_block. apply (finds_foldM _ _ P kids _ _ (Ph PhMethodDeclarationHeader hs)); [intros; cm|exact Ih|]. intros (sg, tys).
      apply (finds_value _ _ _ _ _ (fun s => ParameterProofs.has_it d t name (sg_params s))); [solve [cm]| |].
      * intros s a s' _ E. exact (ParameterProofs.method_header_finds d t name Tt Nt hs ps before after Il Ip N sg s a s' E).
      * intros s1 H1. fr. fr. fl. apply (Dp _ _ H1). intros u dc Lu. specialize (Rc dc). unfold header_end in Rc. rewrite Lu in Rc. exact Rc.
    + intros ((sg, tys), inside). apply closes_now. cm.
  - unfold newFunction. cbv zeta. apply finds_right; [solve [cm]|]. intros doc. apply (finds_scope _ _ _ P Q); [| |exact W].
    + apply finds_block. apply (finds_foldM _ _ P kids _ _ (Ph PhFunctionDeclarationHeader hs)); [intros; cm|exact Ih|]. intros (sg, tys).
      apply (finds_value _ _ _ _ _ (fun s => ParameterProofs.has_it d t name (sg_params s))); [solve [cm]| |].
      * intros s a s' _ E. exact (ParameterProofs.function_header_finds d t name Tt Nt hs ps before after Il Ip N sg s a s' E).
      * intros s1 H1. fr. fl. apply (Dp _ _ H1). intros u dc Lu. specialize (Rc dc). unfold header_end in Rc. rewrite Lu in Rc. exact Rc.
    + intros ((sg, tys), inside). apply closes_before; [cm|]. intros ns. apply closes_now. cm.
  - unfold newAnonymousFunction. cbv zeta. apply (finds_scope _ _ _ P Q); [| |exact W].
    + apply finds_block. apply (finds_foldM _ _ P kids _ _ (Ph PhAnonymousFunctionHeader hs)); [intros; cm|exact Ih|]. intros qs.
      apply (finds_value _ _ _ _ _ (ParameterProofs.has_it d t name)); [solve [cm]| |].
      * intros s a s' _ E. exact (ParameterProofs.closure_header_finds d t name Tt Nt hs ps before after Il Ip N qs s a s' E).
      * intros s1 (p & I0 & Np & Rp). fl. apply (finds_forM _ P s1 _ p); [intros; cm|exact I0|]. apply finds_record. rewrite Np, Rp. exact (Rc _).
    + intros b. apply closes_now. cm.
Qed.
Lemma step_node : forall n c, reads d n c -> ok n -> finds P (scan c) -> (is_expression c = true -> finds P (expr c)) ->
  (function_node n -> forall x, held P x -> held P (OpenScope (NodeRange d n) :: x ++ [CloseScope])) ->
  (forall args, ok (Ph PhArgumentExpressionList args) -> In c args -> is_phrase c -> finds P (scan (Ph PhArgumentExpressionList args))) -> step_goal n.
Proof.
  intros n c R K Fs Fe W Fa. destruct R; unfold step_goal; pose proof (ok_kids _ _ K) as Kk.
  - (* all parts *)
    assert (X : typesToScanForChildren ty = true /\ is_expr_type ty = false /\ ty <> PhNamespaceDefinition) by (destruct ty; try discriminate H; repeat split; discriminate).
    destruct X as (T & E & N). split; [|intros Z; rewrite UseProofs.is_expression_type in Z; congruence]. rewrite (node_body_eq ty kids N), T. fr.
    apply finds_right; [apply calm_define_expr; exact K|intros _]. exact (find_children kids c Kk H0 Fs).
  - (* a body *)
    assert (Kp := ok_kids _ _ (Kk _ H0)).
    assert (Fc : finds P (scanForChildren scan ks)) by exact (find_children ks c Kp H1 Fs).
    assert (Ex0 : is_expr_type ty = false) by (destruct ty; try reflexivity; discriminate H). split; [|intros Z; rewrite UseProofs.is_expression_type in Z; congruence].
    destruct ty; try discriminate H; destruct part; try discriminate H; try (apply find_symbol; [assumption|discriminate|reflexivity|]); cbn [symbol_of].
    + unfold newInterface. cbv zeta. fr. fr. apply finds_in_block; [|intros ?; cm].
      apply (finds_forM _ P kids _ (Ph PhInterfaceDeclarationBody ks)); [intros; cm|exact H0|exact Fc].
    + unfold newClass. cbv zeta. fr. fr. apply finds_in_block; [|intros ?; cm].
      apply (finds_forM _ P kids _ (Ph PhClassDeclarationBody ks)); [intros; cm|exact H0|exact Fc].
    + exact (find_body P PhMethodDeclaration PhMethodDeclarationBody kids ks Kk I eq_refl H0 Fc (W I)).
    + exact (find_body P PhFunctionDeclaration PhFunctionDeclarationBody kids ks Kk I eq_refl H0 Fc (W I)).
    + unfold newConstDeclaration. apply (finds_forM _ P kids _ (Ph PhConstElementList ks)); [intros; cm|exact H0|exact Fc].
    + unfold newTrait. cbv zeta. fr. apply finds_in_block; [|intros ?; cm].
      apply (finds_forM _ P kids _ (Ph PhTraitDeclarationBody ks)); [intros; cm|exact H0|exact Fc].
    + exact (find_body P PhAnonymousFunctionCreationExpression PhFunctionDeclarationBody kids ks Kk I eq_refl H0 Fc (W I)).
    + unfold newAnonymousClass. cbv zeta. fr. fr. fr. fr. apply finds_in_block; [|intros ?; cm].
      apply (finds_forM _ P kids _ (Ph PhClassDeclarationBody ks)); [intros; cm|exact H0|exact Fc].
    + cbn [node_body]. pose proof (ok_namespace kids K) as U. pose proof (calm_free U). pose proof (calm_push_free U). unfold newNamespace. fr. fr.
      apply (finds_forM _ P kids _ (Ph PhStatementList ks)); [intros; cm|exact H0|exact Fc].
  - (* the initial value of a property *)
    only_symbol. cbn [symbol_of]. unfold newPropertyDeclaration. fl.
    apply (finds_foldM _ _ P kids _ _ (Ph PhPropertyElementList es)); [intros; cm|exact H|]. intros (vis, st). fl.
    pose proof (ok_kids _ _ (Kk _ H)) as K1. pose proof (ok_kids _ _ (K1 _ H0)) as K2. pose proof (ok_kids _ _ (K2 _ H1)) as K3.
    apply (finds_forM _ P es _ (Ph PhPropertyElement ps)); [intros; cm|exact H0|]. unfold newProperty. cbv zeta. fr. fl.
    apply (finds_foldM _ _ P ps _ _ (Ph PhPropertyInitialiser vs)); [intros; cm|exact H1|]. intros x. fl. exact (find_children vs c K3 H2 Fs).
  - (* the value of a constant *)
    only_symbol. cbn [symbol_of]. unfold newClassConstDeclaration. fl.
    pose proof (ok_kids _ _ (Kk _ H)) as K1. pose proof (ok_kids _ _ (K1 _ H0)) as K2.
    apply (finds_foldM _ _ P kids _ _ (Ph PhClassConstElementList es)); [intros; cm|exact H|]. intros vis. fl.
    apply (finds_forM _ P es _ (Ph PhClassConstElement (before ++ eq :: after))); [intros; cm|exact H0|]. unfold newClassConst. cbv zeta. fr. fr. fl.
    apply (class_const_value before eq after c); assumption.
  - (* arguments *)
    only_symbol. cbn [symbol_of]. fl. exact (find_arguments _ kids c Kk H H0 Fs).
  - (* a call *)
    assert (Ia : In (Ph PhArgumentExpressionList args) kids).
    { apply UseProofs.in_lists. destruct (argument_lists_of kids) as [|x l]; [discriminate H|]. injection H as ->. left. reflexivity. }
    pose proof (Fa args (Kk _ Ia) H0 H1) as Fl.
    assert (Fc : finds P (newFunctionCall d scan expr kids)).
    { unfold newFunctionCall. destruct kids as [|k kids]; [destruct Ia|]. fr. fr. fr. fr. fr. fr. fl.
      exact (find_first (k :: kids) args Kk H Fl). }
    assert (Fb : finds P (expr_body d scan expr (Ph PhFunctionCallExpression kids))) by (cbn [expr_body construct]; apply finds_left; [exact Fc|intros e; cm]).
    split; [|intros _; exact Fb]. rewrite node_body_eq by discriminate. cbn [typesToScanForChildren].
    intros s a s' g E. step E b s1 F1. apply pure_isDefine in F1 as Z. subst s1. destruct b.
    + step E u s2 F2. done F2. cbn [symbol_of] in E. unfold tryToNewDefine in E. step E b s3 F3. apply pure_isDefine in F3 as Z. subst s3.
      assert (b = true) as -> by congruence.
      assert (Fd : finds P (newDefine d scan (Ph PhFunctionCallExpression kids) kids)).
      { unfold newDefine. cbv zeta. fr. apply finds_in_block; [|intros ?; cm].
        apply (finds_foldM _ _ P kids _ _ (Ph PhArgumentExpressionList args)); [intros; cm|exact Ia|]. intros acc. fl.
        exact (find_arguments _ args c (ok_kids _ _ (Kk _ Ia)) H0 H1 Fs). }
      exact (Fd s a s' g E).
    + assert (Ff : finds P ((e <- expr_body d scan expr (Ph PhFunctionCallExpression kids) ;; ret tt) ;;; symbol_of d scan expr (Ph PhFunctionCallExpression kids) PhFunctionCallExpression kids)).
      { apply finds_left; [apply finds_left; [exact Fb|intros; cm]|]. intros _. apply calm_symbol_of; [discriminate|exact Kk]. }
      exact (Ff s a s' g E).
  - (* a static call *)
    apply find_construct; try assumption; [reflexivity|]. cbn [construct]. unfold newScopedMethodAccess. cbv zeta. fr. fr. fr. fl.
    assert (Ia : In (Ph PhArgumentExpressionList args) (skipn 3 kids)).
    { apply UseProofs.in_lists. destruct (argument_lists_of (skipn 3 kids)) as [|x l]; [discriminate H0|]. injection H0 as ->. left. reflexivity. }
    exact (find_first (skipn 3 kids) args (oks_skipn 3 kids Kk) H0 (Fa args (oks_skipn 3 kids Kk _ Ia) H1 H2)).
  - (* a method call *)
    apply find_construct; try assumption; [reflexivity|]. cbn [construct]. unfold newMethodAccess. cbv zeta. fr.
    apply (finds_value _ _ P _ _ (fun m => snd m = rest)); [cm|intros s m s' _ E; exact (UseProofs.read_behind d kids name rest H0 2 (or_intror eq_refl) s m s' E)|].
    intros m ->. fr. fl. pose proof (UseProofs.in_lists args rest H1) as Ir.
    assert (Kr : oks rest) by (destruct H0 as (rc & mid & -> & _); intros x X; apply Kk; right; apply in_or_app; right; right; exact X).
    apply (finds_forM _ P rest _ (Ph PhArgumentExpressionList args)); [intros; cm|exact Ir|]. fl. exact (find_arguments _ args c (ok_kids _ _ (Kr _ Ir)) H2 H3 Fs).
  - (* new *)
    apply find_construct; try assumption; [reflexivity|]. cbn [construct]. unfold newClassTypeDesignator. fl. pose proof (UseProofs.in_lists args kids H0) as Ir.
    apply (finds_foldM _ _ P kids _ _ (Ph PhArgumentExpressionList args)); [intros; cm|exact Ir|]. intros e. fl. exact (find_arguments _ args c (ok_kids _ _ (Kk _ Ir)) H1 H2 Fs).
  - (* a new class *)
    apply find_construct; try assumption; [reflexivity|]. cbn [construct]. unfold newClassTypeDesignator. fl.
    apply (finds_foldM _ _ P kids _ _ (Ph PhAnonymousClassDeclaration ks)); [intros; cm|exact H0|]. intros e. apply finds_in_block; [exact Fs|].
    intros r. cm.
  - only_symbol. cbn [symbol_of]. unfold newAnonymousClass. cbv zeta. fr. fr. fr. fr. apply finds_in_block; [|intros ?; cm].
    apply (finds_forM _ P kids _ (Ph PhAnonymousClassDeclarationHeader hs)); [intros; cm|exact H|]. pose proof (ok_kids _ _ (Kk _ H)) as K1. unfold class_header.
    apply (finds_forM _ P hs _ (Ph PhArgumentExpressionList args)); [intros; cm|exact H0|exact Fs].
  - (* the receiver *)
    assert (Fr : finds P (receiver expr (c :: kids))).
    { unfold receiver. destruct c as [ty' ks|t|u]; try discriminate H1. fl. exact (Fe H1). }
    apply find_construct; try assumption; [destruct H0 as [-> | ->]; reflexivity|]. destruct H0 as [-> | ->]; cbn [construct].
    + unfold newMethodAccess. apply finds_left; [exact Fr|]. intros _.
      apply (calm_value _ _ _ _ (fun m => oks (snd m))); [cm| |intros m Km; cm]. intros s a s' _ E x I. exact (oks_skipn 2 _ Kk x (UseProofs.read_rest d _ _ _ _ E x I)).
    + unfold newPropertyAccess. apply finds_left; [exact Fr|]. intros _. cm.
  - (* inside parentheses *)
    apply find_construct; try assumption; [destruct H0 as [-> | ->]; reflexivity|].
    assert (X : finds P (newDerivedExpression d scan expr (Ph ty (before ++ c :: after)) (before ++ c :: after))).
    { unfold newDerivedExpression. cbv zeta. apply finds_in_block; [apply find_derived; auto using oks_nil|]. intros r. cm. }
    destruct H0 as [-> | ->]; exact X.
  - (* assigned *)
    destruct H0 as (w1 & eq & w2 & rest & -> & F1 & F2 & (t & -> & T) & Pr).
    assert (Kr : ok right) by (apply Kk; right; apply in_or_app; right; right; apply in_or_app; right; left; reflexivity).
    assert (Rs := UseProofs.right_side is_equals w1 (Tk t) w2 right rest F1 F2 (ex_intro _ t (conj eq_refl (conj (f_equal is_equals T) (f_equal is_whitespace T)))) Pr).
    assert (Ir : In right (w1 ++ Tk t :: w2 ++ right :: rest)) by (apply in_or_app; right; right; apply in_or_app; right; left; reflexivity).
    apply find_construct; try assumption; [reflexivity|]. cbn [construct]. unfold newAssignment. cbv zeta. fr. fl.
    assert (Kt := oks_tail _ _ Kk).
    assert (Ft : finds P (forM (w1 ++ Tk t :: w2 ++ right :: rest) scan)) by (apply (finds_forM _ P _ scan right); [intros; cm|exact Ir|exact Fs]).
    destruct left as [lt lk|? |?]; [|elim H1; reflexivity|elim H1; reflexivity].
    assert (Fo : finds P (scan (Ph lt lk) ;;; forM (w1 ++ Tk t :: w2 ++ right :: rest) scan)) by (fr; exact Ft).
    destruct lt; try exact Fo.
    + apply (find_assigned_var PhSimpleAssignmentExpression _ _ _ right rest); auto. exact (proj2 Rs).
    + destruct (match _ with Some m => _ | None => _ end); [|exact Fo]. apply (find_assigned_property _ right rest); auto. exact (proj1 Rs).
  - (* assigned to *)
    destruct H0 as (w1 & eq & w2 & rest & -> & F1 & F2 & (t & -> & T) & Pr).
    apply find_construct; try assumption; [reflexivity|]. cbn [construct]. unfold newAssignment. cbv zeta. fr. fl.
    assert (Kt := oks_tail _ _ Kk).
    destruct left as [lt lk|? |?]; [|elim H1; reflexivity|elim H1; reflexivity].
    assert (Fo : finds P (scan (Ph lt lk) ;;; forM (w1 ++ Tk t :: w2 ++ right :: rest) scan)) by (apply finds_left; [exact Fs|intros _; apply calm_forM; intros; cm]).
    destruct lt; try exact Fo; [elim H2; reflexivity|].
    destruct (match _ with Some m => _ | None => _ end); [|exact Fo]. unfold processPropertyAccessAssignment. cbv zeta. apply finds_left; [fl; exact (Fe eq_refl)|]. intros _. cbn [skipn].
    rewrite (proj1 (UseProofs.right_side is_equals w1 (Tk t) w2 right rest F1 F2 (ex_intro _ t (conj eq_refl (conj (f_equal is_equals T) (f_equal is_whitespace T)))) Pr)).
    cbn [nth_error]. assert (Kr : ok right) by (apply Kk; right; apply in_or_app; right; right; apply in_or_app; right; left; reflexivity). unfold scan_opt. cm.
  - (* appended *)
    destruct H0 as (w1 & eq & w2 & rest & -> & F1 & F2 & (t & -> & T) & Pr).
    assert (Kr : ok right) by (apply Kk; right; apply in_or_app; right; right; apply in_or_app; right; left; reflexivity).
    assert (Rs := UseProofs.right_side is_dot_equals w1 (Tk t) w2 right rest F1 F2 (ex_intro _ t (conj eq_refl (conj (f_equal is_dot_equals T) (f_equal is_whitespace T)))) Pr).
    apply find_construct; try assumption; [reflexivity|]. cbn [construct]. unfold newAssignment. cbv zeta. fr. fl.
    apply (find_assigned_var PhCompoundAssignmentExpression _ _ _ right rest); auto. exact (proj2 Rs).
  - (* by reference *)
    destruct H0 as (w1 & eq & w2 & amp & w3 & rest & -> & F1 & F2 & F3 & Te & Ta & Pr).
    assert (Kr : ok right) by (apply Kk; right; apply in_or_app; right; right; apply in_or_app; right; right; apply in_or_app; right; left; reflexivity).
    apply find_construct; try assumption; [reflexivity|]. cbn [construct]. unfold newAssignment. cbv zeta. fr. fl.
    apply (find_assigned_var PhByRefAssignmentExpression _ _ _ right rest); auto. cbv zeta. apply UseProofs.right_of_reference; assumption.
  - (* instanceof *)
    assert (Rs := UseProofs.right_side is_instanceof w1 i w2 right rest H0 H1).
    destruct H2 as (t & -> & T). specialize (Rs (ex_intro _ t (conj eq_refl (conj (f_equal is_instanceof T) (f_equal is_whitespace T)))) H4).
    apply find_construct; try assumption; [reflexivity|]. cbn [construct]. unfold processInstanceOfExpression. cbv zeta. fl. cbn [skipn]. rewrite (proj1 Rs).
    assert (Kr : ok right) by (apply Kk; right; apply in_or_app; right; right; apply in_or_app; right; left; reflexivity).
    assert (Kl : ok left) by (apply Kk; left; reflexivity).
    destruct left as [lt lk|? |?]; [|elim H3; reflexivity|elim H3; reflexivity]. destruct right as [rt rk|? |?]; [|elim H4; reflexivity|elim H4; reflexivity].
    destruct H5 as [-> | ->]; [fl; exact (Fe H6)|fr; fl; exact (Fe H6)].
  - (* the collection *)
    apply find_construct; try assumption; [reflexivity|]. cbn [construct]. unfold analyseForeachStatement. fl. pose proof (ok_kids _ _ (Kk _ H0)) as K1.
    apply (finds_forM _ P kids _ (Ph PhForeachCollection ks)); [intros; cm|exact H0|]. apply (finds_forM _ P ks _ c); [intros; cm|exact H1|].
    destruct c as [ct ck|? |?]; try discriminate H2. fl. exact (Fe H2).
  - (* the statements of a loop *)
    apply find_construct; try assumption; [reflexivity|]. cbn [construct]. unfold analyseForeachStatement. fl. pose proof (ok_kids _ _ (Kk _ H1)) as K1.
    apply (finds_forM _ P kids _ (Ph ty ks)); [intros; cm|exact H1|]. assert (X := find_children ks c K1 H2 Fs). destruct H0 as [-> | ->]; exact X.
Qed.


(** *** The variables of a node are recorded *)
Section Mention.
Variables (v : node) (name : gostr).
Hypothesis Nv : GetNodeText d v = Some name.
Lemma variable_value : forall s a s', newVariableWithoutPushing d v s = Done a s' -> a_range a = NodeRange d v /\ ts_original (a_name a) = name.
Proof. intros s a s' E. destruct (TraceProofs.val_newVariableWithoutPushing d v s a s' E) as (R & N). split; [exact R|congruence]. Qed.
Lemma find_newVariable : (forall dc, P [RecordVar (MkVar name (NodeRange d v)) (r_end (NodeRange d v)) dc]) -> forall dc, finds P (newVariable d v dc).
Proof.
  intros HP dc. unfold newVariable. apply (finds_value _ _ P _ _ (fun a => a_range a = NodeRange d v /\ ts_original (a_name a) = name)); [cm| |].
  - intros s a s' _ E. exact (variable_value s a s' E).
  - intros a (R & N). fl. unfold pushVariable. apply finds_record. rewrite R, N. apply HP.
Qed.
Lemma find_assignment : forall ty p rest, (forall dc, P [RecordVar (MkVar name (NodeRange d v)) (r_end (NodeRange d p)) dc]) -> finds P (analyseVariableAssignment d scan expr ty p v rest).
Proof.
  intros ty p rest HP. unfold analyseVariableAssignment. cbv zeta.
  match goal with |- context [nth_error ?r 0] => set (o := nth_error r 0); clearbody o end.
  assert (Ok : forall c, ok c) by (intros c; exact I).
  apply finds_right; [cm|intros doc].
  apply (finds_value _ _ P _ _ (fun a => a_range a = NodeRange d v /\ ts_original (a_name a) = name)); [cm|intros s a s' _ E; exact (variable_value s a s' E)|].
  intros a (R & N). apply (finds_value _ _ P _ _ (fun a => a_range a = NodeRange d v /\ ts_original (a_name a) = name)); [destruct doc; cm| |].
  - intros s b s' _ E. destruct doc as [pd|]; [|done E; split; assumption]. step E tys s1 F. done E. cbn. split; assumption.
  - clear a R N. intros a (R & N). fr. apply finds_right; [destruct o as [[? ?|?|?]|]; cm|intros x].
    apply finds_left; [unfold pushVariable; apply finds_record; rewrite R, N; apply HP|].
    intros _. unfold scan_opt. destruct o as [[? ?|?|?]|]; cm.
Qed.
End Mention.
Lemma step_mention : forall n v name, mentions d n v -> GetNodeText d v = Some name -> (forall dc, P [RecordVar (MkVar name (NodeRange d v)) (known_behind d n v) dc]) -> step_goal n.
Proof.
  intros n v name H Nv HP. assert (K : ok n) by exact I. unfold step_goal. destruct H; pose proof (ok_kids _ _ K) as Kk.
  - apply find_construct; try assumption; [reflexivity|]. cbn [construct]. fl. exact (find_newVariable _ name Nv HP _).
  - apply find_construct; try assumption; [destruct H as [-> | [-> | ->]]; reflexivity|].
    assert (F : finds P (newAssignment d scan expr (Ph ty (Ph PhSimpleVariable vs :: rest)) ty (Ph PhSimpleVariable vs :: rest))).
    { unfold newAssignment. cbv zeta. fr. fl. apply (find_assignment _ name Nv). destruct H as [-> | [-> | ->]]; exact HP. }
    destruct H as [-> | [-> | ->]]; exact F.
  - apply find_construct; try assumption; [reflexivity|]. cbn [construct]. unfold analyseForeachStatement. fl. pose proof (ok_kids _ _ (Kk _ H0)) as K1.
    apply (finds_forM _ P kids _ (Ph PhForeachValue ks)); [intros; cm|exact H0|]. apply (finds_forM _ P ks _ (Ph PhSimpleVariable vs)); [intros; cm|exact H1|].
    fl. exact (find_newVariable _ name Nv HP _).
  - only_symbol. cbn [symbol_of]. unfold newGlobalDeclaration. apply (finds_forM _ P kids _ (Ph PhVariableNameList ks)); [intros; cm|exact H|].
    apply (finds_forM _ P ks _ (Ph PhSimpleVariable vs)); [intros; cm|exact H0|]. unfold newGlobalVariable. cbv zeta.
    apply (finds_value _ _ P _ _ (fun x => x = name)); [cm|intros s x s' _ E; apply lift_done in E; destruct E as (E & _); cbn [GetNodeText] in Nv; congruence|].
    intros x ->. fr. fr. fl. apply finds_record. apply HP.
Qed.
End Open.
Lemma calm_scan : forall fuel n, calm (scanNode d fuel n) /\ calm (scanForExpression d fuel n).
Proof.
  induction fuel as [|fuel IH]; intros n; [split; intros s a s' g E; discriminate E|]. cbn [scanNode scanForExpression].
  split; [apply calm_node_body|apply calm_expr_body]; try exact I; intros c _; apply IH.
Qed.

(** ** What is read is recorded *)
Definition good (P : list var_op -> Prop) (n : node) : Prop :=
  forall fuel, finds P (scanNode d fuel n) /\ (is_expression n = true -> finds P (scanForExpression d fuel n)).
Lemma good_body : forall P n, (forall fuel, step_goal (scanNode d fuel) (scanForExpression d fuel) P n) -> good P n.
Proof.
  intros P n H [|fuel]; [split; [|intros _]; intros s a s' g E; discriminate E|]. destruct (H fuel) as (F & Fe). cbn [scanNode scanForExpression]. split; [exact F|exact Fe].
Qed.
Lemma good_step : forall P n c, reads d n c -> (function_node n -> forall x, held P x -> held P (OpenScope (NodeRange d n) :: x ++ [CloseScope])) -> good P c -> good P n.
Proof.
  intros P n c R W Gc. assert (Sc : forall fuel c, ok c -> calm (scanNode d fuel c)) by (intros; apply calm_scan).
  assert (Ex : forall fuel c, ok c -> calm (scanForExpression d fuel c)) by (intros; apply calm_scan).
  assert (Ga : forall args, In c args -> is_phrase c -> good P (Ph PhArgumentExpressionList args)).
  { intros args I0 Ip. apply good_body. intros fuel. split; [|intros Z; discriminate Z].
    apply (find_symbol (scanNode d fuel) (scanForExpression d fuel) (Sc fuel) (Ex fuel)); [exact I|discriminate|reflexivity|]. cbn [symbol_of].
    apply finds_left; [|intros; apply calm_ret]. apply (find_arguments (scanNode d fuel) (Sc fuel) P _ args c); auto; [intros x _; exact I|apply Gc]. }
  apply good_body. intros fuel.
  apply (step_node (scanNode d fuel) (scanForExpression d fuel) (Sc fuel) (Ex fuel) P (UseProofs.no_expression d fuel) n c R I); [apply Gc|apply Gc|exact W|].
  intros args _ I0 Ip. apply Ga; assumption.
Qed.
(** what records the variable [v] *)
Definition recorded (v : node) (name : gostr) (from : position) (ops : list var_op) : Prop := exists dc, ops = [RecordVar (MkVar name (NodeRange d v)) from dc].
Lemma good_mention : forall v name n, mentions d n v -> GetNodeText d v = Some name -> good (recorded v name (known_behind d n v)) n.
Proof.
  intros v name n H N. apply good_body. intros fuel. apply (step_mention (scanNode d fuel) (scanForExpression d fuel)) with (v := v) (name := name); auto.
  1,2: intros; apply calm_scan. intros dc. exists dc. reflexivity.
Qed.
Lemma good_own : forall P m n, reads_own d m n -> good P n -> good P m.
Proof.
  intros P m n H. induction H as [|n c H IH N R]; intros Gn; [exact Gn|]. apply IH. apply (good_step P n c R); [|exact Gn]. intros F. destruct (N F).
Qed.
(** the scope of the function [g] *)
Definition opened (g : node) (ops : list var_op) : Prop := exists i, ops = OpenScope (NodeRange d g) :: i ++ [CloseScope] /\ level i.
Lemma good_function : forall g, function_node g -> good (opened g) g.
Proof.
  intros g F. destruct g as [ty kids| |]; try destruct F. apply good_body. intros fuel.
  assert (Sc : forall c, ok c -> calm (scanNode d fuel c)) by (intros; apply calm_scan).
  assert (Ex : forall c, ok c -> calm (scanForExpression d fuel c)) by (intros; apply calm_scan).
  assert (X : finds (opened (Ph ty kids)) (symbol_of d (scanNode d fuel) (scanForExpression d fuel) (Ph ty kids) ty kids)).
  { apply find_opened; auto. intros c _. exact I. }
  split; [|destruct ty; try destruct F; discriminate].
  apply (find_symbol (scanNode d fuel) (scanForExpression d fuel) Sc Ex); [exact I| | |exact X]; destruct ty; try destruct F; solve [discriminate|reflexivity].
Qed.
(** in the file *)
Lemma file_held : forall P s n, analyse d = Done tt s -> own_code d None n -> good P n -> held P (st_vars s).
Proof.
  intros P s n E (m & Im & R) Gn. unfold analyse, Load in E. step E u s1 F. destruct (d_root d) as [ty kids|t|er] eqn:Ro; cbn [node_kids] in Im; try destruct Im.
  assert (Fm : finds P (scanForChildren (scanNode d (height (Ph ty kids))) kids)).
  { unfold scanForChildren. apply (finds_forM _ _ kids _ m); [|exact Im|].
    - intros y _. apply calm_scan.
    - apply (good_own _ m n R Gn). }
  destruct (Fm _ _ _ I F) as (_ & new & O & X). step E i s2 F2. done E. destruct (calm_currImportTable _ _ _ I F2) as (_ & more & O2 & L2).
  rewrite O2, O. cbn [initial st_vars app]. exact (held_app_l _ _ _ X L2).
Qed.
(** in a function *)
Lemma level_prefix : forall a k inner b, balanced k inner -> balanced (S k) a -> a ++ b = inner ++ [CloseScope] -> b = [].
Proof.
  induction a as [|op a IH]; intros k inner b Bi Ba E; [discriminate Ba|]. destruct inner as [|op' inner]; cbn [app] in E; injection E as -> E.
  - destruct a; [exact E|discriminate E].
  - destruct op'; cbn [balanced] in Ba, Bi; try exact (IH k inner b Bi Ba E); [exact (IH (S k) inner b Bi Ba E)|]. destruct k as [|k]; [destruct Bi|]. exact (IH k inner b Bi Ba E).
Qed.
Lemma scope_unique : forall r a x y inner, level a -> level x -> level inner -> a ++ (OpenScope r :: x ++ [CloseScope]) ++ y = OpenScope r :: inner ++ [CloseScope] -> x = inner.
Proof.
  intros r a x y inner La Lx Li E. destruct a as [|op a].
  - cbn [app] in E. injection E as E. assert (Y : y = []).
    { apply (level_prefix (x ++ [CloseScope]) 0 inner y Li); [|rewrite <- E, <- app_assoc; reflexivity]. exact (balanced_app x 0 [CloseScope] 1 Lx eq_refl). }
    subst y. rewrite app_nil_r in E. apply app_inj_tail in E. exact (proj1 E).
  - cbn [app] in E. injection E as -> E. unfold level in La. cbn [balanced] in La. pose proof (level_prefix a 0 inner _ Li La E) as Z. discriminate Z.
Qed.
Lemma function_held : forall P fuel f n s u s' inner, function_node f -> own_code d (Some f) n -> good P n ->
  (match f with Ph ty kids => symbol_of d (scanNode d fuel) (scanForExpression d fuel) f ty kids | _ => ret tt end) s = Done u s' ->
  level inner -> st_vars s' = st_vars s ++ OpenScope (NodeRange d f) :: inner ++ [CloseScope] -> held P inner.
Proof.
  intros P fuel f n s u s' inner Fn (c & R & Ro) Gn E Li O. pose proof (good_own P c n Ro Gn fuel) as (Gc & _).
  destruct R; try (destruct Fn; fail); try (match goal with T : _ = _ \/ _ = _ |- _ => destruct T as [-> | ->]; destruct Fn end).
  { destruct ty; try discriminate; destruct Fn. }
  set (Q := fun x : list var_op => exists i, x = OpenScope (NodeRange d (Ph ty kids)) :: i ++ [CloseScope] /\ held P i).
  assert (F : finds Q (symbol_of d (scanNode d fuel) (scanForExpression d fuel) (Ph ty kids) ty kids)).
  { apply (find_body (scanNode d fuel) (scanForExpression d fuel)) with (P := P) (part := part) (ks := ks); auto.
    1: intros; apply calm_scan. 1: intros x _; exact I.
    - unfold scanForChildren. apply (finds_forM _ _ ks _ c); [intros; apply calm_scan|assumption|exact Gc].
    - intros x X. exists [], (OpenScope (NodeRange d (Ph ty kids)) :: x ++ [CloseScope]), []. rewrite app_nil_r. split; [reflexivity|]. split; [reflexivity|]. split; [reflexivity|].
      split; [exact (level_scope _ x [] (held_level _ _ X) eq_refl)|]. exists x. auto. }
  destruct (F s u s' I E) as (_ & new & O2 & a & x & b & -> & La & Lb & Lx & i & -> & Hi). rewrite O in O2. apply app_inv_head in O2.
  rewrite (scope_unique _ a i b inner La (held_level _ _ Hi) Li (eq_sym O2)) in Hi. exact Hi.
Qed.
(** a parameter of a function *)
Lemma parameter_held : forall fuel f v from name s u s' inner, parameter_of d (Some f) v from -> GetNodeText d v = Some name ->
  (match f with Ph ty kids => symbol_of d (scanNode d fuel) (scanForExpression d fuel) f ty kids | _ => ret tt end) s = Done u s' ->
  level inner -> st_vars s' = st_vars s ++ OpenScope (NodeRange d f) :: inner ++ [CloseScope] -> held (recorded v name from) inner.
Proof.
  intros fuel f v from name s u s' inner Pa N E Li O. destruct f as [ty kids| |]; [|destruct Pa|destruct Pa]. destruct Pa as (header & hs & ps & before & t & after & F & Ih & Il & Ip & Tt & Na & -> & ->).
  set (Q := fun x : list var_op => exists i, x = OpenScope (NodeRange d (Ph ty kids)) :: i ++ [CloseScope] /\ held (recorded (Tk t) name (header_end d ty (Ph header hs))) i).
  assert (Fd : finds Q (symbol_of d (scanNode d fuel) (scanForExpression d fuel) (Ph ty kids) ty kids)).
  { eapply (find_parameter (scanNode d fuel) (scanForExpression d fuel)) with (P := recorded (Tk t) name (header_end d ty (Ph header hs))); try eassumption.
    - intros; apply calm_scan.
    - intros y _; exact I.
    - intros dc. exists dc. reflexivity.
    - intros y X. exists [], (OpenScope (NodeRange d (Ph ty kids)) :: y ++ [CloseScope]), []. rewrite app_nil_r. split; [reflexivity|]. split; [reflexivity|]. split; [reflexivity|].
      split; [exact (level_scope _ y [] (held_level _ _ X) eq_refl)|]. exists y. auto. }
  destruct (Fd s u s' I E) as (_ & new & O2 & a & y & b & -> & La & Lb & Lx & i & -> & Hi). rewrite O in O2. apply app_inv_head in O2.
  rewrite (scope_unique _ a i b inner La (held_level _ _ Hi) Li (eq_sym O2)) in Hi. exact Hi.
Qed.
End Calm.
