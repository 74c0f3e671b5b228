(** Every use in the code the analysis reads is found. *)
From Coq Require Import String.
From Coq Require Import List Bool ZArith Lia.
From Coq.Strings Require Import Byte.
From Verif Require Import Base.Bytes Base.BytesProofs Base.Protocol Symbols.Symbols Symbols.KeysModel Text.TextModel
  Types.TypesModel Types.ImportModel Ide.VariableModel Rpc.StreamModel Rpc.StreamSpec
  Analyse.SyntaxModel Analyse.AnalyseModel Analyse.AnalyseSpec Analyse.SpecProofs Analyse.LeafProofs Analyse.AnalyseProofs
  Analyse.DeclareSpec Analyse.DeclareProofs Analyse.UseSpec Analyse.ResolveSpec.
Import ListNotations.
Open Scope list_scope.
Open Scope nat_scope.

(** ** Trees in which imports do not change *)
(** the namespace of a table and what its aliases stand for *)
Definition names_of (m : alias_map) (a : gostr) : option gostr := option_map it_name (am_get m a).
Definition same_names (t t' : ImportTable) : Prop :=
  GetNamespace t' = GetNamespace t /\ (forall a, names_of (classes t') a = names_of (classes t) a) /\
  (forall a, names_of (functions t') a = names_of (functions t) a) /\ (forall a, names_of (constants t') a = names_of (constants t) a).

(** the names stay, and where the table begins *)
Definition marks (t t' : ImportTable) : Prop := same_names t t' /\ start t' = start t.
(** where the table of the whole file begins *)
Definition root_pos (d : document) : position := pos_at d (match FirstToken (d_root d) with Some t => t_offset t | None => 0 end).

Section Calm.
Context {TX : Text} {TR : TrimSpace} (d : document).
(** what is known of the import tables: it is about the names in them *)
Variable G : list ImportTable -> Prop.
Definition unconditional : Prop := forall l, G l.
Hypothesis G_push : G [] -> G [newImportTable (root_pos d)].
Hypothesis G_same : forall l t f, nth_error l (length l - 1) = Some t -> marks t (f t) -> G l -> G (update_nth l (length l - 1) f).

(** runs that only add symbols *)
Definition calm {A} (m : M A) : Prop := forall s a s', G (st_imports s) -> m s = Done a s' -> G (st_imports s') /\ exists new, st_out s' = st_out s ++ new.
Definition held (P : adata -> Prop) (l : list asym) : Prop := exists a, In a (flat_map symbols_in l) /\ P a.
Definition finds {A} (P : adata -> Prop) (m : M A) : Prop := forall s a s', G (st_imports s) -> m s = Done a s' ->
  G (st_imports s') /\ exists new, st_out s' = st_out s ++ new /\ held P new.

Lemma held_app_l : forall P a b, held P a -> held P (a ++ b).
Proof. intros P a b (x & I & p). exists x. rewrite flat_map_app. split; [apply in_or_app; left; exact I|exact p]. Qed.
Lemma held_app_r : forall P a b, held P b -> held P (a ++ b).
Proof. intros P a b (x & I & p). exists x. rewrite flat_map_app. split; [apply in_or_app; right; exact I|exact p]. Qed.
Lemma calm_ret : forall A (a : A), calm (ret a).
Proof. intros A a s b s' g E. done E. split; [exact g|]. exists []. rewrite app_nil_r. reflexivity. Qed.
Lemma calm_bind : forall A B (m : M A) (f : A -> M B), calm m -> (forall a, calm (f a)) -> calm (bind m f).
Proof.
  intros A B m f H1 H2 s b s'' g E. step E a s' F. destruct (H1 s a s' g F) as (g' & n1 & O1). destruct (H2 a s' b s'' g' E) as (g'' & n2 & O2).
  split; [exact g''|]. exists (n1 ++ n2). rewrite O2, O1, app_assoc. reflexivity.
Qed.
Lemma finds_calm : forall A P (m : M A), finds P m -> calm m.
Proof. intros A P m H s a s' g E. destruct (H s a s' g E) as (g' & new & O & _). split; [exact g'|]. exists new. exact O. Qed.
Lemma finds_left : forall A B P (m : M A) (f : A -> M B), finds P m -> (forall a, calm (f a)) -> finds P (bind m f).
Proof.
  intros A B P m f H1 H2 s b s'' g E. step E a s' F. destruct (H1 s a s' g F) as (g' & n1 & O1 & X). destruct (H2 a s' b s'' g' E) as (g'' & n2 & O2).
  split; [exact g''|]. exists (n1 ++ n2). rewrite O2, O1, app_assoc. split; [reflexivity|]. exact (held_app_l P n1 n2 X).
Qed.
Lemma finds_right : forall A B P (m : M A) (f : A -> M B), calm m -> (forall a, finds P (f a)) -> finds P (bind m f).
Proof.
  intros A B P m f H1 H2 s b s'' g E. step E a s' F. destruct (H1 s a s' g F) as (g' & n1 & O1). destruct (H2 a s' b s'' g' E) as (g'' & n2 & O2 & X).
  split; [exact g''|]. exists (n1 ++ n2). rewrite O2, O1, app_assoc. split; [reflexivity|]. exact (held_app_r P n1 n2 X).
Qed.
(** the same, knowing the result *)
Lemma finds_value : forall A B P (m : M A) (f : A -> M B) (Q : A -> Prop), calm m -> (forall s a s', G (st_imports s) -> m s = Done a s' -> Q a) ->
  (forall a, Q a -> finds P (f a)) -> finds P (bind m f).
Proof.
  intros A B P m f Q H1 HQ H2 s b s'' g E. step E a s' F. destruct (H1 s a s' g F) as (g' & n1 & O1). destruct (H2 a (HQ s a s' g F) s' b s'' g' E) as (g'' & n2 & O2 & X).
  split; [exact g''|]. exists (n1 ++ n2). rewrite O2, O1, app_assoc. split; [reflexivity|]. exact (held_app_r P n1 n2 X).
Qed.
Lemma calm_forM : forall A (l : list A) f, (forall x, In x l -> calm (f x)) -> calm (forM l f).
Proof. intros A l f H. induction l as [|x l IH]; cbn [forM]; [apply calm_ret|]. apply calm_bind; [apply H; left; reflexivity|intros _; apply IH; intros y Y; apply H; right; exact Y]. Qed.
Lemma calm_foldM : forall A B (l : list A) (f : B -> A -> M B) b, (forall b x, In x l -> calm (f b x)) -> calm (foldM l f b).
Proof.
  intros A B l f b H. revert b. induction l as [|x l IH]; intros b; cbn [foldM]; [apply calm_ret|].
  apply calm_bind; [apply H; left; reflexivity|intros b'; apply IH; intros b'' y Y; apply H; right; exact Y].
Qed.
Lemma finds_forM : forall A P (l : list A) f x, (forall y, In y l -> calm (f y)) -> In x l -> finds P (f x) -> finds P (forM l f).
Proof.
  intros A P l f x H I F. induction l as [|y l IH]; [destruct I|]. cbn [forM]. destruct I as [->|I].
  - apply finds_left; [exact F|]. intros _. apply calm_forM. intros z Z. apply H. right. exact Z.
  - apply finds_right; [apply H; left; reflexivity|]. intros _. apply IH; [|exact I]. intros z Z. apply H. right. exact Z.
Qed.
Lemma finds_foldM : forall A B P (l : list A) (f : B -> A -> M B) b x, (forall b y, In y l -> calm (f b y)) -> In x l -> (forall b, finds P (f b x)) -> finds P (foldM l f b).
Proof.
  intros A B P l f b x H I F. revert b. induction l as [|y l IH]; intros b; [destruct I|]. cbn [foldM]. destruct I as [->|I].
  - apply finds_left; [apply F|]. intros b'. apply calm_foldM. intros b'' z Z. apply H. right. exact Z.
  - apply finds_right; [apply H; left; reflexivity|]. intros b'. apply IH; [|exact I]. intros b'' z Z. apply H. right. exact Z.
Qed.
Lemma calm_emit : forall t, calm (emit t).
Proof. intros t s a s' g E. injection E as _ <-. split; [exact g|]. exists [t]. reflexivity. Qed.
Lemma calm_emit1 : forall t, calm (emit1 t).
Proof. intros t. apply calm_emit. Qed.
Lemma finds_emit1 : forall (P : adata -> Prop) a, P a -> finds P (emit1 a).
Proof. intros P a p s b s' g E. injection E as _ <-. split; [exact g|]. exists [ASym a []]. split; [reflexivity|]. exists a. split; [left; reflexivity|exact p]. Qed.
Lemma finds_emit : forall (P : adata -> Prop) a kids, P a -> finds P (emit (ASym a kids)).
Proof. intros P a kids p s b s' g E. injection E as _ <-. split; [exact g|]. exists [ASym a kids]. split; [reflexivity|]. exists a. split; [left; reflexivity|exact p]. Qed.
Lemma finds_emit_kids : forall P a kids, held P kids -> finds P (emit (ASym a kids)).
Proof.
  intros P a kids (x & I & p) s b s' g E. injection E as _ <-. split; [exact g|]. exists [ASym a kids]. split; [reflexivity|]. exists x.
  split; [|exact p]. cbn [flat_map symbols_in]. rewrite app_nil_r. right. exact I.
Qed.
Lemma calm_quiet : forall A (m : M A), quiet m -> (forall s a s', G (st_imports s) -> m s = Done a s' -> G (st_imports s')) -> calm m.
Proof. intros A m Q H s a s' g E. split; [exact (H s a s' g E)|]. exists []. rewrite (Q s a s' E), app_nil_r. reflexivity. Qed.
Lemma calm_get : forall A (f : state -> A), calm (get f).
Proof. intros A f. apply calm_quiet; [apply quiet_get|]. intros s a s' g E. injection E as _ <-. exact g. Qed.
Lemma calm_lift : forall A (o : option A), calm (lift o).
Proof. intros A o. apply calm_quiet; [apply quiet_lift|]. intros s a s' g E. apply lift_done in E. destruct E as (_ & ->). exact g. Qed.
Lemma calm_panic : forall A, calm (@panic A).
Proof. intros A s a s' g E. discriminate E. Qed.
Lemma calm_addClass : forall c, calm (addClass c).
Proof. intros c. apply calm_quiet; [apply quiet_addClass|]. intros s a s' g E. injection E as _ <-. exact g. Qed.
Lemma calm_change_class : forall i f, calm (change_class i f).
Proof. intros i f. apply calm_quiet; [apply quiet_change_class|]. intros s a s' g E. injection E as _ <-. exact g. Qed.
Lemma calm_set_block : forall b, calm (set_block b).
Proof. intros b. apply calm_quiet; [apply quiet_set_block|]. intros s a s' g E. injection E as _ <-. exact g. Qed.
Lemma calm_set_doc : forall p, calm (set_doc p).
Proof. intros p s a s' g E. injection E as _ <-. split; [exact g|]. exists []. cbn [st_out]. rewrite app_nil_r. reflexivity. Qed.
Lemma calm_var_do : forall op, calm (var_do op).
Proof. intros op. apply calm_quiet; [apply quiet_var_do|]. intros s a s' g E. injection E as _ <-. exact g. Qed.
Lemma calm_getLastClass : calm getLastClass.
Proof. apply calm_get. Qed.
Lemma calm_in_block : forall A b (m : M A), calm m -> calm (in_block b m).
Proof.
  intros A b m H. apply calm_quiet; [apply quiet_in_block|]. intros s a s' g E. unfold in_block in E.
  destruct (m _) as [x t| |] eqn:F; try discriminate. injection E as _ <-. cbn [st_imports]. exact (proj1 (H (St [] b (st_classes s) (st_imports s) (st_doc s) (st_vars s)) x t g F)).
Qed.
Lemma finds_in_block : forall A B P b (m : M A) (f : A * list asym -> M B), finds P m -> (forall x, held P (snd x) -> finds P (f x)) -> finds P (bind (in_block b m) f).
Proof.
  intros A B P b m f H1 H2. apply (finds_value _ _ P (in_block b m) f (fun x => held P (snd x))); [apply calm_in_block; exact (finds_calm _ P m H1)| |exact H2].
  intros s a s' g E. unfold in_block in E. destruct (m _) as [x t| |] eqn:F; try discriminate. injection E as <- _. cbn [snd].
  destruct (H1 (St [] b (st_classes s) (st_imports s) (st_doc s) (st_vars s)) x t g F) as (_ & new & O & X). cbn [st_out] in O. rewrite O. exact X.
Qed.
Lemma finds_impl : forall A (P Q : adata -> Prop) (m : M A), (forall a, P a -> Q a) -> finds P m -> finds Q m.
Proof.
  intros A P Q m I H s a s' g E. destruct (H s a s' g E) as (g' & new & O & x & X & p). split; [exact g'|]. exists new. split; [exact O|]. exists x. auto.
Qed.

Lemma calm_currImportTable : calm (currImportTable d).
Proof.
  apply calm_quiet; [apply quiet_currImportTable|]. intros s a s' g E. unfold currImportTable, pushImportTable in E. step E l s1 F. injection F as <- <-.
  destruct (st_imports s) as [|t l] eqn:L; [|done E; rewrite L; exact g]. step E l1 s2 F. injection F as <- <-. step E u s3 F. injection F as _ <-. done E.
  cbn [st_imports]. rewrite L. cbn. apply G_push. exact g.
Qed.
Lemma calm_get_table : forall i, calm (get_table i).
Proof. intros i. unfold get_table. apply calm_bind; [apply calm_get|intros l; apply calm_lift]. Qed.
(** the current table, and a change of it *)
Lemma curr_place : forall s i s', currImportTable d s = Done i s' -> i = length (st_imports s') - 1 /\ i < length (st_imports s').
Proof.
  intros s i s' E. unfold currImportTable, pushImportTable in E. step E l s1 F. injection F as <- <-.
  destruct (st_imports s) as [|t l] eqn:L; [|done E; rewrite L; cbn; lia]. step E l1 s2 F. injection F as <- <-. step E u s3 F. injection F as _ <-. done E.
  cbn [st_imports]. rewrite L. cbn. lia.
Qed.

(** *** Marking an import as used *)
Lemma same_refl : forall t, marks t t.
Proof. intros t. repeat split. Qed.
Lemma names_set : forall m a r u b, (forall i, am_get m a = Some i -> names_of (am_set m a (Item (it_name i) r u)) b = names_of m b).
Proof.
  intros m a r u b i E. unfold names_of. induction m as [|(c, j) m IH]; [discriminate E|]. cbn [am_get am_set] in *. destruct (str_eqb c a) eqn:Z.
  - injection E as ->. apply str_eqb_eq in Z. subst c. cbn [am_get]. destruct (str_eqb a b); reflexivity.
  - cbn [am_get]. destruct (str_eqb c b); [reflexivity|]. exact (IH E).
Qed.
Lemma names_use : forall m a b, names_of (am_use m a) b = names_of m b.
Proof. intros m a b. unfold am_use. destruct (am_get m a) as [i|] eqn:E; [|reflexivity]. exact (names_set m a (it_range i) true b i E). Qed.
Lemma same_useClass : forall t a, marks t (useClass t a).
Proof. intros t a. unfold useClass, marks, same_names, GetNamespace. cbn. repeat split. intros b. apply names_use. Qed.
Lemma same_useFunction : forall t a, marks t (useFunction t a).
Proof. intros t a. unfold useFunction, marks, same_names, GetNamespace. cbn. repeat split. intros b. apply names_use. Qed.
Lemma same_useConstant : forall t a, marks t (useConstant t a).
Proof. intros t a. unfold useConstant, marks, same_names, GetNamespace. cbn. repeat split. intros b. apply names_use. Qed.
Lemma same_fqn : forall t x, marks t (snd (GetClassReferenceFQN t x)).
Proof.
  intros t x. unfold GetClassReferenceFQN. destruct (GetFirstAndRestParts x) as (f, r). destruct (am_get (classes t) f); [apply same_useClass|apply same_refl].
Qed.
Lemma same_useFunctionOrClass : forall t x, marks t (useFunctionOrClass t x).
Proof. intros t x. unfold useFunctionOrClass. destruct (GetFirstAndRestParts x) as (f, [|r l]); [apply same_useFunction|apply same_useClass]. Qed.
Lemma same_useConstOrClass : forall t x, marks t (useConstOrClass t x).
Proof. intros t x. unfold useConstOrClass. destruct (GetFirstAndRestParts x) as (f, [|r l]); [apply same_useConstant|apply same_useClass]. Qed.

Lemma change_done : forall i f s u s', change_table i f s = Done u s' -> st_out s' = st_out s /\ st_imports s' = update_nth (st_imports s) i f.
Proof. intros i f s u s' E. unfold change_table in E. step E l s1 F. injection F as <- <-. injection E as _ <-. split; reflexivity. Qed.
Lemma G_change : forall s i s1 f u s2, G (st_imports s) -> currImportTable d s = Done i s1 -> (forall t, marks t (f t)) ->
  change_table i f s1 = Done u s2 -> G (st_imports s2) /\ st_out s2 = st_out s.
Proof.
  intros s i s1 f u s2 g E S F. destruct (calm_currImportTable s i s1 g E) as (g1 & _). pose proof (quiet_currImportTable d s i s1 E) as Q.
  destruct (curr_place s i s1 E) as (-> & L). destruct (change_done _ _ _ _ _ F) as (O & Im). rewrite Im, O. split; [|exact Q].
  destruct (nth_error (st_imports s1) (length (st_imports s1) - 1)) as [t|] eqn:N; [|apply nth_error_None in N; lia].
  exact (G_same _ t f N (S t) g1).
Qed.
(** the class a name stands for *)
Definition resolved (x : gostr) (t : type_string) : Prop := exists l tb t0, G l /\ nth_error l (length l - 1) = Some tb /\
  NewTypeString x = Some t0 /\ t = SetFQN t0 (fst (GetClassReferenceFQN tb t0)).
Lemma resolve_done : forall t s t' s', G (st_imports s) -> resolveClass d t s = Done t' s' ->
  G (st_imports s') /\ st_out s' = st_out s /\ exists l tb, G l /\ nth_error l (length l - 1) = Some tb /\ t' = SetFQN t (fst (GetClassReferenceFQN tb t)).
Proof.
  intros t s t' s' g E. pose proof (quiet_resolveClass d t s t' s' E) as Q. unfold resolveClass in E. step E i s1 F. destruct (calm_currImportTable s i s1 g F) as (g1 & _).
  destruct (curr_place s i s1 F) as (-> & L). step E tb s2 F2. unfold get_table in F2. step F2 l s3 F3. injection F3 as <- <-. apply lift_done in F2. destruct F2 as (N & ->).
  destruct (GetClassReferenceFQN tb t) as (fqn, tb') eqn:R. step E u s4 F4. done E. destruct (change_done _ _ _ _ _ F4) as (_ & Im).
  split; [rewrite Im; apply (G_same _ tb _ N); [|exact g1]; cbv beta|split; [exact Q|]].
  - pose proof (same_fqn tb t) as X. rewrite R in X. exact X.
  - exists (st_imports s1), tb. rewrite R. cbn [fst]. auto.
Qed.
Lemma calm_resolveClass : forall t, calm (resolveClass d t).
Proof. intros t s t' s' g E. destruct (resolve_done t s t' s' g E) as (g' & O & _). split; [exact g'|]. exists []. rewrite O, app_nil_r. reflexivity. Qed.
Lemma reference_done : forall n s t' s', G (st_imports s) -> classReference d n s = Done t' s' -> G (st_imports s') /\ st_out s' = st_out s /\
  exists x, GetNodeText d n = Some x /\ resolved x t'.
Proof.
  intros n s t' s' g E. unfold classReference, transformQualifiedName, nodeText, newTypeString in E. step E t s1 F. step F x s2 F2. apply lift_done in F2. destruct F2 as (Tx & ->).
  apply lift_done in F. destruct F as (Nt & ->). destruct (resolve_done _ _ _ _ g E) as (g' & O & l & tb & gl & N & ->). split; [exact g'|split; [exact O|]].
  exists x. split; [exact Tx|]. exists l, tb, t. auto.
Qed.
Lemma mark_calm : forall A (o : option type_string) f (k : nat -> type_string -> M A), (forall t x, marks t (f x t)) -> (forall i t, calm (k i t)) ->
  calm (i <- currImportTable d ;; t <- lift o ;; change_table i (f t) ;;; k i t).
Proof.
  intros A o f k S K s a s' g E. step E i s1 F. step E t s2 F2. apply lift_done in F2. destruct F2 as (_ & ->). step E u s3 F3.
  destruct (G_change s i s1 (f t) u s3 g F (fun x => S x t) F3) as (g3 & O3). destruct (K i t s3 a s' g3 E) as (g' & new & O). split; [exact g'|]. exists new. rewrite O, O3. reflexivity.
Qed.
Lemma mark_finds : forall A P (o : option type_string) f (k : nat -> type_string -> M A), (forall t x, marks t (f x t)) -> (forall i t, finds P (k i t)) ->
  finds P (i <- currImportTable d ;; t <- lift o ;; change_table i (f t) ;;; k i t).
Proof.
  intros A P o f k S K s a s' g E. step E i s1 F. step E t s2 F2. apply lift_done in F2. destruct F2 as (_ & ->). step E u s3 F3.
  destruct (G_change s i s1 (f t) u s3 g F (fun x => S x t) F3) as (g3 & O3). destruct (K i t s3 a s' g3 E) as (g' & new & O & H). split; [exact g'|]. exists new. rewrite O, O3. auto.
Qed.

(** *** The functions that do not scan *)
Definition ok (n : node) : Prop := unconditional \/ without is_import n.
Definition oks (l : list node) : Prop := forall c, In c l -> ok c.
Lemma ok_kids : forall ty ks, ok (Ph ty ks) -> oks ks.
Proof. intros ty ks [U|W] c I; [left; exact U|right]. apply (without_below _ c _ W). apply (below_kid c c); [exact I|apply below_here]. Qed.
Lemma ok_below : forall m n, below m n -> ok n -> ok m.
Proof. intros m n X [U|W]; [left; exact U|right]. exact (without_below _ m n W X). Qed.
Lemma oks_tail : forall c l, oks (c :: l) -> oks l.
Proof. intros c l H x X. apply H. right. exact X. Qed.
Lemma in_skip : forall f l c, In c (SkipToken f l) -> In c l.
Proof. intros f l c. induction l as [|x l IH]; cbn [SkipToken]; [auto|]. destruct (token_is f x); [intros I; right; exact (IH I)|auto]. Qed.
Lemma oks_skip : forall f l, oks l -> oks (SkipToken f l).
Proof. intros f l H c I. exact (H c (in_skip f l c I)). Qed.
Lemma oks_skipn : forall n l, oks l -> oks (skipn n l).
Proof. intros n l H c I. apply H. rewrite <- (firstn_skipn n l). apply in_or_app. right. exact I. Qed.
Lemma oks_nth : forall l i c, oks l -> nth_error l i = Some c -> ok c.
Proof. intros l i c H E. exact (H c (nth_error_In l i E)). Qed.
Lemma oks_snoc : forall l c, oks l -> ok c -> oks (l ++ [c]).
Proof. intros l c H K x X. apply in_app_or in X. destruct X as [X|[<-|[]]]; auto. Qed.
Lemma oks_nil : oks [].
Proof. intros c []. Qed.
Lemma ok_use : forall kids, ok (Ph PhNamespaceUseDeclaration kids) -> unconditional.
Proof. intros kids [U|W]; [exact U|]. specialize (W _ (below_here _)). discriminate W. Qed.
Lemma ok_namespace : forall kids, ok (Ph PhNamespaceDefinition kids) -> unconditional.
Proof. intros kids [U|W]; [exact U|]. specialize (W _ (below_here _)). discriminate W. Qed.

Ltac know := repeat match goal with
  | K : oks ?l, I : In (Ph ?ty ?ks) ?l |- _ => lazymatch goal with _ : oks ks |- _ => fail | _ => pose proof (ok_kids ty ks (K _ I)) end
  | K : ok (Ph ?ty ?ks) |- _ => lazymatch goal with _ : oks ks |- _ => fail | _ => pose proof (ok_kids ty ks K) end
  | K : oks (?c :: ?l) |- _ => lazymatch goal with _ : oks l |- _ => fail | _ => pose proof (oks_tail c l K) end
  | K : oks (Ph ?ty ?ks :: ?l) |- _ => lazymatch goal with _ : oks ks |- _ => fail | _ => pose proof (ok_kids ty ks (K _ (or_introl eq_refl))) end
  end.
Ltac fine := know; first
  [ assumption
  | solve [match goal with K : oks _ |- ok _ => apply K; first [assumption|left; reflexivity|right; assumption] end]
  | apply oks_nil
  | solve [match goal with K : oks _ |- oks _ => first [apply oks_skipn; exact K|apply oks_skip; exact K] end] ].
Hint Extern 2 (ok _) => fine : calm.
Hint Extern 2 (oks _) => fine : calm.
Hint Resolve calm_ret calm_emit calm_emit1 calm_get calm_lift calm_panic calm_addClass calm_change_class calm_set_block calm_set_doc calm_var_do
  calm_getLastClass calm_currImportTable calm_get_table calm_resolveClass : calm.
Ltac cm1 := match goal with
  | |- calm (bind (currImportTable _) (fun i => bind (newTypeString _) (fun t => bind (change_table i _) (fun _ => _)))) =>
      unfold newTypeString; apply mark_calm; [|intros ? ?]
  | |- calm (bind _ _) => apply calm_bind; [|intros ?]
  | |- calm (forM _ _) => apply calm_forM; intros ? ?
  | |- calm (foldM _ _ _) => apply calm_foldM; intros ? ? ?
  | |- calm (in_block _ _) => apply calm_in_block
  | |- calm (match ?x with _ => _ end) => destruct x
  | |- calm ((match ?x with _ => _ end) _) => destruct x
  | |- calm (let _ := _ in _) => cbv zeta
  | _ => progress cbv beta
  end.
Ltac cm := repeat first [solve [auto with calm nocore]|cm1].

Lemma calm_currNamespace : calm (currNamespace d).
Proof. unfold currNamespace. cm. Qed.
Lemma calm_tokenText : forall t, calm (tokenText d t).
Proof. intros. apply calm_lift. Qed.
Lemma calm_phraseText : forall n, calm (phraseText d n).
Proof. intros. apply calm_lift. Qed.
Lemma calm_nodeText : forall n, calm (nodeText d n).
Proof. intros. apply calm_lift. Qed.
Lemma calm_newTypeString : forall s, calm (newTypeString s).
Proof. intros. apply calm_lift. Qed.
Hint Resolve calm_currNamespace calm_tokenText calm_phraseText calm_nodeText calm_newTypeString : calm.
Lemma calm_transform : forall n, calm (transformQualifiedName d n).
Proof. intros. unfold transformQualifiedName. cm. Qed.
Hint Resolve calm_transform : calm.
Lemma calm_classReference : forall n, calm (classReference d n).
Proof. intros. unfold classReference. cm. Qed.
Lemma calm_getValidPhpDoc : forall r, calm (getValidPhpDoc r).
Proof. intros. unfold getValidPhpDoc. cm. Qed.
Lemma calm_typesFromPhpDoc : forall s, calm (typesFromPhpDoc d s).
Proof. intros. unfold typesFromPhpDoc. cm. Qed.
Hint Resolve calm_classReference calm_getValidPhpDoc calm_typesFromPhpDoc : calm.
Lemma calm_merge_tags : forall t l, calm (merge_tags d t l).
Proof. intros. unfold merge_tags. cm. Qed.
Lemma calm_newTypeDeclaration : forall n, calm (newTypeDeclaration d n).
Proof. intros. unfold newTypeDeclaration. cm. Qed.
Lemma calm_newDirectory : forall t, calm (newDirectoryConstantAccess d t).
Proof. intros. unfold newDirectoryConstantAccess. cm. Qed.
Lemma calm_newConstantAccess : forall n, calm (newConstantAccess d n).
Proof. intros. unfold newConstantAccess. cm. intros t x. apply same_useConstOrClass. Qed.
Lemma calm_relativeTypes : calm relativeTypes.
Proof. unfold relativeTypes. cm. Qed.
Lemma calm_parentTypes : calm parentTypes.
Proof. unfold parentTypes. cm. Qed.
Hint Resolve calm_merge_tags calm_newTypeDeclaration calm_newDirectory calm_newConstantAccess calm_relativeTypes calm_parentTypes : calm.
Lemma calm_newVariableWithoutPushing : forall n, calm (newVariableWithoutPushing d n).
Proof. intros. unfold newVariableWithoutPushing. cm. Qed.
Lemma calm_pushVariable : forall v p b, calm (pushVariable v p b).
Proof. intros. unfold pushVariable. cm. Qed.
Hint Resolve calm_newVariableWithoutPushing calm_pushVariable : calm.
Lemma calm_newVariable : forall n b, calm (newVariable d n b).
Proof. intros. unfold newVariable. cm. Qed.
Lemma calm_newNameAccess : forall k n, calm (newNameAccess d k n).
Proof. intros. unfold newNameAccess. cm. Qed.
Lemma calm_parameter_loop : forall kids p e s, calm (parameter_loop d kids p e s).
Proof. induction kids as [|c kids IH]; intros p e s; cbn [parameter_loop]; [cm|]. destruct c as [ty ks|t|u]; [destruct ty|destruct (t_type t)|]; cm. Qed.
Hint Resolve calm_newVariable calm_newNameAccess calm_parameter_loop : calm.
Lemma calm_newParameter : forall n, calm (newParameter d n).
Proof. intros. unfold newParameter. cm. Qed.
Hint Resolve calm_newParameter : calm.
Lemma calm_parameters : forall l, calm (analyseParameterDeclarationList d l).
Proof. intros. unfold analyseParameterDeclarationList. cm. Qed.
Lemma calm_declare_params : forall h l, calm (declare_params d h l).
Proof. intros. unfold declare_params. cm. Qed.
Lemma calm_apply_function_doc : forall p l, calm (apply_function_doc d p l).
Proof. intros. unfold apply_function_doc. cm. Qed.
Lemma calm_processTypeNode : forall n, calm (processTypeNode d n).
Proof. intros. unfold processTypeNode. cm. Qed.
Hint Resolve calm_parameters calm_declare_params calm_apply_function_doc calm_processTypeNode : calm.
Lemma calm_processTypeUnionNode : forall l, calm (processTypeUnionNode d l).
Proof. intros. unfold processTypeUnionNode. cm. Qed.
Hint Resolve calm_processTypeUnionNode : calm.
Lemma calm_tag_type : forall l c, calm (tag_type d l c).
Proof. intros. unfold tag_type. cm. Qed.
Hint Resolve calm_tag_type : calm.
Lemma calm_typeTag : forall n b l, calm (typeTag d n b l).
Proof. intros. unfold typeTag. cm. Qed.
Lemma calm_methodParam : forall l, calm (methodParam d l).
Proof. intros. unfold methodParam. cm. Qed.
Hint Resolve calm_typeTag calm_methodParam : calm.
Lemma calm_processParamList : forall l, calm (processParamList d l).
Proof. intros. unfold processParamList. cm. Qed.
Hint Resolve calm_processParamList : calm.
Lemma calm_methodTag : forall n l, calm (methodTag d n l).
Proof. intros. unfold methodTag. cm. Qed.
Lemma calm_getTagName : forall l, calm (getTagName d l).
Proof. induction l as [|c l IH]; cbn [getTagName]; [cm|]. destruct c as [ty ks|t|u]; cm. Qed.
Hint Resolve calm_methodTag calm_getTagName : calm.
Lemma calm_parseTag : forall l, calm (parseTag d l).
Proof. intros. unfold parseTag. cm. Qed.
Hint Resolve calm_parseTag : calm.
Lemma calm_newPhpDoc : forall n l, calm (newPhpDocFromNode d n l).
Proof. intros. unfold newPhpDocFromNode. cm. Qed.
Hint Resolve calm_newPhpDoc : calm.
Lemma calm_free : unconditional -> forall i f, calm (change_table i f).
Proof. intros U i f. apply calm_quiet; [apply quiet_change_table|]. intros. apply U. Qed.
Lemma calm_push_free : unconditional -> forall n, calm (pushImportTable d n).
Proof. intros U n. apply calm_quiet; [unfold pushImportTable; hush|]. intros. apply U. Qed.
Lemma calm_addUse : unconditional -> forall u a n r, calm (addUseToImportTable d u a n r).
Proof. intros U u a n r. unfold addUseToImportTable. cm. apply calm_free. exact U. Qed.
Lemma calm_alias : forall l, calm (getAliasFromNode d l).
Proof. induction l as [|c l IH]; cbn [getAliasFromNode]; [cm|]. destruct c as [ty ks|t|u]; cm. Qed.
Hint Resolve calm_alias : calm.
Lemma calm_use_clause : forall l, calm (use_clause d l).
Proof. intros. unfold use_clause. cm. Qed.
Hint Resolve calm_use_clause : calm.
Lemma calm_use : unconditional -> forall l, calm (processNamespaceUseDeclaration d l).
Proof.
  intros U l. pose proof (calm_addUse U) as A. unfold processNamespaceUseDeclaration, processNamespaceUseClauseList, processNamespaceUseGroupClauseList. cm.
Qed.
Lemma calm_const_loop : forall l n b1 b2 b3 v, calm (const_loop d l n b1 b2 b3 v).
Proof. induction l as [|c l IH]; intros n b1 b2 b3 v; cbn [const_loop]; [cm|]. destruct c as [ty ks|t|u]; [|destruct (t_type t)|]; cm. Qed.
Hint Resolve calm_const_loop : calm.
Lemma calm_newConst : forall n l, calm (newConst d n l).
Proof. intros. unfold newConst. cm. Qed.
Lemma calm_newGlobalVariable : forall n, calm (newGlobalVariable d n).
Proof. intros. unfold newGlobalVariable. cm. Qed.
Hint Resolve calm_newConst calm_newGlobalVariable : calm.
Lemma calm_newGlobalDeclaration : forall l, calm (newGlobalDeclaration d l).
Proof. intros. unfold newGlobalDeclaration. cm. Qed.
Lemma calm_isDefine_loop : forall l, calm (isDefine_loop d l).
Proof. induction l as [|c l IH]; cbn [isDefine_loop]; [cm|]. destruct c as [ty ks|t|u]; [destruct ty|..]; cm. Qed.
Hint Resolve calm_newGlobalDeclaration calm_isDefine_loop : calm.
Lemma calm_isDefine : forall n, calm (isDefine d n).
Proof. intros. unfold isDefine. cm. Qed.
Hint Resolve calm_isDefine : calm.

(** *** The functions that scan *)
Section Open.
Variable scan : node -> M unit.
Variable expr : node -> M (option adata).
Hypothesis Sc : forall c, ok c -> calm (scan c).
Hypothesis Ex : forall c, ok c -> calm (expr c).
Hint Resolve Sc Ex : calm.
Lemma calm_children : forall l, oks l -> calm (scanForChildren scan l).
Proof. intros l K. unfold scanForChildren. cm. Qed.
Lemma calm_newArgumentList : forall n l, oks l -> calm (newArgumentList d scan n l).
Proof. intros n l K. unfold newArgumentList. cm. Qed.
Lemma calm_newClassAccess : forall n, ok n -> calm (newClassAccess d expr n).
Proof. intros n K. unfold newClassAccess. cm. Qed.
Hint Resolve calm_children calm_newArgumentList calm_newClassAccess : calm.
Lemma calm_class_extends : forall i l, oks l -> calm (class_extends d expr i l).
Proof.
  intros i l K s a s' g E. unfold class_extends in E. step E lst s1 F.
  match type of F with foldM _ ?f _ _ = _ => set (h := f) in * end.
  assert (C : calm (foldM l h None)) by (apply calm_foldM; intros b x X; unfold h; cm).
  assert (Q : forall c, lst = Some c -> ok c).
  { refine (tri_foldM _ _ l h None (fun _ b _ => forall c, b = Some c -> ok c) _ s lst s1 _ F).
    - clear -K. intros pre c post b El s1 b' s2 J X c' Y. assert (Ic : ok c) by (apply K; rewrite El; apply in_or_app; right; left; reflexivity).
      unfold h in X. subst b'. destruct c as [ty ks|t|u]; try (done X; exact (J _ eq_refl)).
      destruct ty; try (done X; exact (J _ eq_refl)). all: step X t0 t1 X1; step X t2 t3 X2; apply ret_done in X; destruct X as (X & _); injection X as ->; exact Ic.
    - intros c Z. discriminate Z. }
  destruct (C s lst s1 g F) as (g1 & n1 & O1).
  assert (R : calm (match lst with Some c => a <- newClassAccess d expr c ;; emit1 a | None => ret tt end)).
  { destruct lst as [c|]; [|cm]. pose proof (Q c eq_refl). cm. }
  destruct (R s1 a s' g1 E) as (g2 & n2 & O2). split; [exact g2|]. exists (n1 ++ n2). rewrite O2, O1, app_assoc. reflexivity.
Qed.
Lemma calm_class_implements : forall i l, oks l -> calm (class_implements d i l).
Proof. intros i l. induction l as [|c l IH]; intros K; cbn [class_implements]; [cm|]. pose proof (IH (oks_tail _ _ K)). destruct c as [ty ks|t|u]; [destruct ty|..]; cm. Qed.
Lemma calm_doc_property : forall p s t, calm (doc_property d p s t).
Proof. intros. unfold doc_property. cm. Qed.
Lemma calm_doc_method : forall p s t, calm (doc_method d p s t).
Proof. intros. unfold doc_method. cm. Qed.
Hint Resolve calm_class_extends calm_class_implements calm_doc_property calm_doc_method : calm.
Lemma calm_class_header : forall i doc l, oks l -> calm (class_header d scan expr i doc l).
Proof. intros i doc l K. unfold class_header. cm. Qed.
Lemma calm_class_symbol : forall i doc, calm (class_symbol i doc).
Proof. intros. unfold class_symbol. cm. Qed.
Hint Resolve calm_class_header calm_class_symbol : calm.
Lemma calm_newClass : forall n l, oks l -> calm (newClass d scan expr n l).
Proof. intros n l K. unfold newClass. cm. Qed.
Lemma calm_newAnonymousClass : forall n l, oks l -> calm (newAnonymousClass d scan expr n l).
Proof. intros n l K. unfold newAnonymousClass. cm. Qed.
Lemma calm_interface_extends : forall i l, calm (interface_extends d i l).
Proof. intros. unfold interface_extends. cm. Qed.
Hint Resolve calm_newClass calm_newAnonymousClass calm_interface_extends : calm.
Lemma calm_interface_header : forall i l, calm (interface_header d i l).
Proof. intros. unfold interface_header. cm. Qed.
Hint Resolve calm_interface_header : calm.
Lemma calm_newInterface : forall n l, oks l -> calm (newInterface d scan n l).
Proof. intros n l K. unfold newInterface. cm. Qed.
Lemma calm_trait_header : forall i l, calm (trait_header d i l).
Proof. intros. unfold trait_header. cm. Qed.
Hint Resolve calm_newInterface calm_trait_header : calm.
Lemma calm_newTrait : forall n l, oks l -> calm (newTrait d scan n l).
Proof. intros n l K. unfold newTrait. cm. Qed.
Lemma calm_processTraitUseClause : forall l, calm (processTraitUseClause d l).
Proof. intros. unfold processTraitUseClause. cm. Qed.
Lemma calm_function_header : forall s l, calm (function_header d s l).
Proof. intros. unfold function_header. cm. Qed.
Lemma calm_method_header : forall s l, calm (method_header d s l).
Proof. intros. unfold method_header. cm. Qed.
Lemma calm_member_scope : calm (member_scope d).
Proof. unfold member_scope. cm. Qed.
Hint Resolve calm_newTrait calm_processTraitUseClause calm_function_header calm_method_header calm_member_scope : calm.
Lemma calm_newFunction : forall n l, oks l -> calm (newFunction d scan n l).
Proof. intros n l K. unfold newFunction. cm. Qed.
Lemma calm_newMethod : forall n l, oks l -> calm (newMethod d scan n l).
Proof. intros n l K. unfold newMethod. cm. Qed.
Lemma calm_analyseUseClause : forall l, calm (analyseUseClause d l).
Proof. intros. unfold analyseUseClause. cm. Qed.
Hint Resolve calm_newFunction calm_newMethod calm_analyseUseClause : calm.
Lemma calm_newAnonymousFunction : forall n l, oks l -> calm (newAnonymousFunction d scan n l).
Proof. intros n l K. unfold newAnonymousFunction. cm. Qed.
Lemma calm_newProperty : forall n l v s, oks l -> calm (newProperty d scan n l v s).
Proof. intros n l v s K. unfold newProperty. cm. Qed.
Hint Resolve calm_newAnonymousFunction calm_newProperty : calm.
Lemma calm_newPropertyDeclaration : forall l, oks l -> calm (newPropertyDeclaration d scan l).
Proof. intros l K. unfold newPropertyDeclaration. cm. Qed.
Lemma calm_class_const_loop : forall l n b1 b2 b3 v, oks l -> calm (class_const_loop d scan l n b1 b2 b3 v).
Proof.
  induction l as [|c l IH]; intros n b1 b2 b3 v K; cbn [class_const_loop]; [cm|]. assert (IH' := fun n b1 b2 b3 v => IH n b1 b2 b3 v (oks_tail _ _ K)).
  destruct c as [ty ks|t|u]; [|destruct (t_type t)|]; cm.
Qed.
Hint Resolve calm_newPropertyDeclaration calm_class_const_loop : calm.
Lemma calm_newClassConst : forall n l v, oks l -> calm (newClassConst d scan n l v).
Proof. intros n l v K. unfold newClassConst. cm. Qed.
Hint Resolve calm_newClassConst : calm.
Lemma calm_newClassConstDeclaration : forall l, oks l -> calm (newClassConstDeclaration d scan l).
Proof. intros l K. unfold newClassConstDeclaration. cm. Qed.
Lemma calm_newConstDeclaration : forall l, oks l -> calm (newConstDeclaration scan l).
Proof. intros l K. unfold newConstDeclaration. cm. Qed.
Lemma calm_define_args : forall l o, calm (define_args d l o).
Proof. intros. unfold define_args. cm. Qed.
Hint Resolve calm_newClassConstDeclaration calm_newConstDeclaration calm_define_args : calm.
Lemma calm_newDefine : forall n l, oks l -> calm (newDefine d scan n l).
Proof. intros n l K. unfold newDefine. cm. Qed.
Hint Resolve calm_newDefine : calm.
Lemma calm_tryToNewDefine : forall n l, oks l -> calm (tryToNewDefine d scan n l).
Proof. intros n l K. unfold tryToNewDefine. cm. Qed.
Lemma calm_processCatchNameList : forall l, oks l -> calm (processCatchNameList d expr l).
Proof. intros l K. unfold processCatchNameList. cm. Qed.
Lemma calm_newNamespace : unconditional -> forall n l, calm (newNamespace d scan n l).
Proof.
  intros U n l. assert (K : oks l) by (intros c _; left; exact U). unfold newNamespace. pose proof (calm_free U). pose proof (calm_push_free U). cm.
Qed.
Lemma calm_first_arguments : forall l, oks l -> calm (first_arguments scan l).
Proof. induction l as [|c l IH]; intros K; cbn [first_arguments]; [cm|]. pose proof (IH (oks_tail _ _ K)). destruct c as [ty ks|t|u]; [destruct ty|..]; cm. Qed.
Hint Resolve calm_tryToNewDefine calm_processCatchNameList calm_first_arguments : calm.
Lemma calm_newFunctionCall : forall l, oks l -> calm (newFunctionCall d scan expr l).
Proof. intros l K. unfold newFunctionCall. cm. all: intros ? ?; apply same_useFunctionOrClass. Qed.
Lemma calm_member_name_of : forall o, calm (member_name_of d o).
Proof. intros. unfold member_name_of. cm. Qed.
Lemma calm_scope_access : forall l, oks l -> calm (scope_access d expr l).
Proof. intros l K. unfold scope_access. cm. Qed.
Hint Resolve calm_newFunctionCall calm_member_name_of calm_scope_access : calm.
Lemma calm_newScopedAccess : forall k l, oks l -> calm (newScopedAccess d expr k l).
Proof. intros k l K. unfold newScopedAccess. cm. Qed.
Lemma calm_newScopedMethodAccess : forall l, oks l -> calm (newScopedMethodAccess d scan expr l).
Proof. intros l K. unfold newScopedMethodAccess. cm. Qed.
Lemma calm_member_name_loop : forall l x, calm (member_name_loop d l x).
Proof. induction l as [|c l IH]; intros x; cbn [member_name_loop]; [cm|]. destruct c as [ty ks|t|u]; [destruct ty|..]; cm. Qed.
Hint Resolve calm_newScopedAccess calm_newScopedMethodAccess calm_member_name_loop : calm.
Lemma calm_readMemberName : forall l, calm (readMemberName d l).
Proof. intros l. unfold readMemberName. cm. Qed.
Lemma calm_receiver : forall l, oks l -> calm (receiver expr l).
Proof. intros l K. unfold receiver. cm. Qed.
Hint Resolve calm_readMemberName calm_receiver : calm.
Lemma calm_newPropertyAccess : forall l, oks l -> calm (newPropertyAccess d expr l).
Proof. intros l K. unfold newPropertyAccess. cm. Qed.
Lemma skip_arrows_in : forall l r c, In c (fst (skip_arrows d l r)) -> In c l.
Proof.
  induction l as [|x l IH]; intros r c; cbn [skip_arrows]; [auto|]. destruct x as [ty ks|t|u]; auto. destruct (t_type t); auto; intros I; right; exact (IH _ _ I).
Qed.
Lemma read_rest : forall l s a s', readMemberName d l s = Done a s' -> forall c, In c (snd a) -> In c l.
Proof.
  intros l s a s' E c I. unfold readMemberName in E. pose proof (skip_arrows_in l zero_range) as S. destruct (skip_arrows d l zero_range) as (k, r). cbn [fst] in S.
  apply S. destruct k as [|[ty ks|t|u] k].
  - done E. exact I.
  - destruct ty; try (done E; right; exact I). step E x s1 F. done E. right. exact I.
  - destruct (t_type t); try (done E; right; exact I). step E x s1 F. done E. right. exact I.
  - done E. right. exact I.
Qed.
Lemma calm_value : forall A B (m : M A) (f : A -> M B) (Q : A -> Prop), calm m -> (forall s a s', G (st_imports s) -> m s = Done a s' -> Q a) ->
  (forall a, Q a -> calm (f a)) -> calm (bind m f).
Proof.
  intros A B m f Q H1 HQ H2 s b s'' g E. step E a s' F. destruct (H1 s a s' g F) as (g' & n1 & O1). destruct (H2 a (HQ s a s' g F) s' b s'' g' E) as (g'' & n2 & O2).
  split; [exact g''|]. exists (n1 ++ n2). rewrite O2, O1, app_assoc. reflexivity.
Qed.
Lemma calm_newMethodAccess : forall l, oks l -> calm (newMethodAccess d scan expr l).
Proof.
  intros l K. unfold newMethodAccess. apply calm_bind; [cm|intros _]. apply (calm_value _ _ _ _ (fun m => oks (snd m))); [cm| |intros m Km; cm].
  intros s a s' _ E c I. exact (oks_skipn 2 l K c (read_rest _ _ _ _ E c I)).
Qed.
Lemma calm_designator_node : forall l, calm (designator_node d l).
Proof. intros. unfold designator_node. cm. Qed.
Hint Resolve calm_newPropertyAccess calm_newMethodAccess calm_designator_node : calm.
Lemma calm_newClassTypeDesignator : forall l, oks l -> calm (newClassTypeDesignator d scan l).
Proof. intros l K. unfold newClassTypeDesignator. cm. Qed.
Lemma calm_foreach : forall l, oks l -> calm (analyseForeachStatement d scan expr l).
Proof. intros l K. unfold analyseForeachStatement. cm. Qed.
Definition oko (o : option node) : Prop := forall c, o = Some c -> ok c.
Lemma oko_nth : forall l i, oks l -> oko (nth_error l i).
Proof. intros l i K c E. exact (oks_nth l i c K E). Qed.
Lemma calm_scan_opt : forall o, oko o -> calm (scan_opt scan o).
Proof. intros o K. unfold scan_opt. destruct o as [n|]; [|cm]. pose proof (K n eq_refl). cm. Qed.
Lemma calm_var_assignment : forall ty p lhs rest, oks rest -> calm (analyseVariableAssignment d scan expr ty p lhs rest).
Proof.
  intros ty p lhs rest K. unfold analyseVariableAssignment. cbv zeta.
  match goal with |- context [nth_error ?r 0] => assert (Kr : oko (nth_error r 0)); [apply oko_nth; destruct ty; repeat apply oks_skip; apply oks_skipn; exact K|];
    set (o := nth_error r 0) in *; clearbody o end.
  destruct o as [[ty' ks|t|u]|]; [pose proof (Kr _ eq_refl)|pose proof (Kr _ eq_refl)|pose proof (Kr _ eq_refl)|]; unfold scan_opt; cm.
Qed.
Lemma calm_property_assignment : forall l, oks l -> calm (processPropertyAccessAssignment scan expr l).
Proof.
  intros l K. unfold processPropertyAccessAssignment. cbv zeta. apply calm_bind; [cm|intros _].
  match goal with |- context [nth_error ?r 0] => assert (Kr : oko (nth_error r 0)); [apply oko_nth; repeat apply oks_skip; apply oks_skipn; exact K|];
    set (o := nth_error r 0) in *; clearbody o end.
  destruct o as [[ty' ks|t|u]|]; [pose proof (Kr _ eq_refl)|pose proof (Kr _ eq_refl)|pose proof (Kr _ eq_refl)|]; unfold scan_opt; cm.
Qed.
Hint Resolve calm_newClassTypeDesignator calm_foreach calm_var_assignment calm_property_assignment : calm.
Lemma calm_newAssignment : forall n ty l, oks l -> calm (newAssignment d scan expr n ty l).
Proof. intros n ty l K. unfold newAssignment. cm. Qed.
Lemma calm_designator : forall l, oks l -> calm (newInstanceOfTypeDesignator d expr l).
Proof. induction l as [|c l IH]; intros K; cbn [newInstanceOfTypeDesignator]; [cm|]. pose proof (IH (oks_tail _ _ K)). destruct c as [ty ks|t|u]; [destruct ty|..]; cm. Qed.
Lemma calm_instanceof : forall l, oks l -> calm (processInstanceOfExpression expr l).
Proof.
  intros l K. unfold processInstanceOfExpression. cbv zeta.
  match goal with |- context [SkipToken is_whitespace ?r] => match r with context [SkipToken is_instanceof] => assert (Kr : oks (SkipToken is_whitespace r)); [repeat apply oks_skip; apply oks_skipn; exact K|];
    set (o := SkipToken is_whitespace r) in *; clearbody o end end.
  cm.
Qed.
Lemma calm_derived_loop : forall l b, oks l -> calm (derived_loop expr l b).
Proof.
  induction l as [|c l IH]; intros b K; cbn [derived_loop]; [cm|]. assert (IH' := fun b => IH b (oks_tail _ _ K)). destruct c as [ty ks|t|u]; cbv zeta; cm.
Qed.
Lemma derived_ok : forall l b s a s', oks l -> oks b -> derived_loop expr l b s = Done a s' -> oks a.
Proof.
  induction l as [|c l IH]; intros b s a s' K Kb E; cbn [derived_loop] in E; [done E; exact Kb|]. pose proof (K c (or_introl eq_refl)) as Kc. pose proof (oks_tail _ _ K) as Kl.
  destruct c as [ty ks|t|u]; try exact (IH _ _ _ _ Kl (oks_snoc _ _ Kb Kc) E). cbv zeta in E. step E x s1 F.
  assert (Kb' : oks (if is_expr_type ty then b else b ++ [Ph ty ks])) by (destruct (is_expr_type ty); [exact Kb|exact (oks_snoc _ _ Kb Kc)]).
  destruct x; [done E; exact Kb'|exact (IH _ _ _ _ Kl Kb' E)].
Qed.
Lemma calm_newDerived : forall n l, oks l -> calm (newDerivedExpression d scan expr n l).
Proof.
  intros n l K. unfold newDerivedExpression. cbv zeta. apply calm_bind; [|intros; cm]. apply calm_in_block.
  apply (calm_value _ _ _ _ oks); [exact (calm_derived_loop l [] K)| |intros a Ka; cm]. intros s a s' _ E. exact (derived_ok l [] s a s' K oks_nil E).
Qed.
Hint Resolve calm_newAssignment calm_designator calm_instanceof calm_newDerived : calm.
Lemma calm_construct : forall n ty l, oks l -> calm (construct d scan expr n ty l).
Proof. intros n ty l K. unfold construct. destruct ty; cm. Qed.
Lemma calm_expr_body : forall n, ok n -> calm (expr_body d scan expr n).
Proof. intros n K. destruct n as [ty ks|t|u]; cbn [expr_body]; [|cm|cm]. apply calm_bind; [apply calm_construct; fine|intros e; cm]. Qed.
Lemma calm_symbol_of : forall n ty l, (ty = PhNamespaceUseDeclaration -> unconditional) -> oks l -> calm (symbol_of d scan expr n ty l).
Proof. intros n ty l U K. unfold symbol_of. destruct ty; cm. apply calm_use. apply U. reflexivity. Qed.
Lemma calm_node_body : forall n, ok n -> calm (node_body d scan expr n).
Proof.
  intros n K. destruct n as [ty ks|t|u]; cbn [node_body]; [|destruct (t_type t); cm|cm].
  assert (X : calm (def <- isDefine d (Ph ty ks) ;; (if def then ret tt else e <- expr_body d scan expr (Ph ty ks) ;; ret tt) ;;;
      if typesToScanForChildren ty then scanForChildren scan ks else symbol_of d scan expr (Ph ty ks) ty ks)).
  { apply calm_bind; [cm|intros def]. apply calm_bind; [destruct def; [cm|]; apply calm_bind; [apply calm_expr_body; exact K|intros; cm]|intros _].
    destruct (typesToScanForChildren ty); [apply calm_children; fine|]. apply calm_symbol_of; [|fine]. intros ->. exact (ok_use ks K). }
  destruct ty; try exact X. exact (calm_newNamespace (ok_namespace ks K) _ _).
Qed.

(** *** What a node reads is found in it *)
Variable P : adata -> Prop.
Hypothesis Nx : forall ty ks, is_expr_type ty = false -> forall s a s', expr (Ph ty ks) s = Done a s' -> a = None.
Ltac fr := apply finds_right; [solve [cm]|intros ?].
Ltac fl := apply finds_left; [|intros ?; solve [cm]].
Lemma is_expression_type : forall ty ks, is_expression (Ph ty ks) = is_expr_type ty.
Proof. intros ty ks. destruct ty; reflexivity. Qed.
Lemma node_body_eq : forall ty ks, ty <> PhNamespaceDefinition -> node_body d scan expr (Ph ty ks) =
  (def <- isDefine d (Ph ty ks) ;; (if def then ret tt else e <- expr_body d scan expr (Ph ty ks) ;; ret tt) ;;;
   if typesToScanForChildren ty then scanForChildren scan ks else symbol_of d scan expr (Ph ty ks) ty ks).
Proof. intros ty ks H. destruct ty; try reflexivity. congruence. Qed.
Lemma calm_define_expr : forall (b : bool) n, ok n -> calm (if b then ret tt else e <- expr_body d scan expr n ;; ret tt).
Proof. intros [|] n K; [cm|]. apply calm_bind; [apply calm_expr_body; exact K|intros; cm]. Qed.
Lemma find_symbol : forall ty ks, ok (Ph ty ks) -> ty <> PhNamespaceDefinition -> typesToScanForChildren ty = false ->
  finds P (symbol_of d scan expr (Ph ty ks) ty ks) -> finds P (node_body d scan expr (Ph ty ks)).
Proof.
  intros ty ks K N T F. rewrite (node_body_eq ty ks N), T. fr. apply finds_right; [apply calm_define_expr; exact K|intros _]. exact F.
Qed.
Lemma find_children : forall l c, oks l -> In c l -> finds P (scan c) -> finds P (scanForChildren scan l).
Proof. intros l c K I F. unfold scanForChildren. apply (finds_forM _ P l scan c); [intros; cm|exact I|exact F]. Qed.
Lemma not_define : forall kids s b s', ~ calls_define d kids -> isDefine_loop d kids s = Done b s' -> b = false.
Proof.
  intros kids s b s' N E. revert s E. induction kids as [|c kids IH]; intros s E; cbn [isDefine_loop] in E; [done E; reflexivity|].
  assert (N' : ~ calls_define d kids) by (intros (ty & ks & x & X & R); apply N; exists ty, ks, x; split; [right; exact X|exact R]).
  destruct c as [ty ks|t|u]; try exact (IH N' s E). destruct ty; try exact (IH N' s E).
  all: step E v s1 F; apply phraseText_done in F; destruct F as (Tx & ->); cbv zeta in E; destruct (_ || _) eqn:Z; [|exact (IH N' _ E)];
    exfalso; apply N; eexists _, ks, v; split; [left; reflexivity|]; split; [auto|]; split; [exact Tx|];
    apply orb_true_iff in Z; destruct Z as [Z|Z]; apply str_eqb_eq in Z; auto.
Qed.
(** an expression *)
Lemma find_expr : forall ty ks, ok (Ph ty ks) -> is_expr_type ty = true -> ~ calls_define d ks -> finds P (expr_body d scan expr (Ph ty ks)) ->
  finds P (node_body d scan expr (Ph ty ks)) /\ (is_expression (Ph ty ks) = true -> finds P (expr_body d scan expr (Ph ty ks))).
Proof.
  intros ty ks K X N F. split; [|intros _; exact F]. rewrite node_body_eq by (intros ->; discriminate X).
  apply (finds_value _ _ P _ _ (fun b => b = false)); [cm| |].
  - intros s b s' _ E. exact (not_define ks s b s' N E).
  - intros b ->. apply finds_left; [apply finds_left; [exact F|intros; cm]|]. intros _. destruct (typesToScanForChildren ty); [apply calm_children; fine|].
    apply calm_symbol_of; [intros ->; discriminate X|fine].
Qed.
Lemma find_construct : forall ty ks, ok (Ph ty ks) -> is_expr_type ty = true -> ~ calls_define d ks -> finds P (construct d scan expr (Ph ty ks) ty ks) ->
  finds P (node_body d scan expr (Ph ty ks)) /\ (is_expression (Ph ty ks) = true -> finds P (expr_body d scan expr (Ph ty ks))).
Proof. intros ty ks K X N F. apply find_expr; auto. cbn [expr_body]. apply finds_left; [exact F|intros e; cm]. Qed.

Lemma class_const_after : forall kids c n b v sk, oks kids -> In c kids -> is_phrase c -> finds P (scan c) -> finds P (class_const_loop d scan kids n b true sk v).
Proof.
  induction kids as [|k kids IH]; intros c n b v sk K I Ph_ F; [destruct I|]. cbn [class_const_loop]. pose proof (oks_tail _ _ K) as Kt. destruct I as [->|I].
  - destruct c as [ty ks|t|u]; [|elim Ph_; reflexivity|elim Ph_; reflexivity]. fr. fl. exact F.
  - assert (R : forall n b v sk, finds P (class_const_loop d scan kids n b true sk v)) by (intros; apply (IH c); assumption).
    destruct k as [ty ks|t|u]; [fr; fr; apply R| |apply R]. destruct (t_type t); try (fr; apply R); try apply R. destruct sk; [apply R|fr; apply R].
Qed.
Lemma class_const_value : forall before eq after c, oks (before ++ eq :: after) -> is_token (fun t => t = TkEquals) eq -> In c after -> is_phrase c -> finds P (scan c) ->
  forall n b e sk v, finds P (class_const_loop d scan (before ++ eq :: after) n b e sk v).
Proof.
  intros before eq after c K (t & -> & T) I Ph_ F. induction before as [|k before IH]; intros n b e sk v; cbn [app class_const_loop].
  - rewrite T. apply (class_const_after after c); auto. intros x X. apply K. apply in_or_app. right. right. exact X.
  - assert (R : forall n b e sk v, finds P (class_const_loop d scan (before ++ Tk t :: after) n b e sk v)) by (apply IH; exact (oks_tail _ _ K)).
    cbn [app] in K. pose proof (K k (or_introl eq_refl)) as Kk.
    destruct k as [ty ks|t'|u]; [destruct e; [fr; fr; apply R|destruct ty; try apply R; fr; apply R]| |apply R].
    destruct (t_type t'); try apply R; try (destruct e; [fr; apply R|apply R]). destruct sk; [apply R|]. destruct e; [fr; apply R|apply R].
Qed.
Lemma find_arguments : forall n args c, oks args -> In c args -> is_phrase c -> finds P (scan c) -> finds P (newArgumentList d scan n args).
Proof.
  intros n args c K I Ph_ F. unfold newArgumentList. apply finds_in_block.
  - apply (finds_forM _ P args _ c); [intros; cm|exact I|]. destruct c as [ty ks|t|u]; [exact F|elim Ph_; reflexivity|elim Ph_; reflexivity].
  - intros x H. apply finds_left; [apply finds_emit_kids; exact H|intros; cm].
Qed.
Lemma find_first : forall kids args, oks kids -> hd_error (argument_lists_of kids) = Some args -> finds P (scan (Ph PhArgumentExpressionList args)) -> finds P (first_arguments scan kids).
Proof.
  induction kids as [|k kids IH]; intros args K H F; [discriminate H|]. pose proof (oks_tail _ _ K) as Kt. cbn [first_arguments].
  destruct k as [ty ks|t|u]; try exact (IH args Kt H F). destruct ty; try exact (IH args Kt H F). injection H as ->. exact F.
Qed.
Lemma in_lists : forall args kids, In args (argument_lists_of kids) -> In (Ph PhArgumentExpressionList args) kids.
Proof.
  intros args kids I. apply in_flat_map in I. destruct I as (k & Ik & I). destruct k as [ty ks|t|u]; try destruct I. destruct ty; try destruct I.
  - subst ks. exact Ik.
  - destruct H.
Qed.
Lemma skip_arrow_list : forall mid c rest r, Forall arrow_or_space mid -> ~ arrow_or_space c -> fst (skip_arrows d (mid ++ c :: rest) r) = c :: rest.
Proof.
  induction mid as [|k mid IH]; intros c rest r F N.
  - cbn [app skip_arrows]. destruct c as [ty ks|t|u]; try reflexivity. destruct (t_type t) eqn:T; try reflexivity; elim N; exists t; auto.
  - inversion F as [|? ? (t & -> & T) F']; subst. cbn [app skip_arrows]. destruct T as [-> | ->]; apply IH; assumption.
Qed.
Lemma read_behind : forall kids name rest, behind_arrow kids name rest -> forall k, k = 1 \/ k = 2 ->
  forall s a s', readMemberName d (skipn k kids) s = Done a s' -> snd a = rest.
Proof.
  intros kids name rest (rc & mid & -> & Nn & Fm & Na) k Hk s a s' E.
  assert (X : exists mid', Forall arrow_or_space mid' /\ skipn k (rc :: mid ++ name :: rest) = mid' ++ name :: rest).
  { destruct Hk as [-> | ->]; [exists mid; auto|]. destruct mid as [|m mid]; [congruence|]. inversion Fm; subst. exists mid. auto. }
  destruct X as (mid' & Fm' & X). rewrite X in E. unfold readMemberName in E. pose proof (skip_arrow_list mid' name rest zero_range Fm' Na) as S.
  destruct (skip_arrows d (mid' ++ name :: rest) zero_range) as (l, r). cbn [fst] in S. subst l.
  destruct name as [ty ks|t|u]; [destruct ty|destruct (t_type t)|]; first [done E; reflexivity|step E x s1 F; done E; reflexivity].
Qed.
Lemma skip_spaces : forall w l, Forall space w -> SkipToken is_whitespace (w ++ l) = SkipToken is_whitespace l.
Proof. intros w l F. induction F as [|x w (t & -> & T) F IH]; [reflexivity|]. cbn [app SkipToken token_is]. rewrite T. exact IH. Qed.
Lemma skip_phrase : forall f n l, is_phrase n -> SkipToken f (n :: l) = n :: l.
Proof. intros f n l H. destruct n as [ty ks|t|u]; [reflexivity|elim H; reflexivity|elim H; reflexivity]. Qed.
Lemma skip_token : forall (f : token_type -> bool) t l b, f (t_type t) = b -> SkipToken f (Tk t :: l) = if b then SkipToken f l else Tk t :: l.
Proof. intros f t l b H. cbn [SkipToken token_is]. rewrite H. reflexivity. Qed.
Lemma right_side : forall (f : token_type -> bool) w1 eq w2 right rest, Forall space w1 -> Forall space w2 -> is_token (fun t => f t = true /\ is_whitespace t = false) eq -> is_phrase right ->
  SkipToken is_whitespace (SkipToken f (SkipToken is_whitespace (w1 ++ eq :: w2 ++ right :: rest))) = right :: rest /\
  SkipToken is_whitespace (SkipToken f (SkipToken is_whitespace (skipn 1 (w1 ++ eq :: w2 ++ right :: rest)))) = right :: rest.
Proof.
  intros f w1 eq w2 right rest F1 F2 (t & -> & T & W) R.
  assert (Go : forall w, Forall space w ->
     SkipToken is_whitespace (SkipToken f (SkipToken is_whitespace (w ++ Tk t :: w2 ++ right :: rest))) = SkipToken is_whitespace (SkipToken f (w2 ++ right :: rest))).
  { intros w Fw. rewrite skip_spaces by exact Fw. rewrite (skip_token is_whitespace t _ false W). rewrite (skip_token f t _ true T). reflexivity. }
  assert (End2 : SkipToken is_whitespace (SkipToken f (w2 ++ right :: rest)) = right :: rest).
  { clear -F2 R. induction F2 as [|x w (t & -> & T) F IH]; cbn [app].
    - rewrite !skip_phrase by exact R. reflexivity.
    - destruct (f (t_type t)) eqn:Z; [rewrite (skip_token f t _ true Z); exact IH|]. rewrite (skip_token f t _ false Z).
      rewrite (skip_token is_whitespace t _ true) by (rewrite T; reflexivity). rewrite skip_spaces by exact F. apply skip_phrase. exact R. }
  split; [rewrite Go; [exact End2|exact F1]|]. destruct w1 as [|x w1].
  - cbn [app skipn]. rewrite skip_spaces by exact F2. rewrite !skip_phrase by exact R. reflexivity.
  - inversion F1; subst. cbn [app skipn]. rewrite Go; [exact End2|assumption].
Qed.

Lemma right_of_reference : forall w1 eq w2 amp w3 right rest, Forall space w1 -> Forall space w2 -> Forall space w3 ->
  is_token (fun t => t = TkEquals) eq -> is_token (fun t => t = TkAmpersand) amp -> is_phrase right ->
  SkipToken is_whitespace (SkipToken is_ampersand (SkipToken is_whitespace (SkipToken is_equals (SkipToken is_whitespace
    (skipn 1 (w1 ++ eq :: w2 ++ amp :: w3 ++ right :: rest)))))) = right :: rest.
Proof.
  intros w1 eq w2 amp w3 right rest F1 F2 F3 (t & -> & T) (a & -> & Ta) R.
  assert (E3 : SkipToken is_whitespace (SkipToken is_ampersand (Tk a :: w3 ++ right :: rest)) = right :: rest).
  { rewrite (skip_token is_ampersand a _ true) by (rewrite Ta; reflexivity). clear -F3 R. destruct F3 as [|x w (b & -> & Tb) F]; cbn [app].
    - rewrite !skip_phrase by exact R. reflexivity.
    - rewrite (skip_token is_ampersand b _ false) by (rewrite Tb; reflexivity). rewrite (skip_token is_whitespace b _ true) by (rewrite Tb; reflexivity).
      rewrite skip_spaces by exact F. apply skip_phrase. exact R. }
  assert (E2 : forall w, Forall space w -> SkipToken is_whitespace (SkipToken is_equals (SkipToken is_whitespace (w ++ Tk a :: w3 ++ right :: rest))) = Tk a :: w3 ++ right :: rest).
  { intros w F. rewrite skip_spaces by exact F. rewrite (skip_token is_whitespace a _ false) by (rewrite Ta; reflexivity).
    rewrite (skip_token is_equals a _ false) by (rewrite Ta; reflexivity). apply (skip_token is_whitespace a _ false). rewrite Ta. reflexivity. }
  assert (E1 : forall w, Forall space w -> SkipToken is_whitespace (SkipToken is_equals (SkipToken is_whitespace (w ++ Tk t :: w2 ++ Tk a :: w3 ++ right :: rest))) = Tk a :: w3 ++ right :: rest).
  { intros w F. rewrite skip_spaces by exact F. rewrite (skip_token is_whitespace t _ false) by (rewrite T; reflexivity).
    rewrite (skip_token is_equals t _ true) by (rewrite T; reflexivity). clear -F2 Ta. destruct F2 as [|x w2 (b & -> & Tb) F]; cbn [app].
    - rewrite (skip_token is_equals a _ false) by (rewrite Ta; reflexivity). apply (skip_token is_whitespace a _ false). rewrite Ta. reflexivity.
    - rewrite (skip_token is_equals b _ false) by (rewrite Tb; reflexivity). rewrite (skip_token is_whitespace b _ true) by (rewrite Tb; reflexivity).
      rewrite skip_spaces by exact F. apply (skip_token is_whitespace a _ false). rewrite Ta. reflexivity. }
  destruct w1 as [|x w1]; cbn [app skipn].
  - rewrite (E2 w2 F2). exact E3.
  - inversion F1; subst. rewrite E1 by assumption. exact E3.
Qed.
(** what is assigned to a variable *)
Lemma find_assigned_var : forall ty p lhs rest right more, ok right -> is_phrase right -> finds P (scan right) -> (is_expression right = true -> finds P (expr right)) ->
  (let rest := SkipToken is_whitespace (skipn 1 rest) in
   let rest := match ty with PhCompoundAssignmentExpression => SkipToken is_dot_equals rest | _ => SkipToken is_equals rest end in
   let rest := SkipToken is_whitespace rest in
   match ty with PhByRefAssignmentExpression => SkipToken is_whitespace (SkipToken is_ampersand rest) | _ => rest end) = right :: more ->
  finds P (analyseVariableAssignment d scan expr ty p lhs rest).
Proof.
  intros ty p lhs rest right more K Ph_ Fs Fe R. unfold analyseVariableAssignment. cbv zeta in *. rewrite R. cbn [nth_error]. clear R.
  destruct right as [ty' ks|t|u]; [|elim Ph_; reflexivity|elim Ph_; reflexivity]. rewrite is_expression_type in Fe. fr. fr. fr. fr.
  destruct (is_expr_type ty') eqn:X.
  - apply finds_left; [exact (Fe eq_refl)|intros x; cm].
  - apply (finds_value _ _ P _ _ (fun x => x = None)); [cm|intros s x s' _ E; exact (Nx ty' ks X s x s' E)|]. intros x ->. fr. exact Fs.
Qed.
Lemma find_assigned_property : forall kids right more, oks kids -> ok right -> is_phrase right -> finds P (scan right) -> (is_expression right = true -> finds P (expr right)) ->
  SkipToken is_whitespace (SkipToken is_equals (SkipToken is_whitespace (skipn 1 kids))) = right :: more -> finds P (processPropertyAccessAssignment scan expr kids).
Proof.
  intros kids right more Kk K Ph_ Fs Fe R. unfold processPropertyAccessAssignment. cbv zeta in *. rewrite R. cbn [nth_error]. clear R. fr.
  destruct right as [ty' ks|t|u]; [|elim Ph_; reflexivity|elim Ph_; reflexivity]. rewrite is_expression_type in Fe.
  destruct (is_expr_type ty') eqn:X.
  - apply finds_left; [exact (Fe eq_refl)|intros x; unfold scan_opt; cm].
  - apply (finds_value _ _ P _ _ (fun x => x = None)); [cm|intros s x s' _ E; exact (Nx ty' ks X s x s' E)|]. intros x ->. exact Fs.
Qed.
Lemma find_derived : forall before c after b, oks (before ++ c :: after) -> oks b -> (forall x, In x before -> is_expression x = false) ->
  finds P (scan c) -> (is_expression c = true -> finds P (expr c)) -> finds P (to_scan <- derived_loop expr (before ++ c :: after) b ;; forM to_scan scan).
Proof.
  intros before c after b K Kb Nb Fs Fe.
  destruct (is_expression c) eqn:X.
  - (* found by the loop *)
    assert (F : forall b, oks b -> finds P (derived_loop expr (before ++ c :: after) b)).
    { clear b Kb. induction before as [|x before IH]; intros b Kb; cbn [app derived_loop] in *.
      - destruct c as [ty ks|t|u]; try discriminate X. apply finds_left; [exact (Fe eq_refl)|]. intros x. pose proof (oks_tail _ _ K). pose proof calm_derived_loop. cm.
      - pose proof (K x (or_introl eq_refl)) as Kx. assert (IH' : forall b, oks b -> finds P (derived_loop expr (before ++ c :: after) b)).
        { apply IH; [exact (oks_tail _ _ K)|]. intros y Y. apply Nb. right. exact Y. }
        destruct x as [ty ks|t|u]; try (apply IH'; apply oks_snoc; assumption). assert (Z := Nb _ (or_introl eq_refl)). rewrite is_expression_type in Z. cbv zeta. rewrite Z.
        apply (finds_value _ _ P _ _ (fun x => x = None)); [cm|intros s x s' _ E; exact (Nx ty ks Z s x s' E)|]. intros x ->. apply IH'. apply oks_snoc; assumption. }
    intros s a s' g E. step E l s1 F1. destruct (F b Kb s l s1 g F1) as (g1 & n1 & O1 & H1).
    pose proof (derived_ok _ _ _ _ _ K Kb F1) as Kl. assert (Cl : calm (forM l scan)) by (apply calm_forM; intros; cm).
    destruct (Cl s1 a s' g1 E) as (g2 & n2 & O2). split; [exact g2|]. exists (n1 ++ n2). rewrite O2, O1, app_assoc. split; [reflexivity|apply held_app_l; exact H1].
  - (* scanned afterwards *)
    assert (L : forall before b s a s', (forall x, In x before -> is_expression x = false) -> derived_loop expr (before ++ c :: after) b s = Done a s' -> In c a).
    { clear -X Nx. assert (Keep : forall l b s a s' x, In x b -> derived_loop expr l b s = Done a s' -> In x a).
      { induction l as [|y l IH]; intros b s a s' x I E; cbn [derived_loop] in E; [done E; exact I|].
        destruct y as [ty ks|t|u]; try exact (IH _ _ _ _ x (in_or_app _ _ _ (or_introl I)) E). cbv zeta in E. step E z s1 F.
        assert (I' : In x (if is_expr_type ty then b else b ++ [Ph ty ks])) by (destruct (is_expr_type ty); [exact I|apply in_or_app; left; exact I]).
        destruct z; [done E; exact I'|exact (IH _ _ _ _ x I' E)]. }
      induction before as [|y before IH]; intros b s a s' Nb E; cbn [app derived_loop] in E.
      - destruct c as [ty ks|t|u]; try (refine (Keep _ _ _ _ _ _ _ E); apply in_or_app; right; left; reflexivity).
        rewrite is_expression_type in X. cbv zeta in E. rewrite X in E. step E z s1 F. destruct z; [done E; apply in_or_app; right; left; reflexivity|].
        refine (Keep _ _ _ _ _ _ _ E); apply in_or_app; right; left; reflexivity.
      - assert (Nb' : forall x, In x before -> is_expression x = false) by (intros x I; apply Nb; right; exact I).
        destruct y as [ty ks|t|u]; try exact (IH _ _ _ _ Nb' E). assert (Z := Nb _ (or_introl eq_refl)). rewrite is_expression_type in Z. cbv zeta in E. rewrite Z in E. step E z s1 F.
        rewrite (Nx ty ks Z _ _ _ F) in E. exact (IH _ _ _ _ Nb' E). }
    apply (finds_value _ _ P _ _ (fun a => oks a /\ In c a)); [apply calm_derived_loop; exact K| |].
    + intros s a s' _ E. split; [exact (derived_ok _ _ _ _ _ K Kb E)|exact (L _ _ _ _ _ Nb E)].
    + intros a (Ka & Ia). apply (finds_forM _ P a scan c); [intros; cm|exact Ia|exact Fs].
Qed.

Definition step_goal (n : node) : Prop := finds P (node_body d scan expr n) /\ (is_expression n = true -> finds P (expr_body d scan expr n)).
Lemma find_block_kids : forall A b (m : M A) (x : A * list asym -> adata), finds P m -> finds P (r <- in_block b m ;; emit (ASym (x r) (snd r))).
Proof. intros A b m x F. apply finds_in_block; [exact F|]. intros r H. apply finds_emit_kids. exact H. Qed.
Ltac only_symbol := split; [apply find_symbol; [assumption|discriminate|reflexivity|]|intros Zx; rewrite is_expression_type in Zx; discriminate Zx].
Lemma step_node : forall n c, reads d n c -> ok n -> finds P (scan c) -> (is_expression c = true -> finds P (expr c)) ->
  (forall args, ok (Ph PhArgumentExpressionList args) -> In c args -> is_phrase c -> finds P (scan (Ph PhArgumentExpressionList args))) -> step_goal n.
Proof.
  intros n c R K Fs Fe Fa. destruct R; unfold step_goal; pose proof (ok_kids _ _ K) as Kk.
  - (* all parts *)
    assert (X : typesToScanForChildren ty = true /\ is_expr_type ty = false /\ ty <> PhNamespaceDefinition) by (destruct ty; try discriminate H; repeat split; discriminate).
    destruct X as (T & E & N). split; [|intros Z; rewrite is_expression_type in Z; congruence]. rewrite (node_body_eq ty kids N), T. fr.
    apply finds_right; [apply calm_define_expr; exact K|intros _]. exact (find_children kids c Kk H0 Fs).
  - (* a body *)
    assert (Kp := ok_kids _ _ (Kk _ H0)).
    assert (Fc : finds P (scanForChildren scan ks)) by exact (find_children ks c Kp H1 Fs).
    assert (Ex0 : is_expr_type ty = false) by (destruct ty; try reflexivity; discriminate H). split; [|intros Z; rewrite is_expression_type in Z; congruence].
    destruct ty; try discriminate H; destruct part; try discriminate H; try (apply find_symbol; [assumption|discriminate|reflexivity|]); cbn [symbol_of].
    + unfold newInterface. cbv zeta. fr. fr. apply finds_in_block; [|intros r Hr; fr; fr; fr; apply finds_emit_kids; exact Hr].
      apply (finds_forM _ P kids _ (Ph PhInterfaceDeclarationBody ks)); [intros; cm|exact H0|exact Fc].
    + unfold newClass. cbv zeta. fr. fr. apply finds_in_block; [|intros r Hr; fr; apply finds_emit_kids; exact Hr].
      apply (finds_forM _ P kids _ (Ph PhClassDeclarationBody ks)); [intros; cm|exact H0|exact Fc].
    + unfold newMethod. cbv zeta. fr. fr. apply finds_in_block; [|intros ((sg, tys), inside) Hr; fr; fr; apply finds_emit_kids; exact Hr].
      apply (finds_foldM _ _ P kids _ _ (Ph PhMethodDeclarationBody ks)); [intros; cm|exact H0|]. intros (sg, tys). fl. exact Fc.
    + unfold newFunction. cbv zeta. fr. fr. apply finds_in_block; [|intros ((sg, tys), inside) Hr; fr; fr; apply finds_emit_kids; exact Hr].
      apply (finds_foldM _ _ P kids _ _ (Ph PhFunctionDeclarationBody ks)); [intros; cm|exact H0|]. intros (sg, tys). fl. exact Fc.
    + unfold newConstDeclaration. apply (finds_forM _ P kids _ (Ph PhConstElementList ks)); [intros; cm|exact H0|exact Fc].
    + unfold newTrait. cbv zeta. fr. apply finds_in_block; [|intros r Hr; fr; apply finds_emit_kids; exact Hr].
      apply (finds_forM _ P kids _ (Ph PhTraitDeclarationBody ks)); [intros; cm|exact H0|exact Fc].
    + unfold newAnonymousFunction. cbv zeta. fr. apply finds_in_block; [|intros r Hr; fr; apply finds_emit_kids; exact Hr].
      apply (finds_foldM _ _ P kids _ _ (Ph PhFunctionDeclarationBody ks)); [intros; cm|exact H0|]. intros ps. fl. exact Fc.
    + unfold newAnonymousClass. cbv zeta. fr. fr. fr. fr. apply finds_in_block; [|intros r Hr; fr; apply finds_emit_kids; exact Hr].
      apply (finds_forM _ P kids _ (Ph PhClassDeclarationBody ks)); [intros; cm|exact H0|exact Fc].
    + cbn [node_body]. pose proof (ok_namespace kids K) as U. pose proof (calm_free U). pose proof (calm_push_free U). unfold newNamespace. fr. fr.
      apply (finds_forM _ P kids _ (Ph PhStatementList ks)); [intros; cm|exact H0|exact Fc].
  - (* the initial value of a property *)
    only_symbol. cbn [symbol_of]. unfold newPropertyDeclaration. fl.
    apply (finds_foldM _ _ P kids _ _ (Ph PhPropertyElementList es)); [intros; cm|exact H|]. intros (vis, st). fl.
    pose proof (ok_kids _ _ (Kk _ H)) as K1. pose proof (ok_kids _ _ (K1 _ H0)) as K2. pose proof (ok_kids _ _ (K2 _ H1)) as K3.
    apply (finds_forM _ P es _ (Ph PhPropertyElement ps)); [intros; cm|exact H0|]. unfold newProperty. cbv zeta. fr. fl.
    apply (finds_foldM _ _ P ps _ _ (Ph PhPropertyInitialiser vs)); [intros; cm|exact H1|]. intros x. fl. exact (find_children vs c K3 H2 Fs).
  - (* the value of a constant *)
    only_symbol. cbn [symbol_of]. unfold newClassConstDeclaration. fl.
    pose proof (ok_kids _ _ (Kk _ H)) as K1. pose proof (ok_kids _ _ (K1 _ H0)) as K2.
    apply (finds_foldM _ _ P kids _ _ (Ph PhClassConstElementList es)); [intros; cm|exact H|]. intros vis. fl.
    apply (finds_forM _ P es _ (Ph PhClassConstElement (before ++ eq :: after))); [intros; cm|exact H0|]. unfold newClassConst. cbv zeta. fr. fr. fl.
    apply (class_const_value before eq after c); assumption.
  - (* arguments *)
    only_symbol. cbn [symbol_of]. fl. exact (find_arguments _ kids c Kk H H0 Fs).
  - (* a call *)
    assert (Ia : In (Ph PhArgumentExpressionList args) kids).
    { apply in_lists. destruct (argument_lists_of kids) as [|x l]; [discriminate H|]. injection H as ->. left. reflexivity. }
    pose proof (Fa args (Kk _ Ia) H0 H1) as Fl.
    assert (Fc : finds P (newFunctionCall d scan expr kids)).
    { unfold newFunctionCall. destruct kids as [|k kids]; [destruct Ia|]. fr. fr. fr. unfold newTypeString. apply mark_finds; [intros; apply same_useFunctionOrClass|]. intros i t. fl.
      exact (find_first (k :: kids) args Kk H Fl). }
    assert (Fb : finds P (expr_body d scan expr (Ph PhFunctionCallExpression kids))) by (cbn [expr_body construct]; apply finds_left; [exact Fc|intros e; cm]).
    split; [|intros _; exact Fb]. rewrite node_body_eq by discriminate. cbn [typesToScanForChildren].
    intros s a s' g E. step E b s1 F1. apply pure_isDefine in F1 as Z. subst s1. destruct b.
    + step E u s2 F2. done F2. cbn [symbol_of] in E. unfold tryToNewDefine in E. step E b s3 F3. apply pure_isDefine in F3 as Z. subst s3.
      assert (b = true) as -> by congruence.
      assert (Fd : finds P (newDefine d scan (Ph PhFunctionCallExpression kids) kids)).
      { unfold newDefine. cbv zeta. fr. apply finds_in_block; [|intros ((nm, v), inside) Hr; fr; apply finds_emit_kids; exact Hr].
        apply (finds_foldM _ _ P kids _ _ (Ph PhArgumentExpressionList args)); [intros; cm|exact Ia|]. intros acc. fl.
        exact (find_arguments _ args c (ok_kids _ _ (Kk _ Ia)) H0 H1 Fs). }
      exact (Fd s a s' g E).
    + assert (Ff : finds P ((e <- expr_body d scan expr (Ph PhFunctionCallExpression kids) ;; ret tt) ;;; symbol_of d scan expr (Ph PhFunctionCallExpression kids) PhFunctionCallExpression kids)).
      { apply finds_left; [apply finds_left; [exact Fb|intros; cm]|]. intros _. apply calm_symbol_of; [discriminate|exact Kk]. }
      exact (Ff s a s' g E).
  - (* a static call *)
    apply find_construct; try assumption; [reflexivity|]. cbn [construct]. unfold newScopedMethodAccess. cbv zeta. fr. fr. fr. fl.
    assert (Ia : In (Ph PhArgumentExpressionList args) (skipn 3 kids)).
    { apply in_lists. destruct (argument_lists_of (skipn 3 kids)) as [|x l]; [discriminate H0|]. injection H0 as ->. left. reflexivity. }
    exact (find_first (skipn 3 kids) args (oks_skipn 3 kids Kk) H0 (Fa args (oks_skipn 3 kids Kk _ Ia) H1 H2)).
  - (* a method call *)
    apply find_construct; try assumption; [reflexivity|]. cbn [construct]. unfold newMethodAccess. cbv zeta. fr.
    apply (finds_value _ _ P _ _ (fun m => snd m = rest)); [cm|intros s m s' _ E; exact (read_behind kids name rest H0 2 (or_intror eq_refl) s m s' E)|].
    intros m ->. fr. fl. pose proof (in_lists args rest H1) as Ir.
    assert (Kr : oks rest) by (destruct H0 as (rc & mid & -> & _); intros x X; apply Kk; right; apply in_or_app; right; right; exact X).
    apply (finds_forM _ P rest _ (Ph PhArgumentExpressionList args)); [intros; cm|exact Ir|]. fl. exact (find_arguments _ args c (ok_kids _ _ (Kr _ Ir)) H2 H3 Fs).
  - (* new *)
    apply find_construct; try assumption; [reflexivity|]. cbn [construct]. unfold newClassTypeDesignator. fl. pose proof (in_lists args kids H0) as Ir.
    apply (finds_foldM _ _ P kids _ _ (Ph PhArgumentExpressionList args)); [intros; cm|exact Ir|]. intros e. fl. exact (find_arguments _ args c (ok_kids _ _ (Kk _ Ir)) H1 H2 Fs).
  - (* a new class *)
    apply find_construct; try assumption; [reflexivity|]. cbn [construct]. unfold newClassTypeDesignator. fl.
    apply (finds_foldM _ _ P kids _ _ (Ph PhAnonymousClassDeclaration ks)); [intros; cm|exact H0|]. intros e. apply finds_in_block; [exact Fs|].
    intros r Hr. cbv zeta. apply finds_left; [apply finds_emit_kids; exact Hr|intros; cm].
  - only_symbol. cbn [symbol_of]. unfold newAnonymousClass. cbv zeta. fr. fr. fr. fr. apply finds_in_block; [|intros r Hr; fr; apply finds_emit_kids; exact Hr].
    apply (finds_forM _ P kids _ (Ph PhAnonymousClassDeclarationHeader hs)); [intros; cm|exact H|]. pose proof (ok_kids _ _ (Kk _ H)) as K1. unfold class_header.
    apply (finds_forM _ P hs _ (Ph PhArgumentExpressionList args)); [intros; cm|exact H0|exact Fs].
  - (* the receiver *)
    assert (Fr : finds P (receiver expr (c :: kids))).
    { unfold receiver. destruct c as [ty' ks|t|u]; try discriminate H1. fl. exact (Fe H1). }
    apply find_construct; try assumption; [destruct H0 as [-> | ->]; reflexivity|]. destruct H0 as [-> | ->]; cbn [construct].
    + unfold newMethodAccess. apply finds_left; [exact Fr|]. intros _.
      apply (calm_value _ _ _ _ (fun m => oks (snd m))); [cm| |intros m Km; cm]. intros s a s' _ E x I. exact (oks_skipn 2 _ Kk x (read_rest _ _ _ _ E x I)).
    + unfold newPropertyAccess. apply finds_left; [exact Fr|]. intros _. cm.
  - (* inside parentheses *)
    apply find_construct; try assumption; [destruct H0 as [-> | ->]; reflexivity|].
    assert (X : finds P (newDerivedExpression d scan expr (Ph ty (before ++ c :: after)) (before ++ c :: after))).
    { unfold newDerivedExpression. cbv zeta. apply finds_in_block; [apply find_derived; auto using oks_nil|]. intros r Hr. apply finds_left; [apply finds_emit_kids; exact Hr|intros; cm]. }
    destruct H0 as [-> | ->]; exact X.
  - (* assigned *)
    destruct H0 as (w1 & eq & w2 & rest & -> & F1 & F2 & (t & -> & T) & Pr).
    assert (Kr : ok right) by (apply Kk; right; apply in_or_app; right; right; apply in_or_app; right; left; reflexivity).
    assert (Rs := right_side is_equals w1 (Tk t) w2 right rest F1 F2 (ex_intro _ t (conj eq_refl (conj (f_equal is_equals T) (f_equal is_whitespace T)))) Pr).
    assert (Ir : In right (w1 ++ Tk t :: w2 ++ right :: rest)) by (apply in_or_app; right; right; apply in_or_app; right; left; reflexivity).
    apply find_construct; try assumption; [reflexivity|]. cbn [construct]. unfold newAssignment. cbv zeta. fr. fl.
    assert (Kt := oks_tail _ _ Kk).
    assert (Ft : finds P (forM (w1 ++ Tk t :: w2 ++ right :: rest) scan)) by (apply (finds_forM _ P _ scan right); [intros; cm|exact Ir|exact Fs]).
    destruct left as [lt lk|? |?]; [|elim H1; reflexivity|elim H1; reflexivity].
    assert (Fo : finds P (scan (Ph lt lk) ;;; forM (w1 ++ Tk t :: w2 ++ right :: rest) scan)) by (fr; exact Ft).
    destruct lt; try exact Fo.
    + apply (find_assigned_var PhSimpleAssignmentExpression _ _ _ right rest); auto. exact (proj2 Rs).
    + destruct (match _ with Some m => _ | None => _ end); [|exact Fo]. apply (find_assigned_property _ right rest); auto. exact (proj1 Rs).
  - (* assigned to *)
    destruct H0 as (w1 & eq & w2 & rest & -> & F1 & F2 & (t & -> & T) & Pr).
    apply find_construct; try assumption; [reflexivity|]. cbn [construct]. unfold newAssignment. cbv zeta. fr. fl.
    assert (Kt := oks_tail _ _ Kk).
    destruct left as [lt lk|? |?]; [|elim H1; reflexivity|elim H1; reflexivity].
    assert (Fo : finds P (scan (Ph lt lk) ;;; forM (w1 ++ Tk t :: w2 ++ right :: rest) scan)) by (apply finds_left; [exact Fs|intros _; apply calm_forM; intros; cm]).
    destruct lt; try exact Fo; [elim H2; reflexivity|].
    destruct (match _ with Some m => _ | None => _ end); [|exact Fo]. unfold processPropertyAccessAssignment. cbv zeta. apply finds_left; [fl; exact (Fe eq_refl)|]. intros _. cbn [skipn].
    rewrite (proj1 (right_side is_equals w1 (Tk t) w2 right rest F1 F2 (ex_intro _ t (conj eq_refl (conj (f_equal is_equals T) (f_equal is_whitespace T)))) Pr)).
    cbn [nth_error]. assert (Kr : ok right) by (apply Kk; right; apply in_or_app; right; right; apply in_or_app; right; left; reflexivity). unfold scan_opt. cm.
  - (* appended *)
    destruct H0 as (w1 & eq & w2 & rest & -> & F1 & F2 & (t & -> & T) & Pr).
    assert (Kr : ok right) by (apply Kk; right; apply in_or_app; right; right; apply in_or_app; right; left; reflexivity).
    assert (Rs := right_side is_dot_equals w1 (Tk t) w2 right rest F1 F2 (ex_intro _ t (conj eq_refl (conj (f_equal is_dot_equals T) (f_equal is_whitespace T)))) Pr).
    apply find_construct; try assumption; [reflexivity|]. cbn [construct]. unfold newAssignment. cbv zeta. fr. fl.
    apply (find_assigned_var PhCompoundAssignmentExpression _ _ _ right rest); auto. exact (proj2 Rs).
  - (* by reference *)
    destruct H0 as (w1 & eq & w2 & amp & w3 & rest & -> & F1 & F2 & F3 & Te & Ta & Pr).
    assert (Kr : ok right) by (apply Kk; right; apply in_or_app; right; right; apply in_or_app; right; right; apply in_or_app; right; left; reflexivity).
    apply find_construct; try assumption; [reflexivity|]. cbn [construct]. unfold newAssignment. cbv zeta. fr. fl.
    apply (find_assigned_var PhByRefAssignmentExpression _ _ _ right rest); auto. cbv zeta. apply right_of_reference; assumption.
  - (* instanceof *)
    assert (Rs := right_side is_instanceof w1 i w2 right rest H0 H1).
    destruct H2 as (t & -> & T). specialize (Rs (ex_intro _ t (conj eq_refl (conj (f_equal is_instanceof T) (f_equal is_whitespace T)))) H4).
    apply find_construct; try assumption; [reflexivity|]. cbn [construct]. unfold processInstanceOfExpression. cbv zeta. fl. cbn [skipn]. rewrite (proj1 Rs).
    assert (Kr : ok right) by (apply Kk; right; apply in_or_app; right; right; apply in_or_app; right; left; reflexivity).
    assert (Kl : ok left) by (apply Kk; left; reflexivity).
    destruct left as [lt lk|? |?]; [|elim H3; reflexivity|elim H3; reflexivity]. destruct right as [rt rk|? |?]; [|elim H4; reflexivity|elim H4; reflexivity].
    destruct H5 as [-> | ->]; [fl; exact (Fe H6)|fr; fl; exact (Fe H6)].
  - (* the collection *)
    apply find_construct; try assumption; [reflexivity|]. cbn [construct]. unfold analyseForeachStatement. fl. pose proof (ok_kids _ _ (Kk _ H0)) as K1.
    apply (finds_forM _ P kids _ (Ph PhForeachCollection ks)); [intros; cm|exact H0|]. apply (finds_forM _ P ks _ c); [intros; cm|exact H1|].
    destruct c as [ct ck|? |?]; try discriminate H2. fl. exact (Fe H2).
  - (* the statements of a loop *)
    apply find_construct; try assumption; [reflexivity|]. cbn [construct]. unfold analyseForeachStatement. fl. pose proof (ok_kids _ _ (Kk _ H1)) as K1.
    apply (finds_forM _ P kids _ (Ph ty ks)); [intros; cm|exact H1|]. assert (X := find_children ks c K1 H2 Fs). destruct H0 as [-> | ->]; exact X.
Qed.

(** *** The uses in a node are found in it *)
Lemma find_made : forall ty ks, ok (Ph ty ks) -> is_expr_type ty = true -> ~ calls_define d ks ->
  (forall s e s', G (st_imports s) -> construct d scan expr (Ph ty ks) ty ks s = Done e s' -> exists a, e = (Some a, true) /\ P a) -> step_goal (Ph ty ks).
Proof.
  intros ty ks K X N Q. apply find_expr; auto. cbn [expr_body]. apply (finds_value _ _ P _ _ (fun e => exists a, e = (Some a, true) /\ P a)); [apply calm_construct; fine|exact Q|].
  intros e (a & -> & Pa). fl. apply finds_emit1. exact Pa.
Qed.
Section Use.
Variables (k : akind) (name : gostr) (at_ : node).
Definition one_class (a : adata) : Prop := exists x t, named d at_ x /\ resolved x t /\ a_types a = [t].
Definition class_types (a : adata) : Prop :=
  match k with
  | AClassTypeDesignator | ATraitAccess | AInterfaceAccess | ATypeDeclaration => one_class a
  | AClassAccess => qualified_name at_ = true -> IsNameRelative name = false -> IsNameParent name = false -> one_class a
  | _ => True
  end.
Definition is_use (a : adata) : Prop := a_kind a = k /\ ts_original (a_name a) = name /\ sits_at d at_ a /\ class_types a.
Hypothesis HP : forall a, is_use a -> P a.
Lemma class_access_done : k = AClassAccess -> named d at_ name -> is_phrase at_ -> forall s a s', G (st_imports s) -> newClassAccess d expr at_ s = Done a s' -> P a.
Proof.
  intros Kk Na Ip s a s' g E. apply HP. unfold newClassAccess in E. destruct at_ as [ty ks|t|u] eqn:At; [|elim Ip; reflexivity|elim Ip; reflexivity]. rewrite <- At in *.
  step E x s1 F. rewrite At in F. apply phraseText_done in F. rewrite <- At in F. destruct F as (Tx & ->). unfold named in Na. assert (x = name) as -> by congruence.
  step E types s2 F2. done E. repeat split; [symmetry; exact Kk|]. unfold class_types. rewrite Kk. intros Q R Pa. rewrite R, Pa in F2. cbn [a_types reference].
  assert (X : (t <- classReference d at_ ;; ret [t]) s = Done types s2) by (rewrite At in *; destruct ty; try discriminate Q; exact F2).
  step X t s3 F3. done X. destruct (reference_done _ _ _ _ g F3) as (_ & _ & x & Tx' & Rs). exists x, t. auto.
Qed.
Lemma find_class_access : k = AClassAccess -> named d at_ name -> is_phrase at_ -> ok at_ -> finds P (a <- newClassAccess d expr at_ ;; emit1 a).
Proof.
  intros Kk Na Ip K. apply (finds_value _ _ P _ _ P); [cm|intros s a s' g E; exact (class_access_done Kk Na Ip s a s' g E)|]. intros a Pa. apply finds_emit1. exact Pa.
Qed.
Lemma find_name_access : k = ATraitAccess \/ k = AInterfaceAccess -> named d at_ name -> is_phrase at_ ->
  forall B (f : adata -> M B), (forall a, calm (f a)) -> finds P (a <- newNameAccess d k at_ ;; emit1 a ;;; f a).
Proof.
  intros Kk Na Ip B f Cf. apply (finds_value _ _ P _ _ P); [cm| |intros a Pa; apply finds_left; [apply finds_emit1; exact Pa|intros _; apply Cf]].
  intros s a s' g E. apply HP. unfold newNameAccess in E. step E x s1 F. destruct at_ as [ty ks|t|u] eqn:At; [|elim Ip; reflexivity|elim Ip; reflexivity].
  apply phraseText_done in F. destruct F as (Tx & ->). unfold named in Na. assert (x = name) as -> by congruence.
  step E t s2 F2. done E. destruct (reference_done _ _ _ _ g F2) as (_ & _ & x & Tx' & Rs). repeat split; [unfold sits_at; rewrite At; reflexivity|]. unfold class_types.
  assert (O : one_class (reference k name (NodeRange d (Ph ty ks)) [t])) by (exists x, t; unfold named; rewrite At; auto).
  destruct Kk as [-> | ->]; exact O.
Qed.
Lemma find_type : k = ATypeDeclaration -> forall s0, named d at_ s0 -> type_name s0 name -> finds P (t <- newTypeDeclaration d at_ ;; emit1 t).
Proof.
  intros Kk s0 Na (t0 & Nt & Nm). apply (finds_value _ _ P _ _ P); [cm| |intros a Pa; apply finds_emit1; exact Pa].
  intros s a s' g E. apply HP. unfold newTypeDeclaration, transformQualifiedName, nodeText, newTypeString in E. step E t s1 F. step F x s2 F2.
  apply lift_done in F2. destruct F2 as (Tx & ->). apply lift_done in F. destruct F as (Nt' & ->). unfold named in Na. assert (x = s0) as -> by congruence. assert (t = t0) as -> by congruence.
  step E r s3 F3. done E. destruct (resolve_done _ _ _ _ g F3) as (_ & _ & l & tb & gl & Nl & ->). repeat split; [symmetry; exact Kk|symmetry; exact Nm|].
  unfold class_types. rewrite Kk. exists s0. eexists. split; [exact Na|]. split; [|reflexivity]. exists l, tb, t0. auto.
Qed.
Lemma find_parameter : k = ATypeDeclaration -> forall s0, named d at_ s0 -> type_name s0 name -> node_type at_ = Some PhTypeDeclaration ->
  forall qs p e sk, In at_ qs -> finds P (parameter_loop d qs p e sk).
Proof.
  intros Kk s0 Na Tn Ty. induction qs as [|q qs IH]; intros p e sk I; [destruct I|]. cbn [parameter_loop]. destruct I as [-> |I].
  - destruct at_ as [ty ks|t|u] eqn:At; try discriminate Ty. injection Ty as ->. rewrite <- At in *.
    assert (F := find_type Kk s0 Na Tn). intros s b s' g E. rewrite At in F.
    assert (F' : finds P (bind (t <- newTypeDeclaration d (Ph PhTypeDeclaration ks) ;; emit1 t) (fun _ => parameter_loop d qs p e false))) by (apply finds_left; [exact F|intros; cm]).
    apply (F' s b s' g). unfold bind in *. rewrite At in E. destruct (newTypeDeclaration d (Ph PhTypeDeclaration ks) s); exact E.
  - assert (R : forall p e sk, finds P (parameter_loop d qs p e sk)) by (intros; apply IH; exact I).
    destruct q as [ty ks|t|u]; [destruct ty|destruct (t_type t)|]; cbn [is_whitespace andb];
      repeat first [apply R|match goal with |- finds P (if ?b then _ else _) => destruct b end|fr].
Qed.
Lemma find_parameters : k = ATypeDeclaration -> forall s0, named d at_ s0 -> type_name s0 name -> node_type at_ = Some PhTypeDeclaration ->
  forall ps qs, In (Ph PhParameterDeclaration qs) ps -> In at_ qs -> finds P (analyseParameterDeclarationList d ps).
Proof.
  intros Kk s0 Na Tn Ty ps qs I1 I2. unfold analyseParameterDeclarationList. apply (finds_foldM _ _ P ps _ _ (Ph PhParameterDeclaration qs)); [intros; cm|exact I1|].
  intros b. fl. unfold newParameter. exact (find_parameter Kk s0 Na Tn Ty qs _ _ _ I2).
Qed.
Lemma find_extends : k = AClassAccess -> named d at_ name -> qualified_name at_ = true -> forall i before after, oks (before ++ at_ :: after) ->
  (forall a, In a after -> qualified_name a = false) -> finds P (class_extends d expr i (before ++ at_ :: after)).
Proof.
  intros Kk Na Q i before after K Na'. unfold class_extends.
  match goal with |- finds P (bind (foldM ?l ?f ?b) _) => set (h := f); set (kids := l) end.
  assert (Kat : ok at_) by (apply K; apply in_or_app; right; left; reflexivity).
  apply (finds_value _ _ P _ _ (fun x => x = Some at_)).
  - apply calm_foldM. intros b x X. unfold h. cm.
  - intros s lst s1 _ F. assert (X : lst = last_of qualified_name kids).
    { refine (tri_foldM _ _ kids h None (fun pre b _ => b = last_of qualified_name pre) _ s lst s1 eq_refl F).
      clear. intros pre c post b El s b' s' -> X. rewrite last_of_snoc. unfold h in X. destruct c as [ty ks|t|u]; try (done X; reflexivity). destruct ty; try (done X; reflexivity).
      all: step X t0 t1 X1; step X t2 t3 X2; done X; reflexivity. }
    rewrite X. unfold kids. replace (before ++ at_ :: after) with ((before ++ [at_]) ++ after) by (rewrite <- app_assoc; reflexivity).
    rewrite last_of_app by exact Na'. rewrite last_of_snoc, Q. reflexivity.
  - intros x ->. apply find_class_access; auto. destruct at_ as [ty ks|t|u]; try discriminate Q. discriminate.
Qed.
Lemma qualified_phrase : forall n, qualified_name n = true -> is_phrase n.
Proof. intros [ty ks|t|u] Q; [discriminate|discriminate Q|discriminate Q]. Qed.
Lemma find_implements : k = AInterfaceAccess -> named d at_ name -> qualified_name at_ = true -> forall i before ks after, oks (before ++ Ph PhQualifiedNameList ks :: after) ->
  (forall b, In b before -> node_type b <> Some PhQualifiedNameList) -> In at_ ks -> finds P (class_implements d i (before ++ Ph PhQualifiedNameList ks :: after)).
Proof.
  intros Kk Na Q i before ks after K Nb I. induction before as [|b before IH]; cbn [app class_implements].
  - apply (finds_forM _ P ks _ at_); [intros; cm|exact I|]. assert (Ip := qualified_phrase _ Q).
    assert (F : finds P (a <- newNameAccess d k at_ ;; emit1 a)).
    { assert (F := find_name_access (or_intror Kk) Na Ip _ (fun _ => ret tt) ltac:(intros; cm)). intros s u s' g E. apply (F s tt s' g).
      unfold bind in *. destruct (newNameAccess d k at_ s) as [a s1| |]; try discriminate E. rewrite E. destruct u. reflexivity. }
    rewrite Kk in F. destruct at_ as [ty ks'|t|u]; try discriminate Q. destruct ty; try discriminate Q; fr; fr; exact F.
  - assert (Z : finds P (class_implements d i (before ++ Ph PhQualifiedNameList ks :: after))).
    { apply IH; [exact (oks_tail _ _ K)|]. intros x X. apply Nb. right. exact X. }
    destruct b as [ty bs|t|u]; try exact Z. destruct ty; try exact Z. elim (Nb _ (or_introl eq_refl)). reflexivity.
Qed.
End Use.
Lemma read_name : forall kids c rest nm, behind_arrow kids c rest -> arrow_name d c nm -> forall j, j = 1 \/ j = 2 ->
  forall s a s', readMemberName d (skipn j kids) s = Done a s' -> fst a = (nm, NodeRange d c).
Proof.
  intros kids c rest nm (rc & mid & -> & Nn & Fm & Na) (t & Ty & Sh & Tx) j Hj s a s' E.
  assert (X : exists mid', Forall arrow_or_space mid' /\ skipn j (rc :: mid ++ c :: rest) = mid' ++ c :: rest).
  { destruct Hj as [-> | ->]; [exists mid; auto|]. destruct mid as [|m mid]; [congruence|]. inversion Fm; subst. exists mid. auto. }
  destruct X as (mid' & Fm' & X). rewrite X in E. unfold readMemberName in E. pose proof (skip_arrow_list mid' c rest zero_range Fm' Na) as S.
  destruct (skip_arrows d (mid' ++ c :: rest) zero_range) as (l, r). cbn [fst] in S. subst l. destruct Sh as [-> | ->].
  - rewrite Ty in E. step E x s1 F. apply lift_done in F. destruct F as (F & _). done E. cbn [fst]. congruence.
  - cbn [member_name_loop] in E. rewrite Ty in E. step E x s1 F. step F y s2 F2. apply lift_done in F2. destruct F2 as (F2 & _). done F. done E. cbn [fst]. congruence.
Qed.
Lemma step_use : forall n k name at_, uses d n k name at_ -> ok n -> (forall a, is_use k name at_ a -> P a) -> step_goal n.
Proof.
  intros n k name at_ U K HP. destruct U; unfold step_goal; pose proof (ok_kids _ _ K) as Kk.
  - (* a function *)
    apply find_construct; try assumption; [reflexivity|]. cbn [construct]. unfold newFunctionCall.
    apply (finds_value _ _ P _ _ (fun x => x = name)); [cm|intros s x s' _ E; apply lift_done in E; destruct E as (E & _); unfold named in H0; congruence|].
    intros x ->. cbv zeta. apply finds_left; [apply finds_emit1; apply HP; repeat split|]. intros _. cm. all: intros ? ?; apply same_useFunctionOrClass.
  - (* a method *)
    apply find_construct; try assumption; [reflexivity|]. cbn [construct]. unfold newMethodAccess. cbv zeta. fr.
    apply (finds_value _ _ P _ _ (fun m => fst m = (name, NodeRange d c) /\ snd m = rest)); [cm| |].
    + intros s m s' _ E. split; [exact (read_name _ _ _ _ H0 H1 2 (or_intror eq_refl) s m s' E)|exact (read_behind _ _ _ H0 2 (or_intror eq_refl) s m s' E)].
    + intros m (-> & ->). cbn [fst snd]. apply finds_left; [apply finds_emit1; apply HP; repeat split|]. intros _.
      assert (Kr : oks rest) by (destruct H0 as (rc & mid & -> & _); intros x X; apply Kk; right; apply in_or_app; right; right; exact X). cm.
  - (* a property *)
    apply find_made; auto. cbn [construct]. intros s e s' g E. unfold newPropertyAccess in E. step E u s1 F. step E m s2 F2. done E.
    eexists. split; [reflexivity|]. apply HP. rewrite (read_name _ _ _ _ H0 H1 1 (or_introl eq_refl) _ _ _ F2). repeat split.
  - (* a static member *)
    assert (Nm : forall s x s', member_name_of d (nth_error kids 2) s = Done x s' -> x = name).
    { intros s x s' E. rewrite H1 in E. cbn [member_name_of] in E. apply phraseText_done in E. destruct E as (E & _). unfold named in H2. congruence. }
    assert (Sc3 : forall kk, kk = k -> (forall a, class_types kk name (Ph PhScopedMemberName ks) a) ->
      construct d scan expr (Ph ty kids) ty kids = newScopedAccess d expr kk kids -> is_expr_type ty = true -> step_goal (Ph ty kids)).
    { intros kk -> Tr C Ie. apply find_made; auto. intros s e s' g E. rewrite C in E. unfold newScopedAccess in E. step E u s1 F. cbv zeta in E. step E x s2 F2. done E.
      rewrite (Nm _ _ _ F2), H1. eexists. split; [reflexivity|]. apply HP. repeat split. apply Tr. }
    destruct ty; cbn [static_use] in H0; try contradiction; subst k.
    + apply (Sc3 AScopedPropertyAccess); first [reflexivity|intros a; exact I].
    + apply find_construct; try assumption; [reflexivity|]. cbn [construct]. unfold newScopedMethodAccess. cbv zeta. fr.
      apply (finds_value _ _ P _ _ (fun x => x = name)); [cm|intros s x s' _ E; exact (Nm s x s' E)|]. intros x ->. rewrite H1.
      apply finds_left; [apply finds_emit1; apply HP; repeat split|]. intros _. pose proof (oks_skipn 3 kids Kk). cm.
    + apply (Sc3 AScopedConstantAccess); first [reflexivity|intros a; exact I].
    + apply (Sc3 AScopedConstantAccess); first [reflexivity|intros a; exact I].
  - (* the class of a static member *)
    assert (Kc : ok c) by (apply Kk; left; reflexivity).
    assert (Sa : finds P (scope_access d expr (c :: kids))).
    { unfold scope_access. pose proof (find_class_access AClassAccess name c HP eq_refl H2 H1 Kc) as F. destruct c as [ct ck|? |?]; [exact F|elim H1; reflexivity|elim H1; reflexivity]. }
    apply find_construct; try assumption; destruct ty; cbn [static_use] in H0; try contradiction; try reflexivity; cbn [construct].
    all: first [unfold newScopedAccess|unfold newScopedMethodAccess]; apply finds_left; [exact Sa|intros _]; pose proof (oks_skipn 3 (c :: kids) Kk); cm.
  - (* new *)
    apply find_construct; try assumption; [reflexivity|]. cbn [construct]. unfold newClassTypeDesignator. fl.
    apply (finds_foldM _ _ P kids _ _ (Ph PhClassTypeDesignator [q])); [intros; cm|exact H0|]. intros e.
    apply (finds_value _ _ P _ _ (fun x => P (reference AClassTypeDesignator (fst (fst x)) (NodeRange d (Ph PhClassTypeDesignator [q])) (snd (fst x))))); [cm| |].
    + intros s0 x s1 g E. apply HP. unfold designator_node in E. cbn [foldM] in E.
      assert (X : (t <- classReference d q ;; ret (ts_original t, tc_add [] t, @nil adata)) s0 = Done x s1).
      { step E y s2 F. done E. destruct q as [qt qk|? |?]; try discriminate H1. destruct qt; try discriminate H1; exact F. }
      step X t s2 F. done X. destruct (reference_done _ _ _ _ g F) as (_ & _ & y & Ty & Rs). unfold named in H2. assert (y = s) as -> by congruence. cbn [fst snd].
      destruct H3 as (t0 & Nt & Nm). repeat split.
      * cbn [a_name reference ts_original]. destruct Rs as (l & tb & t1 & _ & _ & Nt1 & ->). cbn [SetFQN ts_original]. congruence.
      * cbn [class_types]. exists s, t. split; [|split; [exact Rs|reflexivity]]. unfold named. destruct q as [qt qk|? |?]; try discriminate H1. exact H2.
    + intros ((nm, tys), vars) Pa. cbn [fst snd] in Pa. cbv zeta. apply finds_left; [apply finds_emit1; exact Pa|intros _; cm].
  - (* instanceof *)
    assert (Kq : ok q) by (apply Kk; apply in_or_app; right; left; reflexivity).
    apply find_made; auto. cbn [construct]. intros s e s' g E.
    assert (X : forall bf s, (forall b, In b bf -> qualified_name b = false) -> G (st_imports s) -> newInstanceOfTypeDesignator d expr (bf ++ q :: after) s = Done e s' -> exists a, e = (Some a, true) /\ P a).
    { clear s g E. induction bf as [|b bf IH]; intros s Nb g E; cbn [app newInstanceOfTypeDesignator] in E.
      - assert (Y : (a <- newClassAccess d expr q ;; ret (Some a, true)) s = Done e s') by (destruct q as [qt qk|? |?]; try discriminate H1; destruct qt; try discriminate H1; exact E).
        step Y a s1 F. done Y. exists a. split; [reflexivity|]. exact (class_access_done AClassAccess name q HP eq_refl H2 (qualified_phrase _ H1) _ _ _ g F).
      - assert (Nb' : forall b, In b bf -> qualified_name b = false) by (intros x X; apply Nb; right; exact X). specialize (Nb b (or_introl eq_refl)).
        destruct b as [bt bk|? |?]; try exact (IH s Nb' g E). destruct bt; try exact (IH s Nb' g E); discriminate Nb. }
    exact (X before s H0 g E).
  - (* catch *)
    only_symbol. cbn [symbol_of]. unfold processCatchNameList. apply (finds_forM _ P kids _ q); [intros; cm|exact H|].
    pose proof (find_class_access AClassAccess name q HP eq_refl H1 (qualified_phrase _ H0) (Kk _ H)) as F.
    destruct q as [qt qk|? |?]; try discriminate H0. destruct qt; try discriminate H0; exact F.
  - (* a trait *)
    only_symbol. cbn [symbol_of]. unfold processTraitUseClause. apply (finds_forM _ P kids _ (Ph PhQualifiedNameList ks)); [intros; cm|exact H|]. fr. cbv zeta.
    apply (finds_forM _ P ks _ q); [intros; cm|exact H0|].
    pose proof (fun B f => find_name_access ATraitAccess name q HP (or_introl eq_refl) H2 (qualified_phrase _ H1) B f) as F.
    destruct q as [qt qk|? |?]; try discriminate H1. destruct qt; try discriminate H1; apply F; intros; cm.
  - (* extends *)
    assert (K1 := ok_kids _ _ (Kk _ H0)). assert (K2 := ok_kids _ _ (K1 _ H1)).
    assert (Fh : forall i doc, finds P (class_header d scan expr i doc hs)).
    { intros i doc. unfold class_header. apply (finds_forM _ P hs _ (Ph PhClassBaseClause (before ++ q :: after))); [intros; cm|exact H1|].
      exact (find_extends AClassAccess name q HP eq_refl H4 H3 i before after K2 H2). }
    destruct ty; try discriminate H; destruct header; try discriminate H; only_symbol; cbn [symbol_of]; first [unfold newClass|unfold newAnonymousClass]; cbv zeta.
    + fr. fr. apply finds_in_block; [|intros r Hr; fr; apply finds_emit_kids; exact Hr]. apply (finds_forM _ P kids _ (Ph PhClassDeclarationHeader hs)); [intros; cm|exact H0|apply Fh].
    + fr. fr. fr. fr. apply finds_in_block; [|intros r Hr; fr; apply finds_emit_kids; exact Hr]. apply (finds_forM _ P kids _ (Ph PhAnonymousClassDeclarationHeader hs)); [intros; cm|exact H0|apply Fh].
  - (* implements *)
    assert (K1 := ok_kids _ _ (Kk _ H0)). assert (K2 := ok_kids _ _ (K1 _ H1)).
    assert (Fh : forall i doc, finds P (class_header d scan expr i doc hs)).
    { intros i doc. unfold class_header. apply (finds_forM _ P hs _ (Ph PhClassInterfaceClause (before ++ Ph PhQualifiedNameList ks :: after))); [intros; cm|exact H1|].
      exact (find_implements AInterfaceAccess name q HP eq_refl H5 H4 i before ks after K2 H2 H3). }
    destruct ty; try discriminate H; destruct header; try discriminate H; only_symbol; cbn [symbol_of]; first [unfold newClass|unfold newAnonymousClass]; cbv zeta.
    + fr. fr. apply finds_in_block; [|intros r Hr; fr; apply finds_emit_kids; exact Hr]. apply (finds_forM _ P kids _ (Ph PhClassDeclarationHeader hs)); [intros; cm|exact H0|apply Fh].
    + fr. fr. fr. fr. apply finds_in_block; [|intros r Hr; fr; apply finds_emit_kids; exact Hr]. apply (finds_forM _ P kids _ (Ph PhAnonymousClassDeclarationHeader hs)); [intros; cm|exact H0|apply Fh].
  - (* the type of a parameter *)
    assert (Fp := find_parameters ATypeDeclaration name (Ph PhTypeDeclaration ts) HP eq_refl s H4 H5 eq_refl ps qs H2 H3).
    destruct ty; try discriminate H; destruct header; try discriminate H; only_symbol; cbn [symbol_of].
    + unfold newMethod. cbv zeta. fr. fr. apply finds_in_block; [|intros ((sg, tys), inside) Hr; fr; fr; apply finds_emit_kids; exact Hr].
      apply (finds_foldM _ _ P kids _ _ (Ph PhMethodDeclarationHeader hs)); [intros; cm|exact H0|]. intros (sg, tys). fl. unfold method_header.
      apply (finds_foldM _ _ P hs _ _ (Ph PhParameterDeclarationList ps)); [intros; cm|exact H1|]. intros s1. fl. exact Fp.
    + unfold newFunction. cbv zeta. fr. fr. apply finds_in_block; [|intros ((sg, tys), inside) Hr; fr; fr; apply finds_emit_kids; exact Hr].
      apply (finds_foldM _ _ P kids _ _ (Ph PhFunctionDeclarationHeader hs)); [intros; cm|exact H0|]. intros (sg, tys). fl. unfold function_header.
      apply (finds_foldM _ _ P hs _ _ (Ph PhParameterDeclarationList ps)); [intros; cm|exact H1|]. intros s1. fl. exact Fp.
    + unfold newAnonymousFunction. cbv zeta. fr. apply finds_in_block; [|intros r Hr; fr; apply finds_emit_kids; exact Hr].
      apply (finds_foldM _ _ P kids _ _ (Ph PhAnonymousFunctionHeader hs)); [intros; cm|exact H0|]. intros pp. fl.
      apply (finds_foldM _ _ P hs _ _ (Ph PhParameterDeclarationList ps)); [intros; cm|exact H1|]. intros s1. fl. exact Fp.
  - (* a constant *)
    apply find_made; auto. cbn [construct]. intros s e s' g E. step E a s1 F. done E. exists a. split; [reflexivity|]. apply HP. unfold newConstantAccess in F.
    step F x s2 F2. apply lift_done in F2. destruct F2 as (F2 & _). step F i s3 F3. step F t s4 F4. step F u s5 F5. done F. unfold named in H0. assert (x = name) as -> by congruence. repeat split.
  - (* a variable *)
    apply find_made; auto. cbn [construct]. intros s e s' g E. step E a s1 F. done E. exists a. split; [reflexivity|]. apply HP. unfold newVariable, newVariableWithoutPushing in F. cbv zeta in F.
    step F v s2 F2. step F u s3 F3. done F. step F2 x s4 F4. apply lift_done in F4. destruct F4 as (F4 & _). step F2 doc s5 F5. step F2 tys s6 F6. done F2.
    unfold named in H0. assert (x = name) as -> by congruence. repeat split.
Qed.
End Open.
Theorem calm_scan : forall fuel n, ok n -> calm (scanNode d fuel n) /\ calm (scanForExpression d fuel n).
Proof.
  induction fuel as [|fuel IH]; intros n K; [split; intros s a s' g E; discriminate E|]. cbn [scanNode scanForExpression].
  split; [apply calm_node_body|apply calm_expr_body]; auto; intros c Kc; apply IH; exact Kc.
Qed.

(** *** What is read is found *)
Definition good (P : adata -> Prop) (n : node) : Prop :=
  forall fuel, finds P (scanNode d fuel n) /\ (is_expression n = true -> finds P (scanForExpression d fuel n)).
Lemma no_expression : forall fuel ty ks, is_expr_type ty = false -> forall s a s', scanForExpression d fuel (Ph ty ks) s = Done a s' -> a = None.
Proof.
  intros [|fuel] ty ks X s a s' E; [discriminate E|]. cbn [scanForExpression expr_body] in E. rewrite construct_none in E by exact X.
  step E e s1 F. done F. done E. reflexivity.
Qed.
Lemma good_body : forall P n, (forall fuel, step_goal (scanNode d fuel) (scanForExpression d fuel) P n) -> good P n.
Proof.
  intros P n H [|fuel]; [split; [|intros _]; intros s a s' g E; discriminate E|]. destruct (H fuel) as (F & Fe). cbn [scanNode scanForExpression]. split; [exact F|exact Fe].
Qed.
Lemma good_step : forall P n c, reads d n c -> ok n -> good P c -> good P n.
Proof.
  intros P n c R K Gc. assert (Sc : forall fuel c, ok c -> calm (scanNode d fuel c)) by (intros; apply calm_scan; assumption).
  assert (Ex : forall fuel c, ok c -> calm (scanForExpression d fuel c)) by (intros; apply calm_scan; assumption).
  assert (Ga : forall args, ok (Ph PhArgumentExpressionList args) -> In c args -> is_phrase c -> good P (Ph PhArgumentExpressionList args)).
  { intros args Ka I Ip. apply good_body. intros fuel. split; [|intros Z; discriminate Z].
    apply (find_symbol (scanNode d fuel) (scanForExpression d fuel) (Sc fuel) (Ex fuel)); [exact Ka|discriminate|reflexivity|]. cbn [symbol_of].
    apply finds_left; [|intros; apply calm_ret]. apply (find_arguments (scanNode d fuel) (Sc fuel) P _ args c); auto; [exact (ok_kids _ _ Ka)|apply Gc]. }
  apply good_body. intros fuel. apply (step_node (scanNode d fuel) (scanForExpression d fuel) (Sc fuel) (Ex fuel) P (no_expression fuel) n c R K); [apply Gc|apply Gc|].
  intros args Ka I Ip. apply Ga; assumption.
Qed.
Lemma good_use : forall (P : adata -> Prop) n k name at_, uses d n k name at_ -> ok n -> (forall a, is_use k name at_ a -> P a) -> good P n.
Proof.
  intros P n k name at_ U K HP. apply good_body. intros fuel. apply (step_use (scanNode d fuel) (scanForExpression d fuel)) with (k := k) (name := name) (at_ := at_); auto.
  all: intros; apply calm_scan; assumption.
Qed.
Lemma reads_below : forall n c, reads d n c -> below c n.
Proof.
  assert (Kid : forall ty c ks, In c ks -> below c (Ph ty ks)) by (intros ty c ks I; apply (below_kid c c); [exact I|apply below_here]).
  assert (Deep : forall ty c m ks, In m ks -> below c m -> below c (Ph ty ks)) by (intros ty c m ks I X; exact (below_kid c m (Ph ty ks) I X)).
  assert (L : forall args ks, In args (argument_lists_of ks) -> In (Ph PhArgumentExpressionList args) ks) by apply in_lists.
  assert (L1 : forall args ks, hd_error (argument_lists_of ks) = Some args -> In (Ph PhArgumentExpressionList args) ks).
  { intros args ks H. apply L. destruct (argument_lists_of ks) as [|x l]; [discriminate H|]. injection H as ->. left. reflexivity. }
  assert (As : forall sg kids l r, assigns sg kids l r -> In l kids /\ In r kids).
  { intros sg kids l r (w1 & eq & w2 & rest & -> & _). split; [left; reflexivity|right; apply in_or_app; right; right; apply in_or_app; right; left; reflexivity]. }
  intros n c R. destruct R; try (apply Kid; assumption); try (apply Kid; match goal with A : assigns _ _ _ _ |- _ => solve [exact (proj1 (As _ _ _ _ A))|exact (proj2 (As _ _ _ _ A))] end).
  - exact (Deep _ _ _ _ H0 (Kid _ _ _ H1)).
  - exact (Deep _ _ _ _ H (Deep _ _ _ _ H0 (Deep _ _ _ _ H1 (Kid _ _ _ H2)))).
  - apply (Deep _ _ _ _ H). apply (Deep _ _ _ _ H0). apply Kid. apply in_or_app. right. right. exact H2.
  - exact (Deep _ _ _ _ (L1 _ _ H) (Kid _ _ _ H0)).
  - refine (Deep _ _ _ _ _ (Kid _ _ _ H1)). rewrite <- (firstn_skipn 3 kids). apply in_or_app. right. exact (L1 _ _ H0).
  - refine (Deep _ _ _ _ _ (Kid _ _ _ H2)). destruct H0 as (rc & mid & -> & _). right. apply in_or_app. right. right. exact (L _ _ H1).
  - exact (Deep _ _ _ _ (L _ _ H0) (Kid _ _ _ H1)).
  - exact (Deep _ _ _ _ H (Kid _ _ _ H0)).
  - apply Kid. left. reflexivity.
  - apply Kid. apply in_or_app. right. left. reflexivity.
  - destruct H0 as (w1 & eq & w2 & amp & w3 & rest & -> & _). apply Kid. right. apply in_or_app. right. right. apply in_or_app. right. right. apply in_or_app. right. left. reflexivity.
  - apply Kid. destruct H5 as [-> | ->]; [left; reflexivity|]. right. apply in_or_app. right. right. apply in_or_app. right. left. reflexivity.
  - exact (Deep _ _ _ _ H0 (Kid _ _ _ H1)).
  - exact (Deep _ _ _ _ H1 (Kid _ _ _ H2)).
Qed.
Lemma reads_in_below : forall m n, reads_in d m n -> below n m.
Proof. intros m n H. induction H as [|n c H IH R]; [apply below_here|]. exact (below_trans _ _ _ (reads_below n c R) IH). Qed.
Lemma good_read : forall P m n, reads_in d m n -> ok m -> good P n -> good P m.
Proof.
  intros P m n H K. induction H as [|n c H IH R]; intros Gn; [exact Gn|]. apply IH. apply (good_step P n c R); [|exact Gn].
  exact (ok_below _ _ (reads_in_below _ _ H) K).
Qed.
Theorem use_found : forall fuel m n k name at_, reads_in d m n -> ok m -> uses d n k name at_ -> finds (is_use k name at_) (scanNode d fuel m).
Proof.
  intros fuel m n k name at_ R K U. apply (good_read _ m n R K). apply (good_use _ n k name at_ U); [|auto]. exact (ok_below _ _ (reads_in_below _ _ R) K).
Qed.
End Calm.

Lemma uses_reported : forall (TX : Text) (TR : TrimSpace) d s n k name at_, analyse d = Done tt s -> is_read d n -> uses d n k name at_ -> use_reported d k name at_ (st_out s).
Proof.
  intros TX TR d s n k name at_ E (m & Im & R) U. set (G := fun _ : list ImportTable => True).
  assert (Un : unconditional G) by (intros l; exact I).
  assert (K : forall c, ok G c) by (intros c; left; exact Un).
  unfold analyse, Load in E. step E u s1 F. destruct (d_root d) as [ty kids|t|er] eqn:Ro; cbn [node_kids] in Im; try destruct Im.
  assert (Fm : finds G (is_use d G k name at_) (scanForChildren (scanNode d (height (Ph ty kids))) kids)).
  { unfold scanForChildren. apply (finds_forM G _ _ kids _ m); [|exact Im|].
    - intros y _. apply calm_scan; [intros; exact I|intros; exact I|apply K].
    - apply (use_found d G) with (n := n); auto; intros; exact I. }
  destruct (Fm _ _ _ I F) as (_ & new & O & a & Ia & Ka & Na & Sa & _).
  exists a. split; [|split; [exact Ka|split; [exact Na|exact Sa]]].
  step E i s2 F2. done E. rewrite (quiet_currImportTable d _ _ _ F2), O. exact Ia.
Qed.
