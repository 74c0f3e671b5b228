(** Proofs about what is reported about a file. *)
From Coq Require Import String.
From Coq Require Import List Bool NArith ZArith Lia.
From Coq.Strings Require Import Byte.
From Verif Require Import Base.Bytes Base.BytesProofs Base.SortSearch Base.Protocol Codec.CodecModel Codec.CodecSpec
  Symbols.Symbols Symbols.KeysModel Text.TextModel Text.PositionModel
  Types.TypesModel Types.ImportModel Types.ImportSpec Types.ImportProofs Rpc.StreamModel
  Analyse.SyntaxModel Analyse.AnalyseModel Analyse.AnalyseSpec Analyse.RefModel
  Storage.KvModel Store.FilterModel Store.StoreModel Store.StoreSpec Store.StoreProofs Store.LookupProofs Store.LookupKinds
  Query.QueryModel Query.QueryStoreModel Query.QuerySpec Query.QueryProofs Query.QueryMembers Query.QueryHistorySpec Query.QueryHistory Whole.IndexSpec Whole.CursorModel Whole.CursorSpec Whole.CursorProofs
  Whole.DefinitionModel Whole.DefinitionSpec Whole.DefinitionProofs Whole.DiagnosticModel Whole.DiagnosticSpec.
Import ListNotations.
Open Scope list_scope.
Open Scope nat_scope.

(** ** Deprecated *)
Section Hints.
Context {TX : Text} {X : XorFilter}.
Lemma hint_walk_visits : forall st tables syms found, fold_left (hint_walk st tables) syms found = fold_left (hint_visit st tables) (flat_map preorder syms) found.
Proof.
  intros st tables. assert (One : forall s found, hint_walk st tables found s = fold_left (hint_visit st tables) (preorder s) found).
  { apply (asym_ind' (fun s => forall found, hint_walk st tables found s = fold_left (hint_visit st tables) (preorder s) found)). intros a kids IH found. cbn [hint_walk preorder fold_left].
    generalize (hint_visit st tables found a). induction IH as [|k ks Hk _ IHk]; intros f; [reflexivity|]. cbn [fold_left flat_map]. rewrite Hk, IHk, fold_left_app. reflexivity. }
  induction syms as [|s syms IH]; intros found; [reflexivity|]. cbn [fold_left flat_map]. rewrite One, IH, fold_left_app. reflexivity.
Qed.
Lemma visits_stuck : forall st tables l, fold_left (hint_visit st tables) l None = None.
Proof. intros st tables. induction l as [|a l IH]; [reflexivity|exact IH]. Qed.
Lemma visits_all : forall st tables l acc res, fold_left (hint_visit st tables) l (Some acc) = Some res ->
  (forall a, In a l -> tag_for st tables a <> None) /\
  forall dg, In dg res <-> In dg acc \/ exists a t, In a l /\ tag_for st tables a = Some (Some t) /\ dg = hint a t.
Proof.
  intros st tables. induction l as [|a l IH]; intros acc res E; cbn [fold_left] in E.
  - injection E as <-. split; [intros a []|]. intros dg. split; [auto|intros [I|(a & t & [] & _)]; exact I].
  - unfold hint_visit at 2 in E. destruct (tag_for st tables a) as [[t|]|] eqn:T; [| |rewrite visits_stuck in E; discriminate E]; apply IH in E as (N & E); (split; [intros b [<-|I]; [congruence|exact (N b I)]|]);
      intros dg; rewrite E; [rewrite in_app_iff|]; split.
    + intros [[I|[<-|[]]]|(b & t' & I & H)]; [left; exact I|right; exists a, t; split; [left; reflexivity|auto]|right; exists b, t'; split; [right; exact I|exact H]].
    + intros [I|(b & t' & [<-|I] & T' & ->)]; [left; left; exact I|left; right; left; congruence|right; exists b, t'; auto].
    + intros [I|(b & t' & I & H)]; [left; exact I|right; exists b, t'; split; [right; exact I|exact H]].
    + intros [I|(b & t' & [<-|I] & T' & ->)]; [left; exact I|congruence|right; exists b, t'; auto].
Qed.
Lemma diagnostics_in : forall st s l, DeprecatedDiagnostics st s = Some l ->
  forall dg, In dg l <-> exists a t, In a (flat_map preorder (st_out s)) /\ tag_for st (st_imports s) a = Some (Some t) /\ dg = hint a t.
Proof.
  intros st s l E dg. unfold DeprecatedDiagnostics in E. rewrite hint_walk_visits in E. apply visits_all in E as (_ & E). rewrite E. split; [intros [[]|H]; exact H|auto].
Qed.

(** what a look-up tells *)
Hypothesis TOK : text_ok TX.
Variables (root : gostr) (h : list event) (st : store).
Hypothesis OK : Forall event_ok h.
Hypothesis RUN : run root h = Some st.
Definition tells (qs : list StoreSpec.query) (found : option (option Symbols.tag)) : Prop :=
  exists o, found = Some o /\ match o with Some t => outdated h qs t | None => forall t, ~ outdated h qs t end.
Lemma keep_deprecation : forall s, deprecation_of (keep s) = deprecation_of s.
Proof. destruct s; reflexivity. Qed.
Lemma first_tag_found : forall tags t, first_tag tags = Some t -> In (Some t) tags.
Proof. induction tags as [|[u|] tags IH]; intros t E; cbn in E; [discriminate E|injection E as ->; left; reflexivity|right; exact (IH t E)]. Qed.
Lemma first_tag_none : forall tags, first_tag tags = None -> forall t, ~ In (Some t) tags.
Proof. induction tags as [|[u|] tags IH]; intros E t; cbn in E; [intros []|discriminate E|intros [I|I]; [discriminate I|exact (IH E t I)]]. Qed.
Lemma tells_one : forall A (inj : A -> symbol) (tag_of : A -> option Symbols.tag) (found : option (list A)) q l,
  (forall a, deprecation_of (inj a) = tag_of a) -> option_map (map inj) found = Some l -> exact_answer h q l -> tells [q] (deprecated_in tag_of found).
Proof.
  intros A inj tag_of found q l Tg E (_ & Ex). destruct found as [l'|]; [|discriminate E]. injection E as <-. unfold deprecated_in. cbn [option_map]. eexists. split; [reflexivity|].
  destruct (first_tag (map tag_of l')) as [t|] eqn:F.
  - apply first_tag_found in F. apply in_map_iff in F as (a & Ta & Ia). apply (in_map inj) in Ia. apply Ex in Ia as (s & C & W & K).
    exists s, q. split; [exact C|]. split; [left; reflexivity|]. split; [exact W|]. rewrite <- keep_deprecation, <- K, Tg. exact Ta.
  - intros t (x & q' & C & [<-|[]] & W & D). apply (first_tag_none _ F t). assert (I : In (keep x) (map inj l')) by (apply Ex; exists x; auto). apply in_map_iff in I as (a & Ea & Ia).
    apply in_map_iff. exists a. split; [|exact Ia]. rewrite <- Tg, Ea, keep_deprecation. exact D.
Qed.
Lemma class_tells : forall n, tells [QClass n] (class_tag st n).
Proof. intros n. destruct (classes_exact TOK root h st OK RUN n) as (l & A & E). exact (tells_one _ SClass _ _ _ _ (fun _ => eq_refl) A E). Qed.
Lemma interface_tells : forall n, tells [QInterface n] (interface_tag st n).
Proof. intros n. destruct (interfaces_exact TOK root h st OK RUN n) as (l & A & E). exact (tells_one _ SInterface _ _ _ _ (fun _ => eq_refl) A E). Qed.
Lemma function_tells : forall n, tells [QFunction n] (function_tag st n).
Proof. intros n. destruct (functions_exact TOK root h st OK RUN n) as (l & A & E). exact (tells_one _ SFunction _ _ _ _ (fun _ => eq_refl) A E). Qed.
Lemma const_tells : forall n, tells [QConst n] (const_tag st n).
Proof. intros n. destruct (consts_exact TOK root h st OK RUN n) as (l & A & E). exact (tells_one _ SConst _ _ _ _ (fun _ => eq_refl) A E). Qed.
Lemma define_tells : forall n, tells [QDefine n] (define_tag st n).
Proof. intros n. destruct (defines_exact TOK root h st OK RUN n) as (l & A & E). exact (tells_one _ SDefine _ _ _ _ (fun _ => eq_refl) A E). Qed.
Lemma tells_nothing : tells [] (first_of []).
Proof. exists None. split; [reflexivity|]. intros t (x & q & _ & [] & _). Qed.
Lemma outdated_app : forall qs1 qs2 t, outdated h (qs1 ++ qs2) t <-> outdated h qs1 t \/ outdated h qs2 t.
Proof.
  intros qs1 qs2 t. unfold outdated. split.
  - intros (x & q & C & I & H). apply in_app_or in I as [I|I]; [left|right]; exists x, q; auto.
  - intros [(x & q & C & I & H)|(x & q & C & I & H)]; exists x, q; (split; [exact C|split; [apply in_or_app; auto|exact H]]).
Qed.
Lemma tells_more : forall qs1 qs2 f loops, tells qs1 f -> tells qs2 (first_of loops) -> tells (qs1 ++ qs2) (first_of (f :: loops)).
Proof.
  intros qs1 qs2 f loops (o1 & -> & T1) (o2 & E2 & T2). cbn [first_of]. destruct o1 as [t|].
  - exists (Some t). split; [reflexivity|]. apply outdated_app. left. exact T1.
  - exists o2. split; [exact E2|]. destruct o2 as [t|]; [apply outdated_app; right; exact T2|]. intros t O. apply outdated_app in O as [O|O]; [exact (T1 t O)|exact (T2 t O)].
Qed.
Lemma tells_types : forall (f : type_string -> list (option (option Symbols.tag))) (qs : type_string -> list StoreSpec.query) types,
  (forall t loops qs2, tells qs2 (first_of loops) -> tells (qs t ++ qs2) (first_of (f t ++ loops))) -> tells (flat_map qs types) (first_of (flat_map f types)).
Proof. intros f qs types H. induction types as [|t types IH]; [exact tells_nothing|]. cbn [flat_map]. apply H. exact IH. Qed.
Lemma flat_singles : forall A B (f : A -> B) l, flat_map (fun x => [f x]) l = map f l.
Proof. intros A B f. induction l as [|x l IH]; [reflexivity|]. cbn. rewrite IH. reflexivity. Qed.
Lemma tag_tells : forall tables a found, tag_for st tables a = Some found -> exists qs, asks a qs /\ tells qs (Some found).
Proof.
  intros tables a found E. unfold tag_for in E. unfold asks.
  assert (Cl : tells (flat_map (fun t => [QClass (ts_fqn t)]) (a_types a)) (first_of (map (fun t => class_tag st (ts_fqn t)) (a_types a)))).
  { rewrite <- (flat_singles _ _ (fun t => class_tag st (ts_fqn t))). apply tells_types. intros t loops qs2 T. apply (tells_more [_]); [apply class_tells|exact T]. }
  assert (It : tells (flat_map (fun t => [QInterface (ts_fqn t)]) (a_types a)) (first_of (map (fun t => interface_tag st (ts_fqn t)) (a_types a)))).
  { rewrite <- (flat_singles _ _ (fun t => interface_tag st (ts_fqn t))). apply tells_types. intros t loops qs2 T. apply (tells_more [_]); [apply interface_tells|exact T]. }
  assert (Bo : tells (flat_map (fun t => [QClass (ts_fqn t); QInterface (ts_fqn t)]) (a_types a)) (first_of (flat_map (fun t => [class_tag st (ts_fqn t); interface_tag st (ts_fqn t)]) (a_types a)))).
  { apply tells_types. intros t loops qs2 T. apply (tells_more [_] (_ :: _)); [apply class_tells|]. apply (tells_more [_]); [apply interface_tells|exact T]. }
  assert (No : forall ts : list type_string, flat_map (fun _ => @nil StoreSpec.query) ts = []) by (induction ts; auto).
  destruct (a_kind a); cbn [hinted];
    try (eexists; split; [reflexivity|]; rewrite No; injection E as <-; exact tells_nothing);
    try (eexists; split; [reflexivity|]; rewrite <- E; assumption).
  - destruct (ImportTableAtPos _ _) as [table|]; [|discriminate E]. destruct (NewTypeString _) as [name|]; [|discriminate E].
    eexists. split; [eexists; reflexivity|]. rewrite <- E. apply function_tells.
  - destruct (ImportTableAtPos _ _) as [table|]; [|discriminate E]. destruct (NewTypeString _) as [name|]; [|discriminate E]. cbv zeta in E.
    eexists. split; [eexists; reflexivity|]. rewrite <- E. apply (tells_more [_] [_]); [apply const_tells|]. apply (tells_more [_] []); [apply define_tells|apply tells_nothing].
Qed.
Lemma description_says : forall name t, says name t (deprecatedDescription (name ++ B " is deprecated") t).
Proof.
  intros name t. unfold says, deprecatedDescription. destruct (Symbols.tg_name t) as [|b v]; destruct (Symbols.tg_description t) as [|c r]; rewrite ?app_nil_r, <- ?app_assoc; cbn [app]; rewrite <- ?app_assoc; rewrite ?app_nil_r; try reflexivity.
Qed.
(** nothing crashes *)
Lemma search_bound : forall fuel f i j, i <= j -> i <= search_loop fuel f i j <= j.
Proof.
  induction fuel as [|fuel IH]; intros f i j L; cbn [search_loop]; [lia|]. destruct (Nat.ltb_spec i j) as [LT|GE]; [|lia].
  assert (D := Nat.div_mod (i + j) 2 ltac:(lia)). assert (MB := Nat.mod_upper_bound (i + j) 2 ltac:(lia)). set (m := (i + j) / 2) in *.
  destruct (f m); cbn [negb]; [specialize (IH f i m)|specialize (IH f (m + 1) j)]; lia.
Qed.
Lemma table_there : forall tables pos, tables <> [] -> ImportTableAtPos tables pos <> None.
Proof.
  intros tables pos N. unfold ImportTableAtPos. apply nth_error_Some. destruct tables as [|t tables]; [destruct (N eq_refl)|].
  set (index := sort_search _ _). assert (L : index <= length (t :: tables)) by (apply search_bound; lia). cbn [length] in *. destruct (Nat.eqb_spec index 0); lia.
Qed.
Lemma name_there : forall name, hd_error (rev name) <> Some x5d -> NewTypeString name <> None.
Proof.
  intros name N. unfold NewTypeString, resolveRawWithArrayLevel. cbn [ts_original ts_array]. destruct (rev name) as [|c r]; [cbn; discriminate|]. cbn [strip_arrays].
  destruct (byte_eqb c x5d) eqn:E; [|cbn; discriminate]. apply byte_eqb_eq in E. subst c. destruct (N eq_refl).
Qed.
Lemma first_of_there : forall loops, (forall x, In x loops -> x <> None) -> first_of loops <> None.
Proof.
  induction loops as [|x loops IH]; intros H; [discriminate|]. cbn [first_of]. destruct x as [[t|]|] eqn:E; [discriminate| |destruct (H None (or_introl eq_refl) eq_refl)]. apply IH. intros y I. exact (H y (or_intror I)).
Qed.
Lemma tells_there : forall qs found, tells qs found -> found <> None.
Proof. intros qs found (o & -> & _). discriminate. Qed.
Lemma tag_there : forall tables a, tables <> [] -> (a_kind a = AFunctionCall \/ a_kind a = AConstantAccess -> hd_error (rev (ts_original (a_name a))) <> Some x5d) -> tag_for st tables a <> None.
Proof.
  intros tables a Nt Na. unfold tag_for.
  assert (Cl : forall n, class_tag st n <> None) by (intros n; exact (tells_there _ _ (class_tells n))).
  assert (It : forall n, interface_tag st n <> None) by (intros n; exact (tells_there _ _ (interface_tells n))).
  destruct (a_kind a); try discriminate.
  all: try (pose proof (table_there tables (r_start (a_range a)) Nt) as Ti; destruct (ImportTableAtPos tables (r_start (a_range a))) as [table|]; [|destruct (Ti eq_refl)];
    pose proof (name_there _ (Na ltac:(auto))) as Ni; destruct (NewTypeString (ts_original (a_name a))) as [name|]; [|destruct (Ni eq_refl)]).
  all: try exact (tells_there _ _ (function_tells _)).
  all: apply first_of_there; intros x I.
  all: try (destruct I as [<-|[<-|[]]]; [exact (tells_there _ _ (const_tells _))|exact (tells_there _ _ (define_tells _))]).
  all: try (apply in_map_iff in I as (t & <- & _); (apply Cl || apply It)).
  all: apply in_flat_map in I as (t & _ & [<-|[<-|[]]]); (apply Cl || apply It).
Qed.
Lemma visits_there : forall tables l acc, (forall a, In a l -> tag_for st tables a <> None) -> fold_left (hint_visit st tables) l (Some acc) <> None.
Proof.
  intros tables. induction l as [|a l IH]; intros acc H; [discriminate|]. cbn [fold_left]. unfold hint_visit at 2. specialize (H a (or_introl eq_refl)) as Ha.
  destruct (tag_for st tables a) as [[t|]|]; [| |destruct (Ha eq_refl)]; apply IH; intros b I; exact (H b (or_intror I)).
Qed.
(** the hints at a symbol that is alone in its range *)
Lemma hints_at : forall s l a qs, DeprecatedDiagnostics st s = Some l -> In a (flat_map preorder (st_out s)) -> one_at (st_out s) (a_range a) ->
  tells qs (tag_for st (st_imports s) a) -> hinted_at h qs (ts_original (a_name a)) (a_range a) l.
Proof.
  intros s l a qs E Ia One (o & T & O). pose proof (diagnostics_in st s l E) as D. split.
  - intros (t & Ot). destruct o as [t'|]; [|destruct (O t Ot)]. exists (hint a t'). split; [|reflexivity]. apply D. exists a, t'. auto.
  - intros dg Id Rd. apply D in Id as (b & t & Ib & Tb & ->). cbn [hint dg_range] in Rd. rewrite (One b a Ib Ia Rd eq_refl) in *. rewrite T in Tb. injection Tb as ->.
    split; [reflexivity|]. split; [reflexivity|]. exists t. split; [exact O|]. apply description_says.
Qed.
End Hints.

(** ** Syntax errors *)
Section Tree_ind.
Variable P : tree -> Prop.
Hypothesis HP : forall ty kids, Forall P kids -> P (TPhrase ty kids).
Hypothesis HT : forall t, P (TToken t).
Hypothesis HE : forall e, P (TError e).
Fixpoint tree_ind' (n : tree) : P n :=
  match n with
  | TPhrase ty kids => HP ty kids ((fix all (l : list tree) : Forall P l := match l with [] => Forall_nil P | k :: l => Forall_cons k (tree_ind' k) (all l) end) kids)
  | TToken t => HT t
  | TError e => HE e
  end.
End Tree_ind.
Section Errors.
Variables (type_name : token_type -> gostr) (d : document).
Lemma error_reported : forall e, placed_error e -> exists dg, parserErrorToDiagnostic type_name d e = Some dg /\ reports type_name d e dg.
Proof.
  intros e Pl. assert (R : exists r, errorRange d e = Some r /\ exists first last, error_tokens e first last /\ r = Rng (pos_at d (t_offset first)) (pos_at d (t_end last))).
  { unfold errorRange, error_tokens. destruct (pe_children e) as [|c cs] eqn:Ec.
    - destruct Pl as [N|N]; [destruct (N Ec)|]. destruct (pe_unexpected e) as [u|]; [|destruct (N eq_refl)]. eexists. split; [reflexivity|]. exists u, u. auto.
    - eexists. split; [reflexivity|]. exists c, (last cs c). split; [|reflexivity]. split; [exists cs; reflexivity|]. exists (removelast (c :: cs)).
      rewrite (app_removelast_last c) at 1 by discriminate. f_equal. f_equal. destruct cs as [|c' cs]; [reflexivity|]. cbn [last]. reflexivity. }
  destruct R as (r & Er & Tr). unfold parserErrorToDiagnostic. rewrite Er. eexists. split; [reflexivity|]. split; [reflexivity|]. split; [|exact Tr].
  cbn [dg_message]. unfold error_message. destruct (pe_unexpected e) as [u|]; destruct (pe_expected e) as [x|]; try reflexivity.
  cbn. rewrite <- !app_assoc. cbn. rewrite <- ?app_assoc. reflexivity.
Qed.
Lemma walk_stuck : forall n, parser_walk type_name d None n = None.
Proof.
  apply (tree_ind' (fun n => parser_walk type_name d None n = None)); [|reflexivity|reflexivity]. intros ty kids IH.
  assert (F : fold_left (parser_walk type_name d) kids None = None) by (induction IH as [|k ks Hk _ IHk]; [reflexivity|cbn [fold_left]; rewrite Hk; exact IHk]).
  destruct ty; try exact F. reflexivity.
Qed.
Lemma walk_reports : forall n es, errors_of n es -> Forall placed_error es -> forall found, exists l,
  parser_walk type_name d (Some found) n = Some (found ++ l) /\ Forall2 (reports type_name d) es l.
Proof.
  apply (tree_ind' (fun n => forall es, errors_of n es -> Forall placed_error es -> forall found, exists l, parser_walk type_name d (Some found) n = Some (found ++ l) /\ Forall2 (reports type_name d) es l)).
  - intros ty kids IH es E Pl found. inversion E as [kids' E1|ty' kids' parts Nt F E1| |]; subst.
    + exists []. cbn [parser_walk]. rewrite app_nil_r. split; [reflexivity|constructor].
    + assert (W : parser_walk type_name d (Some found) (TPhrase ty kids) = fold_left (parser_walk type_name d) kids (Some found)) by (destruct ty; try reflexivity; destruct (Nt eq_refl)). rewrite W.
      clear W E Nt. revert parts F Pl found. induction IH as [|k ks Hk _ IHk]; intros parts F Pl found; inversion F as [|? es1 ? es2 F1 F2]; subst; cbn [fold_left concat] in *.
      * exists []. rewrite app_nil_r. split; [reflexivity|constructor].
      * apply Forall_app in Pl as (P1 & P2). destruct (Hk es1 F1 P1 found) as (l1 & E1 & R1). rewrite E1. destruct (IHk es2 F2 P2 (found ++ l1)) as (l2 & E2 & R2).
        exists (l1 ++ l2). rewrite E2, app_assoc. split; [reflexivity|]. apply Forall2_app; assumption.
  - intros t es E _ found. inversion E; subst. exists []. cbn [parser_walk]. rewrite app_nil_r. split; [reflexivity|constructor].
  - intros e es E Pl found. inversion E; subst. inversion Pl as [|? ? P1 _]; subst. destruct (error_reported e P1) as (dg & Ed & R). exists [dg]. cbn [parser_walk]. rewrite Ed. split; [reflexivity|]. constructor; [exact R|constructor].
Qed.
Lemma errors_exist : forall n, exists es, errors_of n es.
Proof.
  apply (tree_ind' (fun n => exists es, errors_of n es)); [|intros t; eexists; constructor|intros e; eexists; constructor]. intros ty kids IH.
  assert (D : ty = PhDocumentComment \/ ty <> PhDocumentComment) by (destruct ty; (left; reflexivity) || (right; discriminate)). destruct D as [->|N]; [eexists; constructor|].
  assert (F : exists parts, Forall2 errors_of kids parts).
  { induction IH as [|k ks (e & He) _ (es & IHs)]; [exists []; constructor|]. exists (e :: es). constructor; assumption. }
  destruct F as (parts & F). eexists. apply errors_phrase; eassumption.
Qed.
End Errors.
